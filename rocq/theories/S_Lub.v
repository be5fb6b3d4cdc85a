(** Specification of common supertypes and subtypes. *)
From Coq Require Import List Arith Bool Lia.
From Verif Require Import S_Sub.
Import ListNotations.

(** A row of positional components. *)
Inductive pos : ty -> Prop :=
| pos_nil : pos (Nil false)
| pos_row : forall t r, pos r -> pos (Row false 0 t r)
| pos_star : forall r, pos (Star false r).
(** Types with classes without arguments, without keyword components, without option of an option or of None, and with None only where [pol] is true; parameters of functions turn [pol] around. *)
Inductive simp : bool -> ty -> Prop :=
| s_par : forall pol v, simp pol (Par v)
| s_con : forall pol c, simp pol (Con c [])
| s_fun : forall pol e p t, simp pol e -> simp (negb pol) p -> pos p -> simp pol t -> simp pol (Fun e p (Nil true) t)
| s_tup : forall pol p, simp pol p -> pos p -> simp pol (Tup p (Nil true))
| s_opt : forall pol t, simp pol t -> (forall u, t <> Opt u) -> t <> Non -> simp pol (Opt t)
| s_none : simp true Non
| s_eff : forall pol e, simp pol (Eff e)
| s_nil : forall pol k, simp pol (Nil k)
| s_row : forall pol k l t r, simp pol t -> simp pol r -> simp pol (Row k l t r)
| s_star : forall pol k r, simp pol r -> simp pol (Star k r).
(** Subtypes, if [ancs c] are the classes that [c] inherits from. *)
Definition below (ancs : nat -> list nat) (bound : nat -> nat * list ty) : ty -> ty -> Prop :=
  sub (fun c ts d us => ts = [] /\ us = [] /\ In d (c :: ancs c)) (fun _ => False) bound (wft (fun _ => 0) true).

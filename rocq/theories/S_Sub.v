(** Specification of subtyping. *)
From Coq Require Import List Arith Bool Lia.
Import ListNotations.

(** The effects of functions. *)
Inductive fx := Pure | Mut | Proc | Action.
(** Types: parameters, classes with arguments, functions (effect, positional and keyword row, result), tuples, options, None, effects, rows. *)
Inductive ty :=
| Par (v : nat)
| Con (c : nat) (ts : list ty)
| Fun (e p k t : ty)
| Tup (p k : ty)
| Opt (t : ty)
| Non
| Eff (e : fx)
| Nil (k : bool)
| Row (k : bool) (label : nat) (t r : ty)
| Star (k : bool) (r : ty).

Section Sub.
(** [heir c ts d us]: class [c] with arguments [ts] inherits from [d] with arguments [us], or is the same. *)
Variable heir : nat -> list ty -> nat -> list ty -> Prop.
(** The classes whose arguments can be replaced by subtypes. *)
Variable covariant : nat -> Prop.
(** The class that bounds a parameter. *)
Variable bound : nat -> nat * list ty.
(** What may stand between two types. *)
Variable ok : ty -> Prop.
(** [sub t u]: whatever is a [t] can be used as a [u]. *)
Inductive sub : ty -> ty -> Prop :=
| sub_refl : forall t, sub t t
| sub_trans : forall t u w, ok u -> sub t u -> sub u w -> sub t w
| sub_bound : forall v, sub (Par v) (Con (fst (bound v)) (snd (bound v)))
| sub_class : forall c ts d us, heir c ts d us -> sub (Con c ts) (Con d us)
| sub_args : forall c ts us, covariant c -> subs ts us -> sub (Con c ts) (Con c us)
| sub_fun : forall e1 p1 k1 t1 e2 p2 k2 t2, sub e1 e2 -> sub p2 p1 -> sub k2 k1 -> sub t1 t2 -> sub (Fun e1 p1 k1 t1) (Fun e2 p2 k2 t2)
| sub_tup : forall p1 k1 p2 k2, sub p1 p2 -> sub k1 k2 -> sub (Tup p1 k1) (Tup p2 k2)
| sub_opt : forall t u, sub t u -> sub (Opt t) (Opt u)
| sub_none : forall t, sub Non (Opt t)
| sub_some : forall t, sub t (Opt t)
| sub_pure_mut : sub (Eff Pure) (Eff Mut)
| sub_mut_proc : sub (Eff Mut) (Eff Proc)
| sub_action_proc : sub (Eff Action) (Eff Proc)
| sub_row : forall k l t1 r1 t2 r2, sub t1 t2 -> sub r1 r2 -> sub (Row k l t1 r1) (Row k l t2 r2)
| sub_star : forall k r1 r2, sub r1 r2 -> sub (Star k r1) (Star k r2)
with subs : list ty -> list ty -> Prop :=
| subs_nil : subs [] []
| subs_cons : forall t u ts us, sub t u -> subs ts us -> subs (t :: ts) (u :: us).
End Sub.

(** Right numbers of arguments and no option of an option; type parameters only if [pa]. *)
Inductive wft (arity : nat -> nat) (pa : bool) : ty -> Prop :=
| w_par : forall v, pa = true -> wft arity pa (Par v)
| w_con : forall c ts, length ts = arity c -> (forall t, In t ts -> wft arity pa t) -> wft arity pa (Con c ts)
| w_fun : forall e p k t, wft arity pa e -> wft arity pa p -> wft arity pa k -> wft arity pa t -> wft arity pa (Fun e p k t)
| w_tup : forall p k, wft arity pa p -> wft arity pa k -> wft arity pa (Tup p k)
| w_opt : forall t, wft arity pa t -> (forall u, t <> Opt u) -> wft arity pa (Opt t)
| w_none : wft arity pa Non
| w_eff : forall e, wft arity pa (Eff e)
| w_nil : forall k, wft arity pa (Nil k)
| w_row : forall k l t r, wft arity pa t -> wft arity pa r -> wft arity pa (Row k l t r)
| w_star : forall k r, wft arity pa r -> wft arity pa (Star k r).

(** Parameter [v] occurs in the type. *)
Inductive has (v : nat) : ty -> Prop :=
| has_par : has v (Par v)
| has_con : forall c ts t, In t ts -> has v t -> has v (Con c ts)
| has_fun1 : forall e p k t, has v e -> has v (Fun e p k t)
| has_fun2 : forall e p k t, has v p -> has v (Fun e p k t)
| has_fun3 : forall e p k t, has v k -> has v (Fun e p k t)
| has_fun4 : forall e p k t, has v t -> has v (Fun e p k t)
| has_tup1 : forall p k, has v p -> has v (Tup p k)
| has_tup2 : forall p k, has v k -> has v (Tup p k)
| has_opt : forall t, has v t -> has v (Opt t)
| has_row1 : forall k l t r, has v t -> has v (Row k l t r)
| has_row2 : forall k l t r, has v r -> has v (Row k l t r)
| has_star : forall k r, has v r -> has v (Star k r).

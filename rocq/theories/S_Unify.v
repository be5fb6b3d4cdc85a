(** Specification of unification: types, substitutions. *)
From Coq Require Import List Arith Bool Lia.
Import ListNotations.

(** What a type is made with: type variable, class or actor, function (effect, rows, result), tuple (two rows), option, None, empty row, row, rest of a row, effect. *)
Inductive head := HVar (v : nat) | HCon (n : nat) | HFun | HTuple | HOpt | HNone | HNil (k : bool) | HRow (k : bool) (label : nat) | HStar (k : bool) | HFX (fx : nat).
(** A type: a unification variable, or a head with its arguments. *)
Inductive ty := Uni (v : nat) | Node (h : head) (ts : list ty).

(** An option of an option is an option. *)
Definition mk (h : head) (ts : list ty) : ty := match h, ts with HOpt, [Node HOpt us] => Node HOpt us | _, _ => Node h ts end.
(** All variables replaced. *)
Fixpoint gsub (th : nat -> ty) (x : ty) : ty := match x with Uni v => th v | Node h ts => mk h (map (gsub th) ts) end.
Fixpoint vars (x : ty) : list nat := match x with Uni v => [v] | Node _ ts => flat_map vars ts end.

Section Arity.
(** The number of parameters of every class. *)
Variable con_arity : nat -> nat.
Definition arity (h : head) : nat := match h with HVar _ => 0 | HCon n => con_arity n | HFun => 4 | HTuple => 2 | HOpt => 1 | HNone => 0 | HNil _ => 0 | HRow _ _ => 2 | HStar _ => 1 | HFX _ => 0 end.
(** Right numbers of arguments, and no option of an option. *)
Inductive wf : ty -> Prop :=
| wf_uni : forall v, wf (Uni v)
| wf_node : forall h ts, length ts = arity h -> (forall t, In t ts -> wf t) -> mk h ts = Node h ts -> wf (Node h ts).
End Arity.

(** [th] makes no option of what is under an option already. *)
Definition is_opt (x : ty) : Prop := exists us, x = Node HOpt us.
Inductive plain (th : nat -> ty) : ty -> Prop :=
| plain_uni : forall v, plain th (Uni v)
| plain_node : forall h ts, (forall t, In t ts -> plain th t) -> (forall t, h = HOpt -> ts = [t] -> ~ is_opt (gsub th t)) -> plain th (Node h ts).
(** No options at all. *)
Inductive no_opt : ty -> Prop :=
| no_uni : forall v, no_opt (Uni v)
| no_node : forall h ts, h <> HOpt -> (forall t, In t ts -> no_opt t) -> no_opt (Node h ts).
(** [th] makes the types of every pair equal. *)
Definition unifies (th : nat -> ty) (ps : list (ty * ty)) : Prop := forall a b, In (a, b) ps -> gsub th a = gsub th b.
(** [th] does what the bindings say. *)
Definition agrees (th : nat -> ty) (s : list (nat * ty)) : Prop := forall v t, In (v, t) s -> th v = gsub th t.

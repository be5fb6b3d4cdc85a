(** Specification of comparisons: the lexicographic order. *)
From Verif Require Import Base.

(** What the element's witness is assumed to be: [eq] decides equality, [ne] is its
    negation and [lt] decides a strict total order [R]. *)
Record total_witness {A} (eq ne lt : A -> A -> bool) (R : A -> A -> Prop) : Prop := {
  tw_eq : forall x y, eq x y = true <-> x = y;
  tw_ne : forall x y, ne x y = negb (eq x y);
  tw_lt : forall x y, lt x y = true <-> R x y;
  tw_irr : forall x, ~ R x x;
  tw_trans : forall x y z, R x y -> R y z -> R x z;
  tw_total : forall x y, R x y \/ x = y \/ R y x
}.

(** Strict lexicographic order: either [xs] is a proper prefix of [ys], or after a
    common prefix the first differing element of [xs] is smaller. *)
Definition lex {A} (R : A -> A -> Prop) (xs ys : list A) : Prop :=
  (exists y t, ys = xs ++ y :: t) \/
  (exists p x y s t, xs = p ++ x :: s /\ ys = p ++ y :: t /\ R x y).

(** Lexicographic order on tuples whose component [i] is ordered by [Rs i]: at the
    first differing position the component of [a] is smaller. *)
Definition tuple_less {W} (Rs : nat -> W -> W -> Prop) (a b : list W) : Prop :=
  exists i x y, firstn i a = firstn i b /\ nth_error a i = Some x /\ nth_error b i = Some y /\ Rs i x y.

(** Specification of sorting. *)
From Verif Require Import Base S_Iter.
From Coq Require Import Sorted Permutation.

(** Elements the order does not distinguish. *)
Definition equiv {A} (lt : A -> A -> bool) (x y : A) : bool := negb (lt x y) && negb (lt y x).

(** Non-decreasing: no element is smaller than an earlier one. *)
Definition nondecreasing {A} (lt : A -> A -> bool) (l : list A) : Prop :=
  forall i j x y, (i < j)%nat -> nth_error l i = Some x -> nth_error l j = Some y -> lt y x = false.

(** Equivalent elements keep their relative order. *)
Definition stable {A} (lt : A -> A -> bool) (before after : list A) : Prop :=
  forall x, filter (equiv lt x) after = filter (equiv lt x) before.

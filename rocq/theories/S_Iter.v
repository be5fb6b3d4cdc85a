(** Specification of iteration. *)
From Verif Require Import Base M_Iter.
From Coq Require Import Sorted.

(** [produces nx s xs]: calling __next__ repeatedly from state [s] returns the
    elements of [xs] in order and then raises StopIteration. *)
Inductive produces {S A} (nx : next_fn S A) : S -> list A -> Prop :=
| prod_nil s : nx s = Exn StopIteration -> produces nx s []
| prod_cons s x s' xs : nx s = Ok (x, s') -> produces nx s' xs -> produces nx s (x :: xs).

(** The values of range(a, b, s). *)
Definition is_range (a b s : Z) (xs : list Z) : Prop :=
  (0 < s -> StronglySorted Z.lt xs /\
            forall x, In x xs <-> (a <= x < b /\ (x - a) mod s = 0)) /\
  (s < 0 -> StronglySorted Z.gt xs /\
            forall x, In x xs <-> (b < x <= a /\ (a - x) mod (- s) = 0)).

(** The case the code gets wrong: the direction of [s] is away from [b], but [b]
    is closer to [a] than one step. *)
Definition overshoot (a b s : Z) : Prop :=
  (0 < s /\ a - s < b < a) \/ (s < 0 /\ a < b < a - s).

(** [x] is a greatest / least element of [xs] with respect to [lt]. *)
Definition greatest {A} (lt : A -> A -> bool) (xs : list A) (x : A) : Prop :=
  In x xs /\ forall y, In y xs -> lt x y = false.
Definition least {A} (lt : A -> A -> bool) (xs : list A) (x : A) : Prop :=
  In x xs /\ forall y, In y xs -> lt y x = false.

(** Strict weak order: what the Ord protocol promises. *)
Record weak_order {A} (lt : A -> A -> bool) : Prop := {
  wo_irrefl : forall x, lt x x = false;
  wo_trans : forall x y z, lt x y = true -> lt y z = true -> lt x z = true;
  wo_negtrans : forall x y z, lt x y = false -> lt y z = false -> lt x z = false
}.

(** Property theorems C14 and C50: sorted(). *)
From Verif Require Import Base M_Timsort S_Iter S_Sort P_Timsort P_TimsortSafe.
From Coq Require Import Permutation.

(** sorted() of every list of fewer than 2^62 elements terminates without undefined
    behaviour, for every strict weak order; the result is a stable sorted permutation. *)
Theorem C14_sorted : forall (A : Type) (lt eq : A -> A -> bool) (xs : list A) (fuel : nat),
  weak_order lt -> (forall x y, eq x y = equiv lt x y) ->
  zlen xs < 2 ^ 62 -> (2 * length xs + 4 < fuel)%nat ->
  exists ys, tim_sort lt eq fuel xs = Ok ys /\ Permutation xs ys /\ nondecreasing lt ys /\ stable lt xs ys.
Proof. intros A lt eq xs fuel W HE H1 H2. exact (sorted_spec lt eq W HE fuel xs H1 H2). Qed.
Print Assumptions C14_sorted.

(** A 100 element list of (key, position) pairs with repeated keys, long enough for runs and merges. *)
Definition C14_lt (p q : Z * Z) : bool := fst p <? fst q.
Definition C14_eq (p q : Z * Z) : bool := fst p =? fst q.
Definition C14_input : list (Z * Z) := map (fun i => let z := Z.of_nat i in ((z * 37) mod 11 - z / 40, z)) (seq 0 100).
Example C14_case : weak_order C14_lt /\ (forall x y, C14_eq x y = equiv C14_lt x y) /\ zlen C14_input < 2 ^ 62 /\
  exists ys, tim_sort C14_lt C14_eq 205 C14_input = Ok ys /\ firstn 3 ys = [(-2, 88); (-2, 99); (-1, 44)].
Proof.
  split; [constructor; unfold C14_lt; intros; lia|].
  split; [intros; unfold C14_eq, C14_lt, equiv; lia|].
  split; [vm_compute; reflexivity|]. eexists. split; vm_compute; reflexivity.
Qed.

(** Whatever the comparison answers (NaN, a user-defined order that is not an order),
    sorted() terminates, stays inside the array and returns a permutation. *)
Theorem C50_sorted_any_comparison : forall (A : Type) (lt eq : A -> A -> bool) (xs : list A) (fuel : nat),
  zlen xs < 2 ^ 62 -> (2 * length xs + 4 < fuel)%nat ->
  exists ys, tim_sort lt eq fuel xs = Ok ys /\ Permutation xs ys.
Proof. intros A lt eq xs fuel H1 H2. exact (sorted_safe lt eq fuel xs H1 H2). Qed.
Print Assumptions C50_sorted_any_comparison.

(** A comparison that is no order at all. *)
Example C50_case : exists ys,
  tim_sort (fun x y => Z.even (x + y * 3 / 2)) (fun x y => Z.odd (x / 2 + y)) 205 (map Z.of_nat (seq 0 100)) = Ok ys /\
  length ys = 100%nat.
Proof. eexists. split; vm_compute; reflexivity. Qed.

(** Property theorems C07 and C48: range and the iterator functions. *)
From Verif Require Import Base M_Iter S_Iter P_Iter.
From Coq Require Import Sorted.

(** ** C07 *)
Theorem C07_range_partial : forall a b s : Z,
  inS 64 a -> inS 64 b -> inS 64 s -> s <> 0 ->
  - 2 ^ 63 < b - a < 2 ^ 63 -> ~ overshoot a b s ->
  exists r xs, range_init a (Some b) (Some s) = Ok r /\ produces range_next r xs /\ is_range a b s xs.
Proof.
  intros a b s Ha Hb Hs Hs0 Hd Ho. apply range_correct; try assumption; try (unfold inS; lia).
Qed.
Print Assumptions C07_range_partial.

Theorem C07_range_step0 : forall a b, range_init a b (Some 0) = Exn ValueError.
Proof. intros a [b|]; reflexivity. Qed.
Print Assumptions C07_range_step0.

Example C07_case : inS 64 10 /\ inS 64 (-3) /\ ~ overshoot 10 (-3) (-4) /\ is_range 10 (-3) (-4) [10; 6; 2; -2].
Proof.
  split; [unfold inS; lia|]. split; [unfold inS; lia|]. split; [unfold overshoot; lia|].
  split; [lia|]. intros _. split; [repeat constructor; lia|].
  intros x. split.
  - intros [<-|[<-|[<-|[<-|[]]]]]; (split; [lia|reflexivity]).
  - intros [Hx Hm]. change (- -4) with 4 in Hm.
    assert (10 - x = 4 * ((10 - x) / 4)) by (apply Z_div_exact_full_2; lia). cbn. lia.
Qed.

(** range(0, 1, -2) yields 0; it should yield nothing. *)
Theorem C07_range_refuted : exists a b s r xs,
  range_init a (Some b) (Some s) = Ok r /\ produces range_next r xs /\ xs <> [] /\ is_range a b s [].
Proof.
  exists 0, 1, (-2). eexists. exists [0]. split; [reflexivity|]. split.
  - econstructor; [reflexivity|]. apply prod_nil. reflexivity.
  - split; [discriminate|]. split; [lia|]. intros _. split; [constructor|].
    intros x; split; [intros []|]. intros [? _]. lia.
Qed.
Print Assumptions C07_range_refuted.

(** ** C48 *)
Theorem C48_enumerate : forall (S A : Type) (nx : next_fn S A) s xs n,
  produces nx s xs -> inS 64 n -> inS 64 (n + zlen xs) ->
  produces (enumerate_next nx) (s, n) (combine (map (fun i => n + Z.of_nat i) (seq 0 (length xs))) xs).
Proof. exact @enumerate_produces. Qed.
Print Assumptions C48_enumerate.

Theorem C48_map : forall (S A B : Type) (nx : next_fn S A) (f : A -> B) s xs,
  produces nx s xs -> produces (map_next nx f) s (map f xs).
Proof. exact @map_produces. Qed.
Print Assumptions C48_map.

Theorem C48_zip : forall (S1 S2 A B : Type) (nx1 : next_fn S1 A) (nx2 : next_fn S2 B) s1 xs s2 ys,
  produces nx1 s1 xs -> produces nx2 s2 ys ->
  produces (zip_next nx1 nx2) (s1, s2) (combine xs ys).
Proof. intros. apply zip_produces; assumption. Qed.
Print Assumptions C48_zip.

(** filter terminates on every finite source: the fuel is any number above its length. *)
Theorem C48_filter : forall (S A : Type) (nx : next_fn S A) (p : A -> bool) s xs fuel,
  produces nx s xs -> (length xs < fuel)%nat ->
  produces (filter_next fuel nx p) s (filter p xs).
Proof. exact @filter_produces. Qed.
Print Assumptions C48_filter.

Theorem C48_max_partial : forall (S A : Type) (nx : next_fn S A) (lt : A -> A -> bool), weak_order lt ->
  forall s xs fuel, produces nx s xs -> (length xs < fuel)%nat ->
  (xs = [] -> b_max nx lt fuel s None = Exn ValueError /\
              forall d, b_max nx lt fuel s (Some d) = Ok d) /\
  (xs <> [] -> exists m, b_max nx lt fuel s None = Ok m /\ greatest lt xs m).
Proof.
  intros S A nx lt W s xs fuel HP Hf. pose proof (max_spec nx lt W s xs fuel HP Hf) as H.
  split; [intros ->; split; [assumption|]|].
  - intros d. apply max_default_empty; [assumption|cbn in Hf; lia].
  - intros Hne. destruct xs; [congruence|assumption].
Qed.
Print Assumptions C48_max_partial.

(** With a default that exceeds the elements of a non-empty iterable, max returns
    the default. *)
Theorem C48_max_default_refuted : exists (nx : next_fn (list Z) Z) s xs d,
  produces nx s xs /\ xs <> [] /\ ~ In d xs /\ b_max nx Z.ltb 9 s (Some d) = Ok d.
Proof.
  exists (fun s => match s with [] => Exn StopIteration | x :: t => Ok (x, t) end), [1], [1], 5.
  split; [econstructor; [reflexivity|]; constructor; reflexivity|].
  split; [discriminate|]. split; [intros [H|[]]; discriminate|reflexivity].
Qed.
Print Assumptions C48_max_default_refuted.

Theorem C48_min : forall (S A : Type) (nx : next_fn S A) (lt gt : A -> A -> bool), weak_order lt ->
  (forall x y, gt x y = lt y x) ->
  forall s xs fuel d, produces nx s xs -> (length xs < fuel)%nat ->
  (xs = [] -> b_min nx gt fuel s d = (match d with Some v => Ok v | None => Exn ValueError end)) /\
  (xs <> [] -> exists m, b_min nx gt fuel s d = Ok m /\ least lt xs m).
Proof.
  intros S A nx lt gt W Hgt s xs fuel d HP Hf.
  pose proof (min_spec nx lt gt W Hgt s xs fuel d HP Hf) as H.
  split; [intros ->; assumption|]. intros Hne. destruct xs; [congruence|assumption].
Qed.
Print Assumptions C48_min.

Theorem C48_sum : forall (S A : Type) (nx : next_fn S A) (add : A -> A -> A) (zero : A) s xs fuel start,
  produces nx s xs -> (length xs < fuel)%nat ->
  b_sum nx fuel add zero s start
  = Ok (fold_left add xs (match start with Some v => v | None => zero end)).
Proof. exact @sum_spec. Qed.
Print Assumptions C48_sum.

Definition list_next : next_fn (list Z) Z :=
  fun s => match s with [] => Exn StopIteration | x :: t => Ok (x, t) end.
Example C48_case : produces list_next [3; 1; 2] [3; 1; 2] /\ weak_order Z.ltb /\
  (forall x y, Z.gtb x y = Z.ltb y x) /\ greatest Z.ltb [3; 1; 2] 3.
Proof.
  split; [repeat (econstructor; [reflexivity|]); constructor; reflexivity|].
  split; [constructor; intros; lia|]. split; [intros; lia|].
  split; [left; reflexivity|]. intros y [<-|[<-|[<-|[]]]]; reflexivity.
Qed.

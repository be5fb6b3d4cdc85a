(** Lemmas about the shared vocabulary (arrays, machine integers, sorted lists). *)
From Verif Require Import Base.
From Coq Require Import Sorted Permutation.

(** ** nth_error calculus *)
Lemma ne_app {A} (l l' : list A) i :
  nth_error (l ++ l') i =
  if (i <? length l)%nat then nth_error l i else nth_error l' (i - length l).
Proof.
  destruct (i <? length l)%nat eqn:E.
  - apply nth_error_app1. lia.
  - apply nth_error_app2. lia.
Qed.

Lemma ne_none {A} (l : list A) i : (length l <= i)%nat -> nth_error l i = None.
Proof. apply nth_error_None. Qed.

Lemma ne_firstn {A} n (l : list A) i :
  nth_error (firstn n l) i = if (i <? n)%nat then nth_error l i else None.
Proof.
  revert l i; induction n as [|n IH]; intros l i.
  - cbn. destruct i; reflexivity.
  - destruct l as [|x l]; cbn [firstn].
    + destruct i as [|i]; cbn [nth_error]; destruct (Nat.ltb _ (S n)); reflexivity.
    + destruct i as [|i]; cbn [nth_error]; [reflexivity|].
      rewrite IH. change (S i <? S n)%nat with (i <? n)%nat. reflexivity.
Qed.

Lemma ne_skipn {A} n (l : list A) i : nth_error (skipn n l) i = nth_error l (n + i).
Proof.
  revert l i; induction n as [|n IH]; intros l i; [reflexivity|].
  destruct l as [|x l]; cbn [skipn Nat.add nth_error].
  - destruct i; reflexivity.
  - apply IH.
Qed.

Lemma ne_cons {A} x (l : list A) i :
  nth_error (x :: l) i = if (i =? 0)%nat then Some x else nth_error l (i - 1).
Proof. destruct i as [|i]; cbn; [reflexivity|]. rewrite Nat.sub_0_r. reflexivity. Qed.

Lemma ne_repeat {A} (x : A) n i :
  nth_error (repeat x n) i = if (i <? n)%nat then Some x else None.
Proof.
  revert i; induction n as [|n IH]; intros i; cbn [repeat].
  - destruct i; reflexivity.
  - destruct i as [|i]; cbn [nth_error]; [reflexivity|]. rewrite IH. reflexivity.
Qed.

Lemma ne_map {A B} (f : A -> B) l i : nth_error (map f l) i = option_map f (nth_error l i).
Proof. revert i; induction l as [|x l IH]; intros [|i]; cbn; auto. Qed.

Lemma ne_rev {A} (l : list A) i :
  nth_error (rev l) i =
  if (i <? length l)%nat then nth_error l (length l - 1 - i) else None.
Proof.
  induction l as [|x l IH] in i |- *; cbn [rev length].
  - destruct i; reflexivity.
  - rewrite ne_app, rev_length, IH.
    destruct (i <? length l)%nat eqn:E1; destruct (i <? S (length l))%nat eqn:E2; try lia.
    + rewrite ne_cons. destruct (_ =? 0)%nat eqn:E3; [lia|]. f_equal; lia.
    + assert (i = length l) by lia. subst.
      replace (length l - length l)%nat with 0%nat by lia.
      replace (S (length l) - 1 - length l)%nat with 0%nat by lia. reflexivity.
    + apply ne_none. cbn. lia.
Qed.

Lemma ne_seq s n i : nth_error (seq s n) i = if (i <? n)%nat then Some (s + i)%nat else None.
Proof.
  revert s i; induction n as [|n IH]; intros s i; cbn [seq].
  - destruct i; reflexivity.
  - destruct i as [|i]; cbn [nth_error].
    + cbn; f_equal; lia.
    + rewrite IH. change (S i <? S n)%nat with (i <? n)%nat.
      destruct (i <? n)%nat; [f_equal; lia|reflexivity].
Qed.

Lemma ne_some {A} (l : list A) i : (i < length l)%nat -> exists x, nth_error l i = Some x.
Proof.
  intros H. destruct (nth_error l i) eqn:E; eauto. apply nth_error_None in E. lia.
Qed.

Lemma ne_lt {A} (l : list A) i x : nth_error l i = Some x -> (i < length l)%nat.
Proof. intros H. apply nth_error_Some. congruence. Qed.

Lemma list_ext {A} (l l' : list A) : (forall i, nth_error l i = nth_error l' i) -> l = l'.
Proof.
  revert l'; induction l as [|x l IH]; intros [|y l'] H.
  - reflexivity.
  - specialize (H 0%nat). discriminate.
  - specialize (H 0%nat). discriminate.
  - f_equal.
    + specialize (H 0%nat). cbn in H. congruence.
    + apply IH. intros i. exact (H (S i)).
Qed.

(** ** Z-indexed arrays *)
Lemma zlen_nonneg {A} (l : list A) : 0 <= zlen l.
Proof. unfold zlen. lia. Qed.

Lemma zlen_app {A} (l l' : list A) : zlen (l ++ l') = zlen l + zlen l'.
Proof. unfold zlen. rewrite app_length. lia. Qed.

Lemma zget_nat {A} (l : list A) i : 0 <= i -> zget l i = nth_error l (Z.to_nat i).
Proof. intros H. unfold zget. destruct (i <? 0) eqn:E; [lia|reflexivity]. Qed.

Lemma zget_of_nat {A} (l : list A) i : zget l (Z.of_nat i) = nth_error l i.
Proof. rewrite zget_nat by lia. rewrite Nat2Z.id. reflexivity. Qed.

Lemma zset_spec {A} (a : list A) i v :
  0 <= i < zlen a ->
  exists a', zset a i v = Some a' /\ length a' = length a /\
             forall j, nth_error a' j = if (j =? Z.to_nat i)%nat then Some v else nth_error a j.
Proof.
  intros H. unfold zset, zlen in *.
  destruct ((0 <=? i) && (i <? Z.of_nat (length a))) eqn:E; [|lia].
  eexists; split; [reflexivity|split].
  - rewrite app_length, firstn_length. cbn [length]. rewrite skipn_length. lia.
  - intros j. rewrite ne_app, firstn_length, ne_firstn, ne_cons, ne_skipn.
    destruct (j =? Z.to_nat i)%nat eqn:E1.
    + destruct (j <? _)%nat eqn:E2; [lia|].
      destruct (_ =? 0)%nat eqn:E3; [reflexivity|lia].
    + destruct (j <? Nat.min _ _)%nat eqn:E2.
      * destruct (j <? Z.to_nat i)%nat eqn:E3; [reflexivity|lia].
      * destruct (_ =? 0)%nat eqn:E3; [lia|]. f_equal; lia.
Qed.

Lemma zset_none {A} (a : list A) i v : ~ (0 <= i < zlen a) -> zset a i v = None.
Proof. intros H. unfold zset. destruct ((0 <=? i) && (i <? zlen a)) eqn:E; [lia|reflexivity]. Qed.

Lemma blit_spec {A} (dst src : list A) doff soff n :
  0 <= n -> 0 <= doff -> doff + n <= zlen dst -> 0 <= soff -> soff + n <= zlen src ->
  exists a', blit dst doff src soff n = Some a' /\ length a' = length dst /\
    forall j, nth_error a' j =
      if (Z.to_nat doff <=? j)%nat && (j <? Z.to_nat (doff + n))%nat
      then nth_error src (Z.to_nat soff + (j - Z.to_nat doff)) else nth_error dst j.
Proof.
  intros H1 H2 H3 H4 H5. unfold blit.
  replace ((0 <=? n) && (0 <=? doff) && (doff + n <=? zlen dst) && (0 <=? soff) && (soff + n <=? zlen src))
    with true by lia.
  unfold zlen in *.
  eexists; split; [reflexivity|split].
  - rewrite !app_length, !firstn_length, !skipn_length. lia.
  - intros j. rewrite ne_app, firstn_length, ne_firstn, ne_app, firstn_length, skipn_length,
      ne_firstn, !ne_skipn.
    destruct ((Z.to_nat doff <=? j)%nat && (j <? Z.to_nat (doff + n))%nat) eqn:E.
    + destruct (j <? Nat.min _ _)%nat eqn:E2; [lia|].
      destruct (_ <? Nat.min (Z.to_nat n) _)%nat eqn:E3; [|lia].
      destruct (_ <? Z.to_nat n)%nat eqn:E4; [|lia]. f_equal; lia.
    + destruct (j <? Nat.min _ _)%nat eqn:E2.
      * destruct (j <? Z.to_nat doff)%nat eqn:E3; [reflexivity|lia].
      * destruct (_ <? Nat.min (Z.to_nat n) _)%nat eqn:E3; [lia|]. f_equal; lia.
Qed.

(** ** Machine integers *)
Lemma wrapS_id n z : 0 < n -> inS n z -> wrapS n z = z.
Proof.
  intros Hn H. unfold wrapS, inS in *.
  assert (2 ^ n = 2 * 2 ^ (n - 1)).
  { replace n with (1 + (n - 1)) at 1 by lia. rewrite Z.pow_add_r by lia. reflexivity. }
  rewrite Z.mod_small by lia. lia.
Qed.

Lemma wrapS_range n z : 0 < n -> inS n (wrapS n z).
Proof.
  intros Hn. unfold wrapS, inS.
  assert (2 ^ n = 2 * 2 ^ (n - 1)).
  { replace n with (1 + (n - 1)) at 1 by lia. rewrite Z.pow_add_r by lia. reflexivity. }
  assert (0 < 2 ^ (n - 1)) by (apply Z.pow_pos_nonneg; lia).
  pose proof (Z.mod_pos_bound (z + 2 ^ (n - 1)) (2 ^ n) ltac:(lia)). lia.
Qed.

Lemma wrapS_mod n z : 0 < n -> (wrapS n z) mod 2 ^ n = z mod 2 ^ n.
Proof.
  intros Hn. unfold wrapS.
  assert (0 < 2 ^ n) by (apply Z.pow_pos_nonneg; lia).
  rewrite Zminus_mod_idemp_l. f_equal. lia.
Qed.

Lemma wrapU_id n z : inU n z -> wrapU n z = z.
Proof. intros H. apply Z.mod_small. exact H. Qed.

(** ** Strictly sorted lists are determined by their elements *)
Lemma sorted_ext (R : Z -> Z -> Prop) l1 l2 :
  (forall x, ~ R x x) -> (forall x y z, R x y -> R y z -> R x z) ->
  StronglySorted R l1 -> StronglySorted R l2 ->
  (forall x, In x l1 <-> In x l2) -> l1 = l2.
Proof.
  intros Hirr Htr. revert l2. induction l1 as [|x l1 IH]; intros [|y l2] S1 S2 H.
  - reflexivity.
  - destruct (proj2 (H y)); left; reflexivity.
  - destruct (proj1 (H x)); left; reflexivity.
  - inversion S1 as [|? ? S1' F1]; subst. inversion S2 as [|? ? S2' F2]; subst.
    rewrite Forall_forall in F1, F2.
    assert (x = y).
    { destruct (proj1 (H x) (or_introl eq_refl)) as [E|Hx]; [auto|].
      destruct (proj2 (H y) (or_introl eq_refl)) as [E|Hy]; [auto|].
      exfalso. apply (Hirr x). eapply Htr; eauto. }
    subst y. f_equal. apply IH; auto.
    intros z. split; intros Hz.
    + destruct (proj1 (H z) (or_intror Hz)) as [E|?]; [|assumption].
      subst z. exfalso. apply (Hirr x). apply F1; assumption.
    + destruct (proj2 (H z) (or_intror Hz)) as [E|?]; [|assumption].
      subst z. exfalso. apply (Hirr x). apply F2; assumption.
Qed.

Lemma StronglySorted_filter {A} (R : A -> A -> Prop) f l :
  StronglySorted R l -> StronglySorted R (filter f l).
Proof.
  induction 1 as [|x l S IH F]; cbn; [constructor|].
  destruct (f x); [|assumption].
  constructor; [assumption|].
  rewrite Forall_forall in *. intros y Hy. apply filter_In in Hy. apply F, Hy.
Qed.

Lemma StronglySorted_map_seq (R : Z -> Z -> Prop) (g : nat -> Z) s n :
  (forall i j, (i < j)%nat -> R (g i) (g j)) -> StronglySorted R (map g (seq s n)).
Proof.
  intros H. revert s; induction n as [|n IH]; intros s; cbn; constructor.
  - apply IH.
  - rewrite Forall_forall. intros x Hx. apply in_map_iff in Hx as (j & <- & Hj).
    apply in_seq in Hj. apply H. lia.
Qed.

(** The probe sequence of dict.c visits every slot. *)
From Verif Require Import Base M_Dict P_Base.

(** Iterates of x |-> 5x+1 over Z. *)
Fixpoint F (n : nat) (x : Z) : Z := match n with O => x | S n' => F n' (5 * x + 1) end.

Lemma F_add a b x : F (a + b) x = F b (F a x).
Proof. revert x. induction a as [|a IH]; intros x; cbn [F Nat.add]; [reflexivity|apply IH]. Qed.

Lemma F_affine n : exists b, forall x, F n x = 5 ^ Z.of_nat n * x + b.
Proof.
  induction n as [|n (b & IH)].
  - exists 0. intros x. cbn [F]. change (5 ^ Z.of_nat 0) with 1. lia.
  - exists (5 ^ Z.of_nat n + b). intros x. cbn [F]. rewrite IH.
    rewrite Nat2Z.inj_succ, Z.pow_succ_r by lia. ring.
Qed.

Lemma pow5_mod4 n : exists q, 5 ^ Z.of_nat n = 4 * q + 1.
Proof.
  induction n as [|n (q & IH)]; [exists 0; reflexivity|].
  exists (5 * q + 1). rewrite Nat2Z.inj_succ, Z.pow_succ_r by lia. lia.
Qed.

(** F^(2^k) moves every x by an odd multiple of 2^k. *)
Lemma F_pow2 k : forall x, exists t, F (2 ^ k) x = x + 2 ^ Z.of_nat k * (2 * t + 1).
Proof.
  induction k as [|k IH]; intros x.
  - exists (2 * x). change (F (2 ^ 0) x) with (5 * x + 1). change (2 ^ Z.of_nat 0) with 1. lia.
  - rewrite Nat.pow_succ_r'. replace (2 * 2 ^ k)%nat with (2 ^ k + 2 ^ k)%nat by lia.
    rewrite F_add. destruct (F_affine (2 ^ k)) as (b & Hb).
    destruct (pow5_mod4 (2 ^ k)) as (q & Hq). destruct (IH x) as (t & Ht).
    assert (E : F (2 ^ k) (F (2 ^ k) x) - x =
                (5 ^ Z.of_nat (2 ^ k) + 1) * (F (2 ^ k) x - x)).
    { rewrite (Hb (F (2 ^ k) x)). rewrite (Hb x). ring. }
    exists (2 * q * t + q + t). rewrite Hq, Ht in E. rewrite Ht.
    rewrite Nat2Z.inj_succ, Z.pow_succ_r by lia.
    rewrite <- (Z.sub_add x (F (2 ^ k) _)), E. ring.
Qed.

Lemma F_mod n k x y : 0 <= k -> x mod 2 ^ k = y mod 2 ^ k -> F n x mod 2 ^ k = F n y mod 2 ^ k.
Proof.
  intros Hk. revert x y. induction n as [|n IH]; intros x y H; cbn [F]; [exact H|].
  apply IH. rewrite Z.add_mod, Z.mul_mod, H, <- Z.mul_mod, <- Z.add_mod by (apply Z.pow_nonzero; lia). reflexivity.
Qed.

Lemma F_cover k : forall x y, exists n, (n < 2 ^ k)%nat /\ exists q, F n x = y + 2 ^ Z.of_nat k * q.
Proof.
  induction k as [|k IH]; intros x y.
  - exists O. split; [cbn; lia|]. exists (x - y). cbn [F]. change (2 ^ Z.of_nat 0) with 1. lia.
  - destruct (IH x y) as (n & Hn & q & Hq). rewrite Nat.pow_succ_r'.
    rewrite Nat2Z.inj_succ, Z.pow_succ_r by lia.
    destruct (Z.Even_or_Odd q) as [(r & ->)|(r & ->)].
    + exists n. split; [lia|]. exists r. rewrite Hq. ring.
    + destruct (F_pow2 k (F n x)) as (t & Ht).
      exists (n + 2 ^ k)%nat. split; [lia|]. exists (r + t + 1). rewrite F_add, Ht, Hq. ring.
Qed.

(** State of the probing loops after [n] steps. *)
Fixpoint pst (n : nat) (size i p : Z) : Z * Z :=
  match n with
  | O => (i, p)
  | S n' => let p' := Z.shiftr p 5 in pst n' size (Z.land (wrapU 64 (i * 5 + p' + 1)) (size - 1)) p'
  end.
Definition slot (size h : Z) (n : nat) : Z := fst (pst n size (Z.land h (size - 1)) h).

Definition pow2size (size : Z) : Prop := exists k, size = 2 ^ Z.of_nat k /\ (k <= 62)%nat.

Lemma land_mask k x : Z.land x (2 ^ Z.of_nat k - 1) = x mod 2 ^ Z.of_nat k.
Proof. rewrite <- Z.land_ones by lia. rewrite Z.ones_equiv, <- Z.sub_1_r. reflexivity. Qed.

Lemma pst_add a b size i p : pst (a + b) size i p = pst b size (fst (pst a size i p)) (snd (pst a size i p)).
Proof. revert i p. induction a as [|a IH]; intros i p; cbn [pst Nat.add fst snd]; [reflexivity|apply IH]. Qed.

Lemma pst_snd n size i p : 0 <= p -> snd (pst n size i p) = Z.shiftr p (5 * Z.of_nat n).
Proof.
  revert i p. induction n as [|n IH]; intros i p Hp; cbn [pst].
  - rewrite Z.shiftr_0_r. reflexivity.
  - cbn zeta. rewrite IH by (apply Z.shiftr_nonneg; assumption).
    rewrite Z.shiftr_shiftr by lia. f_equal. lia.
Qed.

Lemma pst_range n size i p : pow2size size -> 0 <= i < size -> 0 <= fst (pst n size i p) < size.
Proof.
  intros (k & -> & Hk). revert i p. induction n as [|n IH]; intros i p Hi; cbn [pst]; [exact Hi|].
  apply IH. rewrite land_mask. apply Z.mod_pos_bound. apply Z.pow_pos_nonneg; lia.
Qed.

Lemma slot_range size h n : pow2size size -> 0 <= slot size h n < size.
Proof.
  intros H. apply pst_range; [exact H|]. destruct H as (k & -> & _). rewrite land_mask.
  apply Z.mod_pos_bound. apply Z.pow_pos_nonneg; lia.
Qed.

Lemma pst_zero n k i : (k <= 62)%nat -> 0 <= i < 2 ^ Z.of_nat k ->
  fst (pst n (2 ^ Z.of_nat k) i 0) = F n i mod 2 ^ Z.of_nat k.
Proof.
  intros Hk. revert i. induction n as [|n IH]; intros i Hi; cbn [pst F].
  - cbn. symmetry. apply Z.mod_small. exact Hi.
  - rewrite land_mask. rewrite Z.shiftr_0_l. cbn zeta.
    rewrite IH by (apply Z.mod_pos_bound; apply Z.pow_pos_nonneg; lia).
    apply F_mod; [lia|]. rewrite Z.mod_mod by (apply Z.pow_nonzero; lia).
    unfold wrapU. replace 64 with (Z.of_nat k + (64 - Z.of_nat k)) by lia.
    rewrite Z.pow_add_r by lia. rewrite Z.add_0_r.
    rewrite <- Znumtheory.Zmod_div_mod.
    + f_equal. ring.
    + apply Z.pow_pos_nonneg; lia.
    + apply Z.mul_pos_pos; apply Z.pow_pos_nonneg; lia.
    + exists (2 ^ (64 - Z.of_nat k)). ring.
Qed.

Lemma cover size h s : pow2size size -> 0 <= h < 2 ^ 64 -> 0 <= s < size ->
  exists n, (n < Z.to_nat size + 14)%nat /\ slot size h n = s.
Proof.
  intros HP Hh Hs. pose proof HP as (k & E & Hk).
  set (i0 := Z.land h (size - 1)).
  assert (Hi0 : 0 <= i0 < size) by (apply (slot_range size h 0); exact HP).
  pose proof (pst_range 13 size i0 h HP Hi0) as Hi1.
  set (i1 := fst (pst 13 size i0 h)) in *.
  destruct (F_cover k i1 s) as (n & Hn & q & Hq).
  exists (13 + n)%nat. split.
  - rewrite E.
    assert (Ez : Z.to_nat (2 ^ Z.of_nat k) = (2 ^ k)%nat).
    { rewrite <- (Nat2Z.id (2 ^ k)), Nat2Z.inj_pow. reflexivity. }
    lia.
  - unfold slot. fold i0. rewrite pst_add. fold i1. rewrite pst_snd by lia.
    replace (Z.shiftr h (5 * Z.of_nat 13)) with 0.
    2:{ rewrite Z.shiftr_div_pow2 by lia. symmetry. apply Z.div_small. cbn. lia. }
    rewrite E in *. rewrite pst_zero by assumption. rewrite Hq.
    rewrite Z.mul_comm, Z.mod_add by (apply Z.pow_nonzero; lia). apply Z.mod_small. exact Hs.
Qed.

(** The loop stops at the first slot where [visit] answers. *)
Lemma probe_first {R} (visit : Z -> res (option R)) size r n : forall fuel i p,
  (n < fuel)%nat -> (forall m, (m < n)%nat -> visit (fst (pst m size i p)) = Ok None) ->
  visit (fst (pst n size i p)) = Ok (Some r) -> probe fuel size i p visit = Ok r.
Proof.
  induction n as [|n IH]; intros fuel i p Hf H1 H2; (destruct fuel as [|fuel]; [lia|]); cbn [probe].
  - cbn in H2. rewrite H2. reflexivity.
  - pose proof (H1 O ltac:(lia)) as H0. cbn [pst fst] in H0. rewrite H0. cbn [bindr]. apply IH; [lia| |exact H2].
    intros m Hm. apply (H1 (S m)). lia.
Qed.

Lemma least (P : nat -> Prop) (Pd : forall n, {P n} + {~ P n}) n : P n ->
  exists m, (m <= n)%nat /\ P m /\ forall j, (j < m)%nat -> ~ P j.
Proof.
  revert P Pd. induction n as [|n IH]; intros P Pd H.
  - exists O. repeat split; [lia|exact H|]. intros j Hj. lia.
  - destruct (Pd O) as [H0|H0]; [exists O; repeat split; [lia|exact H0|intros; lia]|].
    destruct (IH (fun m => P (S m)) (fun m => Pd (S m)) H) as (m & H1 & H2 & H3).
    exists (S m). repeat split; [lia|exact H2|]. intros [|j] Hj; [exact H0|]. apply H3. lia.
Qed.

(** A probing loop over an index array that holds a stopping slot. *)
Lemma probe_stops {R} (visit : Z -> res (option R)) size h s :
  pow2size size -> 0 <= h < 2 ^ 64 -> 0 <= s < size ->
  (forall i, 0 <= i < size -> exists o, visit i = Ok o) -> (exists r, visit s = Ok (Some r)) ->
  exists n r, visit (slot size h n) = Ok (Some r) /\
    (forall m, (m < n)%nat -> visit (slot size h m) = Ok None) /\ probe_from size h visit = Ok r.
Proof.
  intros HP Hh Hs Ht (r0 & Hr0). destruct (cover size h s HP Hh Hs) as (n0 & Hn0 & E0).
  destruct (least (fun n => visit (slot size h n) <> Ok None)) with (n := n0) as (n & H1 & H2 & H3).
  - intros n. destruct (visit (slot size h n)) as [[r|]|e| |];
      first [left; discriminate|right; intros H; apply H; reflexivity].
  - rewrite E0, Hr0. discriminate.
  - destruct (Ht (slot size h n) (slot_range size h n HP)) as (o & Eo). destruct o as [r|]; [|congruence].
    assert (H4 : forall m, (m < n)%nat -> visit (slot size h m) = Ok None).
    { intros m Hm. specialize (H3 m Hm). destruct (Ht (slot size h m) (slot_range size h m HP)) as (o & Eo').
      destruct o as [r'|]; [|exact Eo']. exfalso. apply H3. rewrite Eo'. discriminate. }
    exists n, r. split; [exact Eo|]. split; [exact H4|].
    unfold probe_from. eapply probe_first; [|exact H4|exact Eo]. lia.
Qed.

(** The placement hash is a bijection on 32-bit numbers (C41). *)
From Verif Require Import Base M_Hash32.

Lemma xs_range : forall x, inU 32 x -> inU 32 (xorshift16 x).
Proof.
  unfold inU, xorshift16. intros x H.
  assert (0 <= Z.shiftr x 16) by (apply Z.shiftr_nonneg; lia).
  assert (Z.shiftr x 16 <= x) by (rewrite Z.shiftr_div_pow2 by lia; apply Z.div_le_upper_bound; lia).
  split; [apply Z.lxor_nonneg; lia|].
  destruct (Z.eq_dec (Z.lxor (Z.shiftr x 16) x) 0) as [->|N]; [lia|].
  assert (0 <= Z.lxor (Z.shiftr x 16) x) by (apply Z.lxor_nonneg; lia).
  apply Z.log2_lt_pow2; [lia|].
  pose proof (Z.log2_lxor (Z.shiftr x 16) x ltac:(lia) ltac:(lia)).
  pose proof (Z.log2_le_mono (Z.shiftr x 16) x ltac:(lia)).
  destruct (Z.eq_dec x 0) as [->|]; [now cbn in N|].
  pose proof (proj1 (Z.log2_lt_pow2 x 32 ltac:(lia)) ltac:(lia)). lia.
Qed.

Lemma xs_invol : forall x, inU 32 x -> xorshift16 (xorshift16 x) = x.
Proof.
  unfold inU, xorshift16. intros x H. rewrite Z.shiftr_lxor, Z.shiftr_shiftr by lia.
  change (16 + 16) with 32. replace (Z.shiftr x 32) with 0.
  - rewrite Z.lxor_0_l, <- Z.lxor_assoc, Z.lxor_nilpotent. apply Z.lxor_0_l.
  - rewrite Z.shiftr_div_pow2 by lia. symmetry. apply Z.div_small. lia.
Qed.

Lemma mul_inv : forall x k, inU 32 x -> wrapU 32 (73244475 * k) = 1 -> wrapU 32 (wrapU 32 (x * 73244475) * k) = x.
Proof.
  unfold wrapU, inU. intros x k H K. rewrite Zmult_mod_idemp_l, <- Z.mul_assoc, <- Zmult_mod_idemp_r, K, Z.mul_1_r.
  apply Z.mod_small. lia.
Qed.

Lemma wrap_range : forall z, inU 32 (wrapU 32 z).
Proof. intros. unfold inU, wrapU. apply Z.mod_pos_bound. lia. Qed.

(** The inverse function. *)
Definition unhash32 (y : Z) : Z :=
  let y := wrapU 32 (xorshift16 y * 295559667) in
  let y := wrapU 32 (xorshift16 y * 295559667) in
  xorshift16 y.

Theorem C41_collision_free : forall x y, inU 32 x -> inU 32 y -> hash32 x = hash32 y -> x = y.
Proof.
  intros x y HX HY E.
  assert (U : forall z, inU 32 z -> unhash32 (hash32 z) = z).
  { intros z HZ. unfold unhash32, hash32.
    rewrite xs_invol by apply wrap_range.
    rewrite mul_inv by (try reflexivity; apply xs_range, wrap_range).
    rewrite xs_invol by apply wrap_range.
    rewrite mul_inv by (try reflexivity; apply xs_range, HZ). now apply xs_invol. }
  rewrite <- (U x HX), <- (U y HY). now rewrite E.
Qed.
Print Assumptions C41_collision_free.

Theorem C41_onto : forall y, inU 32 y -> exists x, inU 32 x /\ hash32 x = y.
Proof.
  intros y H. exists (unhash32 y). split; [apply xs_range, wrap_range|].
  unfold unhash32, hash32.
  assert (M : forall z, inU 32 z -> wrapU 32 (wrapU 32 (z * 295559667) * 73244475) = z).
  { unfold wrapU, inU. intros z Hz. rewrite Zmult_mod_idemp_l, <- Z.mul_assoc, <- Zmult_mod_idemp_r.
    change (295559667 * 73244475 mod 2 ^ 32) with 1. rewrite Z.mul_1_r. apply Z.mod_small. lia. }
  rewrite xs_invol by apply wrap_range. rewrite M by (apply xs_range, wrap_range).
  rewrite xs_invol by apply wrap_range. rewrite M by (apply xs_range, H). now apply xs_invol.
Qed.
Print Assumptions C41_onto.

(** The result fits the 32 bits it is stored in. *)
Theorem C41_range : forall x, inU 32 (hash32 x).
Proof. intros. apply xs_range, wrap_range. Qed.
Print Assumptions C41_range.

Example C41_case : inU 32 7 /\ hash32 7 = 148231923.
Proof. split; [unfold inU; lia|vm_compute; reflexivity]. Qed.

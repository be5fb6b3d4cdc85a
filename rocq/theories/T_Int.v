(** Theorems on fixed-width integers: C15 - C19, C52. *)
From Verif Require Import Base P_Base M_Int S_Int P_Int M_Hash.
Local Open Scope Z_scope.

(** C15.  For every integer type, the result of an arithmetic operator on two values of
    the type is the value of the type congruent to the mathematical result; it is equal to
    it when that fits.  Bitwise operators never leave the type. *)
Theorem C15_arithmetic : forall t a b, fits t a -> fits t b ->
  represents t (a + b) (i_add t a b) /\
  represents t (a - b) (i_sub t a b) /\
  represents t (a * b) (i_mul t a b) /\
  represents t (- a) (i_neg t a) /\
  represents t a (i_pos t a) /\
  represents t (- a - 1) (i_invert t a) /\
  i_and t a b = Z.land a b /\
  i_or t a b = Z.lor a b /\
  i_xor t a b = Z.lxor a b.
Proof.
  intros t a b Ha Hb.
  unfold i_add, i_sub, i_mul, i_neg, i_invert, i_and, i_or, i_xor.
  rewrite !norm_prom.
  do 4 (split; [apply norm_represents|]).
  split.
  { split; [exact Ha|]. split; [exists 0; unfold i_pos; lia|reflexivity]. }
  split.
  { replace (- a - 1) with (Z.lnot a) by (unfold Z.lnot; lia). apply norm_represents. }
  split; [now apply norm_id, fits_land|]. split; [now apply norm_id, fits_lor|].
  now apply norm_id, fits_lxor.
Qed.
Print Assumptions C15_arithmetic.

(** Shifts by a count within the width. *)
Theorem C15_shifts : forall t a s, fits t a -> 0 <= s < bits t ->
  (exists r, i_lshift t a s = Ok r /\ represents t (a * 2 ^ s) r) /\
  i_rshift t a s = Ok (a / 2 ^ s).
Proof.
  intros t a s Ha Hs. unfold i_lshift, i_rshift.
  assert (Hp : bits t <= pbits t) by (destruct t; cbn; lia).
  assert (E : (s <? 0) || (pbits t <=? s) = false) by lia. rewrite E.
  rewrite Z.shiftl_mul_pow2, Z.shiftr_div_pow2, !norm_prom by lia. split.
  - eexists. split; [reflexivity|]. apply norm_represents.
  - f_equal. apply norm_id, fits_shiftr; [lia|auto].
Qed.
Print Assumptions C15_shifts.

(** Comparisons are those of the values. *)
Theorem C15_comparisons : forall a b,
  (i_eq a b = true <-> a = b) /\ (i_ne a b = true <-> a <> b) /\
  (i_lt a b = true <-> a < b) /\ (i_le a b = true <-> a <= b) /\
  (i_gt a b = true <-> b < a) /\ (i_ge a b = true <-> b <= a).
Proof. intros a b. unfold i_eq, i_ne, i_lt, i_le, i_gt, i_ge. lia. Qed.
Print Assumptions C15_comparisons.

Example C15_case :
  fits TI16 30000 /\ fits TI16 5000 /\ i_add TI16 30000 5000 = -30536 /\
  i_mul TU8 200 3 = 88 /\ i_invert TU16 5 = 65530 /\ i_lshift TI32 (-3) 4 = Ok (-48) /\
  i_rshift TInt (-3) 1 = Ok (-2).
Proof. repeat split; vm_compute; congruence. Qed.

(** C16.  A value that fits is converted unchanged, for every integer type; one that does
    not fit is rejected, except by i16 and i8. *)
Theorem C16_conversion_partial : forall t a, atom_ok a ->
  (fits t (atom_value a) -> int_new t a = Ok (atom_value a)) /\
  (~ fits t (atom_value a) -> t <> TI16 -> t <> TI8 -> int_new t a = Exn ValueError).
Proof.
  intros t a Ha. destruct (int_new_spec t a Ha) as (H1 & H2 & _). split; auto.
  intros Hf H16 H8. apply H2; auto. destruct t; auto; congruence.
Qed.
Print Assumptions C16_conversion_partial.

(** A bigint converted by __int__ or used as an index. *)
Theorem C16_bigint_int : forall z, zz_ok z ->
  (fits TInt (zz_value z) -> bigint_int z = Ok (zz_value z)) /\
  (~ fits TInt (zz_value z) -> bigint_int z = Exn ValueError).
Proof.
  intros z Hz. destruct (int_new_spec TInt (ABig z) Hz) as (H1 & H2 & _).
  cbn [atom_value] in *.
  assert (E : bigint_int z = int_new TInt (ABig z)).
  { unfold bigint_int, int_new. cbn [bigint_new size_var].
    rewrite (wrapS_id 32 (size z)); [reflexivity|lia|].
    destruct Hz as (_ & _ & _ & Hb & _). unfold inS. cbn in *. lia. }
  rewrite E. split; auto.
Qed.
Print Assumptions C16_bigint_int.

(** i16 and i8 accept every value of the i32 range and change those that do not fit. *)
Theorem C16_conversion_refuted : forall t v, t = TI16 \/ t = TI8 ->
  fits TI32 v -> ~ fits t v ->
  exists r, int_new t (AInt TInt v) = Ok r /\ r <> v /\ represents t v r.
Proof.
  intros t v Ht Hv Hn.
  assert (Ha : atom_ok (AInt TInt v)) by (cbn [atom_ok]; unfold fits in *; cbn in *; lia).
  destruct (int_new_spec t _ Ha) as (_ & _ & H3). cbn [atom_value] in H3.
  exists (norm t v). split; [|split].
  - rewrite H3 by (destruct Ht; subst; reflexivity).
    unfold fits in Hv. destruct ((min_of TI32 <=? v) && (v <=? max_of TI32)) eqn:E; auto. lia.
  - intros E. apply Hn. rewrite <- E. apply norm_fits.
  - apply norm_represents.
Qed.
Print Assumptions C16_conversion_refuted.

Example C16_case :
  int_new TI16 (AInt TInt 40000) = Ok (-25536) /\ int_new TI8 (AInt TInt 300) = Ok 44 /\
  int_new TI32 (AInt TInt 3000000000) = Exn ValueError /\
  int_new TInt (ABig (mkZZ [0; 1] 2)) = Exn ValueError /\
  int_new TInt (ABig (mkZZ [2 ^ 63] (-1))) = Ok (- 2 ^ 63).
Proof. repeat split. Qed.

(** C17.  For non-zero b, and unless the quotient overflows (the smallest value divided by
    -1), // and % satisfy the division law, divmod agrees with them, and // is the floor and
    % has the sign of b whenever a and b have the same sign (so for all unsigned types) or b
    divides a.  Division by zero raises ZeroDivisionError for //; the unboxed % as well. *)
Theorem C17_division_partial : forall t a b, fits t a -> fits t b ->
  (b <> 0 -> ~ (a = min_of t /\ b = -1) ->
   exists q r,
     i_floordiv t a b = Ok q /\ i_mod t a b = Ok r /\ i_mod_unboxed t a b = Ok r /\
     i_divmod t a b = Ok (q, r) /\
     a = q * b + r /\ Z.abs r < Z.abs b /\
     (0 <= a * b \/ (b | a) -> q = a / b /\ r = a mod b)) /\
  (b = 0 -> i_floordiv t a b = Exn ZeroDivisionError /\
            i_mod_unboxed t a b = Exn ZeroDivisionError).
Proof.
  intros t a b Ha Hb. split.
  - intros Hnz Hov. destruct (quot_fits t a b Ha Hb Hnz Hov) as [Hq Hok].
    assert (Eb : (b =? 0) = false) by lia.
    pose proof (rem_fits t a b Hnz Ha) as Hr.
    exists (Z.quot a b), (Z.rem a b).
    unfold i_floordiv, i_mod, i_mod_unboxed, i_divmod.
    rewrite Eb, (c_div_spec t a b) by auto. rewrite (c_rem_spec t a b) by auto.
    cbn [mapr bindr]. rewrite !norm_id by auto.
    split; [reflexivity|]. split; [destruct t; reflexivity|]. split; [reflexivity|].
    split; [destruct t; reflexivity|].
    pose proof (Z.quot_rem a b Hnz) as E.
    split; [lia|]. split; [apply Z.rem_bound_abs; auto|].
    intros Hs.
    assert (Er : 0 <= Z.rem a b < b \/ b < Z.rem a b <= 0).
    { pose proof (Z.rem_bound_abs a b Hnz) as B.
      destruct Hs as [Hs|[k Hk]].
      - assert (Hc : (0 <= a /\ 0 < b) \/ (a <= 0 /\ b < 0)).
        { assert (H : b < 0 \/ 0 < b) by lia. destruct H as [H|H].
          - right. split; auto. apply Z.nlt_ge. intros Hlt.
            assert (a * b < 0) by (apply Z.mul_pos_neg; lia). lia.
          - left. split; auto. apply Z.nlt_ge. intros Hlt.
            assert (a * b < 0) by (apply Z.mul_neg_pos; lia). lia. }
        destruct Hc as [[Hc1 Hc2]|[Hc1 Hc2]].
        + pose proof (Z.rem_nonneg a b Hnz Hc1). lia.
        + pose proof (Z.rem_nonpos a b Hnz Hc1). lia.
      - subst a. rewrite Z.rem_mul by auto. lia. }
    destruct Er as [Er|Er].
    + split.
      * apply (Z.div_unique_pos a b (Z.quot a b) (Z.rem a b)); auto.
      * apply (Z.mod_unique_pos a b (Z.quot a b) (Z.rem a b)); auto.
    + split.
      * apply (Z.div_unique_neg a b (Z.quot a b) (Z.rem a b)); auto.
      * apply (Z.mod_unique_neg a b (Z.quot a b) (Z.rem a b)); auto.
  - intros ->. split; reflexivity.
Qed.
Print Assumptions C17_division_partial.

(** With operands of opposite signs and a non-zero remainder, // is not the floor and % does
    not have the sign of b, for every signed type. *)
Theorem C17_division_refuted : forall t a b, fits t a -> fits t b ->
  a * b < 0 -> ~ (b | a) -> ~ (a = min_of t /\ b = -1) ->
  exists q r, i_floordiv t a b = Ok q /\ i_mod t a b = Ok r /\ q = a / b + 1 /\ r * b < 0.
Proof.
  intros t a b Ha Hb Hneg Hnd Hov.
  assert (Hnz : b <> 0) by (intros ->; lia).
  destruct (quot_fits t a b Ha Hb Hnz Hov) as [Hq Hok].
  assert (Eb : (b =? 0) = false) by lia.
  pose proof (rem_fits t a b Hnz Ha) as Hr.
  exists (Z.quot a b), (Z.rem a b).
  unfold i_floordiv, i_mod. rewrite Eb, (c_div_spec t a b), (c_rem_spec t a b) by auto.
  cbn [mapr]. rewrite !norm_id by auto.
  split; [reflexivity|]. split; [destruct t; reflexivity|].
  pose proof (Z.quot_rem a b Hnz) as E.
  pose proof (Z.rem_bound_abs a b Hnz) as B.
  assert (Hr0 : Z.rem a b <> 0).
  { intros Hz. apply Hnd. exists (Z.quot a b). lia. }
  assert (Hc : (a < 0 /\ 0 < b) \/ (0 < a /\ b < 0)).
  { assert (H : b < 0 \/ 0 < b) by lia. destruct H as [H|H].
    - right. split; auto. apply Z.nle_gt. intros Hle.
      assert (0 <= a * b) by (apply Z.mul_nonpos_nonpos; lia). lia.
    - left. split; auto. apply Z.nle_gt. intros Hle.
      assert (0 <= a * b) by (apply Z.mul_nonneg_nonneg; lia). lia. }
  destruct Hc as [[Hc1 Hc2]|[Hc1 Hc2]].
  - pose proof (Z.rem_nonpos a b Hnz ltac:(lia)).
    assert (Ed : a / b = Z.quot a b - 1).
    { symmetry. apply (Z.div_unique_pos a b _ (Z.rem a b + b)); lia. }
    split; [lia|]. apply Z.mul_neg_pos; lia.
  - pose proof (Z.rem_nonneg a b Hnz ltac:(lia)).
    assert (Ed : a / b = Z.quot a b - 1).
    { symmetry. apply (Z.div_unique_neg a b _ (Z.rem a b + b)); lia. }
    split; [lia|]. apply Z.mul_pos_neg; lia.
Qed.
Print Assumptions C17_division_refuted.

(** The boxed % and divmod by zero, and the smallest int or i32 divided by -1, are undefined
    behaviour (a trap), not ZeroDivisionError. *)
Theorem C17_zero_refuted : forall t a, t <> TU1 ->
  i_mod t a 0 = UB /\ i_divmod t a 0 = UB.
Proof. intros t a Ht. destruct t; try congruence; split; reflexivity. Qed.
Print Assumptions C17_zero_refuted.
Theorem C17_overflow_refuted : forall t, t = TInt \/ t = TI32 ->
  i_floordiv t (min_of t) (-1) = UB /\ i_mod t (min_of t) (-1) = UB.
Proof. intros t [->| ->]; split; reflexivity. Qed.
Print Assumptions C17_overflow_refuted.

Example C17_case :
  i_floordiv TInt (-7) 2 = Ok (-3) /\ i_mod TInt (-7) 2 = Ok (-1) /\
  i_floordiv TI8 (-128) (-1) = Ok (-128) /\ i_divmod TU8 200 7 = Ok (28, 4).
Proof. repeat split. Qed.

(** C18.  Power: the residue of the mathematical power for every exponent e >= 0 below 2^63,
    and ValueError for e < 0 in the boxed operator. *)
Theorem C18_pow_partial : forall t a e, fits t a -> fits t e ->
  (0 <= e < 2 ^ 63 ->
   (exists r, i_pow t a e = Ok r /\ represents t (a ^ e) r) /\
   (exists r, i_pow_unboxed t a e = Ok r /\ represents t (a ^ e) r)) /\
  (e < 0 -> i_pow t a e = Exn ValueError).
Proof.
  intros t a e Ha He. split.
  - intros H0. change (2 ^ 63) with 9223372036854775808 in H0.
    unfold i_pow, i_pow_unboxed. destruct (signed t) eqn:Es.
    + destruct (Z.ltb_spec e 0) as [|_]; [lia|]. rewrite pow_big by (auto; lia).
      split; eexists; (split; [reflexivity|apply norm_represents]).
    + assert (Ht : bits t <= 64) by (destruct t; cbn; lia).
      assert (Hf64 : forall z, fits TInt (wrapS 64 z)) by (intros z; exact (norm_fits TInt z)).
      assert (Hie : wrapS 64 e = e).
      { apply wrapS_id; [lia|]. unfold inS. change (2 ^ (64 - 1)) with 9223372036854775808. lia. }
      split.
      * rewrite Hie. rewrite pow_big; [|apply Hf64| |lia].
        2:{ unfold fits. cbn [min_of max_of]. lia. }
        cbn [mapr]. eexists. split; [reflexivity|].
        replace (norm t (norm TInt (wrapS 64 a ^ e))) with (norm t (a ^ e));
          [apply norm_represents|].
        unfold norm at 3. cbn [signed bits]. rewrite norm_wrapS by auto.
        rewrite <- (norm_pow t (wrapS 64 a) e), norm_wrapS, norm_pow by lia. reflexivity.
      * unfold u_pow. destruct (Z.eqb_spec e 0) as [->|H0'].
        { eexists. split; [reflexivity|]. rewrite Z.pow_0_r.
          rewrite <- (norm_id t 1 (fits1 t)) at 2. apply norm_represents. }
        destruct (Z.eqb_spec e 1) as [->|H1'].
        { eexists. split; [reflexivity|]. rewrite Z.pow_1_r.
          rewrite <- (norm_id t a Ha) at 2. apply norm_represents. }
        assert (Hq : wrapS 64 (Z.quot e 2) = Z.quot e 2).
        { apply wrapS_id; [lia|]. unfold inS. change (2 ^ (64 - 1)) with 9223372036854775808. lia. }
        rewrite Hq, pow_big; [|apply Hf64| |lia].
        2:{ unfold fits. cbn [min_of max_of]. lia. }
        cbn [bindr].
        assert (Hn : norm t (norm TInt (wrapS 64 (prom t (a * a)) ^ (Z.quot e 2)))
                     = norm t ((a * a) ^ (Z.quot e 2))).
        { unfold norm at 2. cbn [signed bits]. rewrite norm_wrapS by auto.
          rewrite <- (norm_pow t (wrapS 64 _)), norm_wrapS, norm_prom, norm_pow by lia.
          reflexivity. }
        rewrite (pow_half a e) by lia.
        destruct (Z.rem e 2 =? 0).
        -- eexists. split; [reflexivity|]. rewrite Hn. apply norm_represents.
        -- eexists. split; [reflexivity|].
           rewrite <- norm_mul_r, Hn, norm_mul_r. apply norm_represents.
  - intros Hneg. unfold i_pow. destruct (signed t) eqn:Es.
    + destruct (Z.ltb_spec e 0); [reflexivity|lia].
    + exfalso. unfold fits in He. destruct t; try discriminate Es; cbn [min_of] in He; lia.
Qed.
Print Assumptions C18_pow_partial.

(** The unboxed operator does not reject a negative exponent: 2 ** -1 is 2, 3 ** -2 is 9.
    The boxed operator on u64 misreads exponents from 2^63 on: 3 ** (2^64 - 1) is 3, where
    the residue is 12297829382473034411. *)
Theorem C18_pow_refuted :
  i_pow_unboxed TInt 2 (-1) = Ok 2 /\ i_pow_unboxed TInt 3 (-2) = Ok 9 /\
  i_pow TU64 3 (2 ^ 64 - 1) = Ok 3 /\
  (exists k, 3 * 12297829382473034411 = 1 + k * modulus TU64).
Proof. repeat split; try (vm_compute; reflexivity). exists 2. reflexivity. Qed.
Print Assumptions C18_pow_refuted.

(** round(n, -k) is a multiple of 10^k at distance at most 10^k / 2, when 10^k is a value of
    the type and n is not within 10^k / 2 of its bounds; round(n, p) is n for small p >= 0. *)
Theorem C18_round_partial : forall t n k, fits t n -> t <> TU1 ->
  (0 < k -> 10 ^ k <= max_of t -> ~ (t = TU64 /\ k = 19) ->
   Z.abs n + 10 ^ k / 2 <= max_of t ->
   exists r, i_round 2 t n (- k) = Ok r /\ fits t r /\ (10 ^ k | r) /\
             2 * Z.abs (n - r) <= 10 ^ k) /\
  (0 <= k < 128 -> n <> min_of t \/ n = 0 -> i_round 2 t n k = Ok n).
Proof.
  intros t n k Hn Ht. split.
  - intros Hk Hm H64 Hup.
    destruct (round_spec t n k Ht H64 Hk Hm Hn Hup) as (r & H1 & H2 & H3 & H4). eauto.
  - intros Hk Hmin. cbn [i_round].
    assert (Hpos : forall m, round_pos t m k = Ok m).
    { intros m. unfold round_pos. rewrite round_p_small by (auto; lia).
      destruct (Z.leb_spec 0 k); [reflexivity|lia]. }
    destruct (signed t && (n <? 0)) eqn:Es; [|apply Hpos].
    rewrite andb_true_iff in Es. destruct Es as [Es Hneg].
    assert (Hf : fits t (- n)).
    { unfold fits in *. destruct t; cbn in *; try discriminate; lia. }
    rewrite neg_spec, Es by auto.
    destruct (Z.ltb_spec (- n) 0); [lia|]. cbn [andb]. rewrite Hpos. cbn [bindr].
    rewrite neg_spec by (now rewrite Z.opp_involutive). f_equal. lia.
Qed.
Print Assumptions C18_round_partial.

(** Powers of ten that do not fit wrap around: round(5, -19) is -8446744073709551616 instead
    of 0; round(5, -64) divides by zero (undefined); rounding the smallest int recurses for
    ever. *)
Theorem C18_round_refuted :
  i_round 2 TInt 5 (-19) = Ok (-8446744073709551616) /\
  i_round 2 TInt 5 (-64) = UB /\
  i_round 2 TU8 200 (-3) = Ok 232 /\
  (forall fuel p, i_round fuel TInt (min_of TInt) p = NoFuel).
Proof.
  do 3 (split; [vm_compute; reflexivity|]).
  induction fuel as [|k IH]; intros p; [reflexivity|].
  cbn [i_round signed min_of andb Z.ltb Z.compare].
  replace (i_neg TInt (-9223372036854775808)) with (min_of TInt) by (vm_compute; reflexivity).
  now rewrite IH.
Qed.
Print Assumptions C18_round_refuted.

Example C18_case :
  i_pow TInt (-3) 5 = Ok (-243) /\ i_pow TI8 2 7 = Ok (-128) /\
  i_pow TI8 2 (-1) = Exn ValueError /\
  i_round 2 TInt (-12345) (-2) = Ok (-12300) /\ i_round 2 TI8 56 (-1) = Ok 60.
Proof. repeat split; vm_compute; reflexivity. Qed.

(** C19.  Objects hashed by value: every object except those containing an i32, i16, i8 or
    float, or a complex with a negative zero. *)
Fixpoint by_value (o : obj) : bool :=
  match o with
  | OInt _ t _ => match t with TI32 | TI16 | TI8 => false | _ => true end
  | OFloat _ _ => false
  | OComplex _ re im => negb (re =? 2 ^ 63) && negb (im =? 2 ^ 63)
                        && (0 <=? re) && (re <? 2 ^ 64) && (0 <=? im) && (im <? 2 ^ 64)
  | OTuple _ l => forallb by_value l
  | _ => true
  end.

Lemma bytes_eq_true a b : bytes_eq a b = true -> a = b.
Proof.
  revert b. induction a as [|x a IH]; intros [|y b]; cbn; try discriminate; auto.
  rewrite andb_true_iff. intros [H1 H2]. f_equal; auto. lia.
Qed.

Lemma dbl_eq_same a b : 0 <= a < 2 ^ 64 -> 0 <= b < 2 ^ 64 -> a <> 2 ^ 63 -> b <> 2 ^ 63 ->
  dbl_eq a b = true -> a = b.
Proof.
  unfold dbl_eq. rewrite !andb_true_iff, orb_true_iff, andb_true_iff.
  intros Ha Hb Ha' Hb' [_ [H|[H1 H2]]]; [lia|].
  assert (Hz : forall z, 0 <= z < 2 ^ 64 -> z <> 2 ^ 63 -> (z mod 2 ^ 63 =? 0) = true -> z = 0).
  { clear. intros z Hz Hn H. pose proof (Z.div_mod z (2 ^ 63) ltac:(lia)) as E.
    assert (Hm : z mod 2 ^ 63 = 0) by lia. rewrite Hm in E.
    change (2 ^ 63) with 9223372036854775808 in *. change (2 ^ 64) with 18446744073709551616 in *.
    lia. }
  rewrite (Hz a), (Hz b); auto.
Qed.

(** Equal objects hash equally, for any digest function. *)
Theorem C19_hash_partial : forall (wy : list (list Z) -> Z) a b,
  by_value a = true -> by_value b = true -> obj_eq a b = true -> hash wy a = hash wy b.
Proof.
  intros wy a b Ha Hb He. unfold hash. f_equal.
  revert a b Ha Hb He. fix IH 1. intros a b Ha Hb He.
  destruct a as [ad t v|ad z|x|ad w|ad re im|ad s|ad s|ad l];
  destruct b as [ad' t' v'|ad' z'|x'|ad' w'|ad' re' im'|ad' s'|ad' s'|ad' l'];
  try discriminate He; try discriminate Ha.
  - clear IH. destruct t, t'; cbn in He, Ha, Hb; try discriminate;
    apply Z.eqb_eq in He; subst; reflexivity.
  - clear IH. cbn [obj_eq] in He. apply andb_true_iff in He. destruct He as [H1 H2].
    apply Z.eqb_eq in H1. apply bytes_eq_true in H2. cbn [hash_updates]. rewrite <- H1 in *.
    destruct (Z.eqb_spec (size z) 0) as [|Hnz]; [reflexivity|].
    do 2 f_equal. unfold limb0.
    destruct (Z.to_nat (Z.abs (size z))) as [|n] eqn:En; [lia|].
    destruct (limbs z), (limbs z'); cbn in *; congruence.
  - clear IH. cbn in He. destruct x, x'; try discriminate; reflexivity.
  - clear IH. cbn [by_value] in Ha, Hb. rewrite !andb_true_iff in Ha, Hb.
    cbn [obj_eq] in He. apply andb_true_iff in He.
    destruct He as [H1 H2]. apply dbl_eq_same in H1; try lia. apply dbl_eq_same in H2; try lia.
    subst. reflexivity.
  - clear IH. cbn [obj_eq] in He. apply bytes_eq_true in He. cbn [hash_updates]. now rewrite He.
  - clear IH. cbn [obj_eq] in He. apply bytes_eq_true in He. cbn [hash_updates]. now rewrite He.
  - cbn [hash_updates]. cbn [by_value] in Ha, Hb. cbn [obj_eq] in He.
    revert l' Ha Hb He. induction l as [|c l IHl]; intros [|c' l'] Ha Hb He; try discriminate;
      [reflexivity|].
    cbn [forallb] in Ha, Hb. apply andb_true_iff in Ha, Hb, He. cbn [map].
    destruct Ha, Hb, He. rewrite (IH c c'), (IHl l'); auto.
Qed.
Print Assumptions C19_hash_partial.

(** For i32, i16, i8 and float the hashed bytes are those of the address of the box: two boxes
    holding the same value at addresses that differ in their low 32 bits feed different bytes
    to the hasher.  0.0 and -0.0 are equal but a complex feeds their different bits. *)
Theorem C19_hash_refuted : forall wy,
  (forall t v p q, t = TI32 \/ t = TI16 \/ t = TI8 -> p mod 256 <> q mod 256 ->
     obj_eq (OInt p t v) (OInt q t v) = true /\
     hash_updates wy (OInt p t v) <> hash_updates wy (OInt q t v)) /\
  (forall w p q, is_nan w = false -> p mod 256 <> q mod 256 ->
     obj_eq (OFloat p w) (OFloat q w) = true /\
     hash_updates wy (OFloat p w) <> hash_updates wy (OFloat q w)) /\
  (forall p q, obj_eq (OComplex p 0 0) (OComplex q (2 ^ 63) 0) = true /\
     hash_updates wy (OComplex p 0 0) <> hash_updates wy (OComplex q (2 ^ 63) 0)).
Proof.
  intros wy. split; [|split].
  - intros t v p q Ht Hpq. split.
    + destruct Ht as [->|[->| ->]]; cbn; apply Z.eqb_refl.
    + destruct Ht as [->|[->| ->]]; cbn [hash_updates le_bytes]; congruence.
  - intros w p q Hw Hpq. split.
    + cbn [obj_eq]. unfold dbl_eq. rewrite Hw, Z.eqb_refl. reflexivity.
    + cbn [hash_updates le_bytes]. congruence.
  - intros p q. split; [vm_compute; reflexivity|]. vm_compute. congruence.
Qed.
Print Assumptions C19_hash_refuted.

Example C19_case :
  by_value (OTuple 8 [OInt 16 TInt 7; OStr 24 [97; 98]]) = true /\
  obj_eq (OTuple 8 [OInt 16 TInt 7; OStr 24 [97; 98]])
         (OTuple 32 [OInt 48 TInt 7; OStr 56 [97; 98]]) = true /\
  obj_eq (OInt 16 TI32 5) (OInt 32 TI32 5) = true.
Proof. repeat split. Qed.

(** C52.  Conversion of a finite float mant * 2^ex (|mant| < 2^53) to an integer truncates
    towards zero, when the float is below 2^52 in magnitude or its mantissa is even. *)
Theorem C52_float_to_int_partial : forall mant ex,
  (mant <> 0 -> 2 ^ 52 <= Z.abs mant < 2 ^ 53) ->
  ex < 0 \/ (2 | mant) ->
  (0 <= ex -> bigint_of_float mant ex = mant * 2 ^ ex) /\
  (ex < 0 -> bigint_of_float mant ex = Z.quot mant (2 ^ (- ex))).
Proof.
  intros mant ex Hm Hc. unfold bigint_of_float.
  destruct (Z.eqb_spec mant 0) as [->|Hnz].
  - split; intros He; [reflexivity|].
    pose proof (Z.pow_pos_nonneg 2 (- ex) ltac:(lia) ltac:(lia)). rewrite Z.quot_0_l; lia.
  - split; intros He.
    + destruct (Z.ltb_spec 52 (ex + 53)); [|lia].
      destruct Hc as [|[k ->]]; [lia|]. rewrite Z.quot_mul by lia.
      replace (ex + 53 - 52) with (Z.succ ex) by lia. rewrite Z.pow_succ_r by lia. ring.
    + destruct (Z.ltb_spec 52 (ex + 53)); [lia|reflexivity].
Qed.
Print Assumptions C52_float_to_int_partial.

(** An odd mantissa loses its last bit: the integer-valued float 2^52 + 1 (mantissa
    4503599627370497, exponent 0) is converted to 2^52. *)
Theorem C52_float_to_int_refuted : forall mant ex,
  2 ^ 52 <= mant < 2 ^ 53 -> ~ (2 | mant) -> 0 <= ex ->
  bigint_of_float mant ex = mant * 2 ^ ex - 2 ^ ex.
Proof.
  intros mant ex Hm Hodd He. unfold bigint_of_float.
  destruct (Z.eqb_spec mant 0); [lia|].
  destruct (Z.ltb_spec 52 (ex + 53)); [|lia].
  replace (ex + 53 - 52) with (Z.succ ex) by lia. rewrite Z.pow_succ_r by lia.
  rewrite Z.quot_div_nonneg by lia.
  assert (Hmod : mant mod 2 = 1).
  { pose proof (Z.mod_pos_bound mant 2 ltac:(lia)).
    destruct (Z.eq_dec (mant mod 2) 0) as [E|]; [|lia].
    exfalso. apply Hodd. apply Z.mod_divide; lia. }
  pose proof (Z.div_mod mant 2 ltac:(lia)) as E. rewrite Hmod in E.
  rewrite E at 2. ring.
Qed.
Print Assumptions C52_float_to_int_refuted.
Example C52_case : bigint_of_float 4503599627370497 0 = 4503599627370496 /\
  bigint_of_float 4503599627370497 (-1) = 2251799813685248 /\
  bigint_of_float (-4503599627370497) (-1) = -2251799813685248.
Proof. repeat split. Qed.

(** Proofs about fixed-width integers. *)
From Verif Require Import Base P_Base M_Int S_Int.
Local Open Scope Z_scope.

Lemma norm_fits t z : fits t (norm t z).
Proof.
  unfold fits, norm, wrapS, wrapU; destruct t; cbn [signed bits min_of max_of].
  all: match goal with |- context [?a mod ?b] =>
         let P := fresh in pose proof (Z.mod_pos_bound a b eq_refl) as P;
         remember (a mod b) as r eqn:Er; clear Er end.
  all: cbn in *; lia.
Qed.

Lemma norm_cong t z : exists k, z = norm t z + k * modulus t.
Proof.
  assert (H : modulus t = 2 ^ bits t) by (destruct t; reflexivity).
  rewrite H. assert (Hp : 2 ^ bits t <> 0) by (destruct t; cbn; lia).
  unfold norm, wrapS, wrapU. destruct (signed t).
  - exists ((z + 2 ^ (bits t - 1)) / 2 ^ bits t).
    pose proof (Z.div_mod (z + 2 ^ (bits t - 1)) (2 ^ bits t) Hp). lia.
  - exists (z / 2 ^ bits t). pose proof (Z.div_mod z (2 ^ bits t) Hp). lia.
Qed.

Lemma cong_unique t x y k : fits t x -> fits t y -> x = y + k * modulus t -> x = y.
Proof.
  unfold fits, modulus. intros Hx Hy E.
  destruct (Z.eq_dec k 0) as [->|Hk]; [lia|exfalso].
  assert (Hc : k <= -1 \/ 1 <= k) by lia.
  destruct Hc; destruct t; cbn [min_of max_of] in *; lia.
Qed.

Lemma norm_unique t z r k : fits t r -> z = r + k * modulus t -> norm t z = r.
Proof.
  intros Hr E. destruct (norm_cong t z) as [k' E'].
  apply (cong_unique t _ _ (k - k')); auto using norm_fits. lia.
Qed.

Lemma norm_id t z : fits t z -> norm t z = z.
Proof. intros H. apply (norm_unique t z z 0 H). lia. Qed.

Lemma norm_represents t z : represents t z (norm t z).
Proof.
  split; [apply norm_fits|]. split; [apply norm_cong|apply norm_id].
Qed.

Lemma norm_ext t z z' k : z = z' + k * modulus t -> norm t z = norm t z'.
Proof.
  intros E. destruct (norm_cong t z') as [k' E'].
  apply (norm_unique t z (norm t z') (k + k')); [apply norm_fits|lia].
Qed.

Lemma wrapS_cong n z : 0 < n -> exists k, wrapS n z = z + k * 2 ^ n.
Proof.
  intros Hn. exists (- ((z + 2 ^ (n - 1)) / 2 ^ n)). unfold wrapS.
  assert (Hp : 2 ^ n <> 0) by (pose proof (Z.pow_pos_nonneg 2 n); lia).
  pose proof (Z.div_mod (z + 2 ^ (n - 1)) (2 ^ n) Hp). lia.
Qed.
Lemma wrapU_cong n z : 0 <= n -> exists k, wrapU n z = z + k * 2 ^ n.
Proof.
  intros Hn. exists (- (z / 2 ^ n)). unfold wrapU.
  assert (Hp : 2 ^ n <> 0) by (pose proof (Z.pow_pos_nonneg 2 n); lia).
  pose proof (Z.div_mod z (2 ^ n) Hp). lia.
Qed.

Lemma bits_split t m : bits t <= m -> 2 ^ m = 2 ^ (m - bits t) * modulus t.
Proof.
  intros H. assert (E : modulus t = 2 ^ bits t) by (destruct t; reflexivity).
  assert (0 < bits t) by (destruct t; cbn; lia).
  rewrite E, <- Z.pow_add_r by lia. f_equal. lia.
Qed.

(** Reducing first in a wider type does not change the result. *)
Lemma norm_wrapS t m z : bits t <= m -> norm t (wrapS m z) = norm t z.
Proof.
  intros H. assert (0 < bits t) by (destruct t; cbn; lia).
  destruct (wrapS_cong m z) as [k E]; [lia|].
  apply (norm_ext t _ _ (k * 2 ^ (m - bits t))).
  rewrite E, (bits_split t m H). ring.
Qed.
Lemma norm_wrapU t m z : bits t <= m -> norm t (wrapU m z) = norm t z.
Proof.
  intros H. assert (0 < bits t) by (destruct t; cbn; lia).
  destruct (wrapU_cong m z) as [k E]; [lia|].
  apply (norm_ext t _ _ (k * 2 ^ (m - bits t))).
  rewrite E, (bits_split t m H). ring.
Qed.

Lemma norm_prom t z : norm t (prom t z) = norm t z.
Proof.
  unfold prom. destruct (psigned t).
  - apply norm_wrapS. destruct t; cbn; lia.
  - apply norm_wrapU. destruct t; cbn; lia.
Qed.

Lemma represents_prom t z : represents t z (norm t (prom t z)).
Proof. rewrite norm_prom. apply norm_represents. Qed.

(** Bounds as powers of two. *)
Lemma fits_signed t z : signed t = true -> fits t z <-> - 2 ^ (bits t - 1) <= z < 2 ^ (bits t - 1).
Proof. unfold fits. destruct t; cbn; intros E; try discriminate; lia. Qed.
Lemma fits_unsigned t z : signed t = false -> fits t z <-> 0 <= z < 2 ^ bits t.
Proof. unfold fits. destruct t; cbn; intros E; try discriminate; lia. Qed.

(** [z] is in the n-bit signed range iff shifting right by n leaves only the sign. *)
Lemma shiftr_range n z : 0 <= n ->
  (- 2 ^ n <= z < 2 ^ n) <-> (Z.shiftr z n = 0 \/ Z.shiftr z n = -1).
Proof.
  intros Hn. rewrite Z.shiftr_div_pow2 by lia.
  pose proof (Z.pow_pos_nonneg 2 n ltac:(lia) Hn) as Hp.
  pose proof (Z.div_mod z (2 ^ n) ltac:(lia)) as E.
  pose proof (Z.mod_pos_bound z (2 ^ n) Hp) as B.
  split.
  - intros [H1 H2]. destruct (Z.ltb_spec z 0).
    + right. symmetry. apply (Z.div_unique_pos z _ (-1) (z + 2 ^ n)); lia.
    + left. apply Z.div_small. lia.
  - intros [H|H]; rewrite H in E; lia.
Qed.

Lemma range_U n z : 0 <= n -> (0 <= z < 2 ^ n) <-> Z.shiftr z n = 0.
Proof.
  intros Hn. rewrite Z.shiftr_div_pow2 by lia.
  pose proof (Z.pow_pos_nonneg 2 n ltac:(lia) Hn) as Hp.
  pose proof (Z.div_mod z (2 ^ n) ltac:(lia)) as E.
  pose proof (Z.mod_pos_bound z (2 ^ n) Hp) as B.
  split; intros H.
  - apply Z.div_small. lia.
  - rewrite H in E. lia.
Qed.

Lemma fits_bitop (op : Z -> Z -> Z) t a b :
  (forall x y n, Z.shiftr (op x y) n = op (Z.shiftr x n) (Z.shiftr y n)) ->
  (forall x y, (x = 0 \/ x = -1) -> (y = 0 \/ y = -1) -> op x y = 0 \/ op x y = -1) ->
  op 0 0 = 0 ->
  fits t a -> fits t b -> fits t (op a b).
Proof.
  intros Hs Hv H0 Ha Hb. destruct (signed t) eqn:Es.
  - rewrite fits_signed in * by auto.
    assert (0 <= bits t - 1) by (destruct t; cbn; lia).
    rewrite shiftr_range in * by auto. rewrite Hs. auto.
  - rewrite fits_unsigned in * by auto.
    assert (0 <= bits t) by (destruct t; cbn; lia).
    rewrite range_U in * by auto. rewrite Hs, Ha, Hb. auto.
Qed.

Lemma fits_land t a b : fits t a -> fits t b -> fits t (Z.land a b).
Proof.
  apply fits_bitop; auto using Z.shiftr_land.
  intros x y [->| ->] [->| ->]; auto.
Qed.
Lemma fits_lor t a b : fits t a -> fits t b -> fits t (Z.lor a b).
Proof.
  apply fits_bitop; auto using Z.shiftr_lor.
  intros x y [->| ->] [->| ->]; auto.
Qed.
Lemma fits_lxor t a b : fits t a -> fits t b -> fits t (Z.lxor a b).
Proof.
  apply fits_bitop; auto using Z.shiftr_lxor.
  intros x y [->| ->] [->| ->]; auto.
Qed.

Lemma fits_shiftr t a s : 0 <= s -> fits t a -> fits t (a / 2 ^ s).
Proof.
  intros Hs Ha.
  pose proof (Z.pow_pos_nonneg 2 s ltac:(lia) Hs) as Hp.
  pose proof (Z.div_mod a (2 ^ s) ltac:(lia)) as E.
  pose proof (Z.mod_pos_bound a (2 ^ s) Hp) as B.
  assert (min_of t <= 0 <= max_of t) by (destruct t; cbn; lia).
  unfold fits in *. set (p := 2 ^ s) in *.
  split.
  - apply Z.div_le_lower_bound; [lia|].
    assert (0 <= (p - 1) * (- min_of t)) by (apply Z.mul_nonneg_nonneg; lia). lia.
  - apply Z.div_le_upper_bound; [lia|].
    assert (0 <= (p - 1) * max_of t) by (apply Z.mul_nonneg_nonneg; lia). lia.
Qed.

(** Power. *)
Lemma norm_mul t a b k : norm t (a * (b + k * modulus t)) = norm t (a * b).
Proof. apply (norm_ext t _ _ (a * k)). ring. Qed.

Lemma norm_mul_l t a b : norm t (norm t a * b) = norm t (a * b).
Proof.
  destruct (norm_cong t a) as [k E]. rewrite E at 2.
  apply (norm_ext t _ _ (- k * b)). ring.
Qed.
Lemma norm_mul_r t a b : norm t (a * norm t b) = norm t (a * b).
Proof. rewrite (Z.mul_comm a (norm t b)), norm_mul_l. f_equal. ring. Qed.

Lemma norm_pow t a e : 0 <= e -> norm t (norm t a ^ e) = norm t (a ^ e).
Proof.
  intros He. pattern e. apply natlike_ind; auto.
  intros x Hx IH. rewrite !Z.pow_succ_r by auto.
  rewrite norm_mul_l, <- norm_mul_r, IH, norm_mul_r. reflexivity.
Qed.

Lemma pow_half a e : 0 <= e ->
  a ^ e = if Z.rem e 2 =? 0 then (a * a) ^ (Z.quot e 2) else a * (a * a) ^ (Z.quot e 2).
Proof.
  intros He.
  rewrite Z.rem_mod_nonneg, Z.quot_div_nonneg by lia.
  pose proof (Z.div_mod e 2 ltac:(lia)) as E.
  pose proof (Z.mod_pos_bound e 2 ltac:(lia)) as B.
  pose proof (Z.div_pos e 2 He ltac:(lia)) as P.
  assert (Hs : (a * a) ^ (e / 2) = a ^ (2 * (e / 2))).
  { rewrite Z.pow_mul_r by lia. f_equal. ring. }
  rewrite Hs. destruct (Z.eqb_spec (e mod 2) 0).
  - f_equal. lia.
  - rewrite <- Z.pow_succ_r by lia. f_equal. lia.
Qed.

Lemma fits_half t e : fits t e -> fits t (Z.quot e 2).
Proof.
  intros H. destruct t; unfold fits in *; cbn [min_of max_of] in *; lia.
Qed.

Lemma c_pow_spec fuel : forall t a e,
  fits t 1 -> fits t a -> fits t e -> 0 <= e < 2 ^ Z.of_nat fuel ->
  c_pow (S fuel) t a e = Ok (norm t (a ^ e)).
Proof.
  induction fuel as [|k IH]; intros t a e H1 Ha Hfe He.
  - assert (e = 0) by (cbn in He; lia). subst. cbn. now rewrite norm_id.
  - remember (S k) as m eqn:Em. cbn [c_pow].
    destruct (Z.eqb_spec e 0) as [->|H0]; [cbn; now rewrite norm_id|].
    destruct (Z.eqb_spec e 1) as [->|Hne1]; [rewrite Z.pow_1_r, norm_id; auto|].
    subst m. rewrite norm_prom, (norm_id t (Z.quot e 2)) by now apply fits_half.
    rewrite IH.
    + unfold bindr. rewrite (pow_half a e) by lia.
      destruct (Z.rem e 2 =? 0).
      * rewrite norm_pow; [reflexivity|]. apply Z.quot_pos; lia.
      * rewrite norm_prom, norm_mul_r.
        f_equal. rewrite <- norm_mul_r, norm_pow, norm_mul_r; [reflexivity|].
        apply Z.quot_pos; lia.
    + auto.
    + apply norm_fits.
    + now apply fits_half.
    + rewrite Nat2Z.inj_succ, Z.pow_succ_r in He by lia. lia.
Qed.

Lemma fits1 t : fits t 1.
Proof. destruct t; cbv; split; discriminate. Qed.

Lemma pow_big t a e : fits t a -> fits t e -> 0 <= e ->
  c_pow pow_fuel t a e = Ok (norm t (a ^ e)).
Proof.
  intros Ha He H0. change pow_fuel with (S 65). apply c_pow_spec; auto using fits1.
  split; [lia|]. apply Z.le_lt_trans with (max_of t); [apply He|].
  destruct t; reflexivity.
Qed.

(** The promoted type contains the type. *)
Definition fitsP (t : ity) (z : Z) : Prop :=
  if psigned t then inS (pbits t) z else inU (pbits t) z.

Lemma prom_id t z : fitsP t z -> prom t z = z.
Proof.
  unfold fitsP, prom. destruct (psigned t); intros H.
  - apply wrapS_id; auto. destruct t; cbn; lia.
  - now apply wrapU_id.
Qed.
Lemma fits_P t z : fits t z -> fitsP t z.
Proof. unfold fits, fitsP, inS, inU. destruct t; cbn; lia. Qed.

Lemma quot_abs_le a b : b <> 0 -> Z.abs (Z.quot a b) <= Z.abs a.
Proof.
  intros Hb. rewrite <- Z.quot_abs by auto.
  apply Z.quot_le_upper_bound; [lia|].
  rewrite <- (Z.mul_1_l (Z.abs a)) at 1. apply Z.mul_le_mono_nonneg_r; lia.
Qed.

Lemma quot_fitsP t a b : fits t a -> fits t b -> c_div_ok t a b = true ->
  fitsP t (Z.quot a b).
Proof.
  unfold c_div_ok. intros Ha Hb H. rewrite andb_true_iff in H. destruct H as [Hb0 Hov].
  assert (Hnz : b <> 0) by lia.
  pose proof (Z.quot_rem a b Hnz) as E.
  pose proof (Z.rem_bound_abs a b Hnz) as B.
  pose proof (quot_abs_le a b Hnz) as Hq.
  destruct (psigned t) eqn:Ep.
  - assert (Hc : fitsP t (Z.quot a b) \/ Z.quot a b = 2 ^ (pbits t - 1)).
    { unfold fits, fitsP, inS, inU in *. rewrite Ep.
      destruct t; cbn [psigned pbits min_of max_of] in *; try discriminate; cbn in *; lia. }
    destruct Hc as [|Hc]; auto. exfalso.
    assert (Ea : a = - 2 ^ (pbits t - 1)).
    { apply fits_P in Ha. unfold fitsP, inS in Ha. rewrite Ep in Ha. lia. }
    rewrite Ea, Z.eqb_refl in Hov. cbn [andb negb] in Hov.
    assert (Hbn : b <> -1) by lia.
    rewrite Hc, Ea in E. clear Hov.
    assert (Hp : 2 <= 2 ^ (pbits t - 1)) by (destruct t; cbn; lia).
    set (P := 2 ^ (pbits t - 1)) in *. clearbody P.
    assert (Hb' : b <= -2 \/ 1 <= b) by lia.
    assert (Er : Z.rem (- P) b = - P - b * P) by lia.
    rewrite Ea, Er in B. clear - Hb' Hp B. destruct Hb' as [Hb'|Hb'].
    + assert (0 <= (P - 2) * (- b - 1)) by (apply Z.mul_nonneg_nonneg; lia). lia.
    + assert (0 <= (P - 2) * b) by (apply Z.mul_nonneg_nonneg; lia). lia.
  - unfold fits, fitsP, inU in *. rewrite Ep.
    pose proof (Z.quot_pos a b).
    destruct t; cbn [psigned pbits min_of max_of] in *; try discriminate; cbn in *; lia.
Qed.

Lemma rem_fits t a b : b <> 0 -> fits t a -> fits t (Z.rem a b).
Proof.
  intros Hb Ha.
  assert (Hr : (0 <= a -> 0 <= Z.rem a b <= a) /\ (a <= 0 -> a <= Z.rem a b <= 0)).
  { pose proof (Z.rem_bound_abs a b Hb) as B. split; intros H.
    - pose proof (Z.rem_nonneg a b Hb H). split; auto.
      rewrite <- (Z.rem_abs_r a b Hb). apply Z.rem_le; lia.
    - pose proof (Z.rem_nonpos a b Hb H). split; auto.
      rewrite <- (Z.opp_involutive a) at 2. rewrite Z.rem_opp_l by auto.
      rewrite <- (Z.rem_abs_r (- a) b Hb).
      pose proof (Z.rem_le (- a) (Z.abs b) ltac:(lia) ltac:(lia)). lia. }
  unfold fits in *. destruct t; cbn [min_of max_of] in *; lia.
Qed.

Lemma c_div_spec t a b : fits t a -> fits t b -> c_div_ok t a b = true ->
  c_div t a b = Ok (Z.quot a b).
Proof.
  intros Ha Hb H. unfold c_div. rewrite H. rewrite prom_id; auto using quot_fitsP.
Qed.
Lemma c_rem_spec t a b : fits t a -> c_div_ok t a b = true ->
  c_rem t a b = Ok (Z.rem a b).
Proof.
  intros Ha H. unfold c_rem. rewrite H.
  unfold c_div_ok in H. rewrite andb_true_iff in H.
  rewrite prom_id; auto. apply fits_P, rem_fits; auto. lia.
Qed.

(** The quotient is representable unless it is -min/-1. *)
Lemma quot_fits t a b : fits t a -> fits t b -> b <> 0 -> ~ (a = min_of t /\ b = -1) ->
  fits t (Z.quot a b) /\ c_div_ok t a b = true.
Proof.
  intros Ha Hb Hnz Hov.
  assert (Hok : c_div_ok t a b = true).
  { unfold c_div_ok. rewrite andb_true_iff. split; [lia|].
    unfold fits in *. destruct t; cbn [psigned pbits min_of max_of] in *;
    cbn [andb negb]; auto; cbn; lia. }
  split; auto.
  pose proof (Z.quot_rem a b Hnz) as E.
  pose proof (Z.rem_bound_abs a b Hnz) as B.
  pose proof (quot_abs_le a b Hnz) as Hq.
  destruct (signed t) eqn:Es.
  - assert (Hc : fits t (Z.quot a b) \/ Z.quot a b = - min_of t).
    { unfold fits in *. destruct t; cbn [signed min_of max_of] in *; try discriminate; lia. }
    destruct Hc as [|Hc]; auto. exfalso.
    assert (Ea : a = min_of t).
    { unfold fits in *. destruct t; cbn [signed min_of max_of] in *; try discriminate; lia. }
    assert (Hp : min_of t <= -2) by (destruct t; cbn in *; try discriminate; lia).
    rewrite Hc, Ea in E. set (P := min_of t) in *. clearbody P.
    assert (Hb' : b <= -2 \/ 1 <= b) by lia.
    assert (Er : Z.rem P b = P + b * P) by lia.
    rewrite Ea, Er in B. clear - Hb' Hp B. destruct Hb' as [Hb'|Hb'].
    + assert (0 <= (- P - 2) * (- b - 1)) by (apply Z.mul_nonneg_nonneg; lia). lia.
    + assert (0 <= (- P - 2) * b) by (apply Z.mul_nonneg_nonneg; lia). lia.
  - pose proof (Z.quot_pos a b). unfold fits in *.
    destruct t; cbn [signed min_of max_of] in *; try discriminate; lia.
Qed.

(** Rounding. *)
Lemma pow10_le k K : 0 <= k -> 0 <= K -> 10 ^ k < 10 ^ (K + 1) -> 10 ^ k <= 10 ^ K.
Proof.
  intros Hk HK H. apply Z.pow_lt_mono_r_iff in H; try lia.
  apply Z.pow_le_mono_r; lia.
Qed.

Lemma pow10_gt k : 0 <= k -> k < 10 ^ k.
Proof. intros H. apply Z.pow_gt_lin_r; lia. Qed.

Lemma round_p_small t p : t <> TU1 -> -128 <= p < 128 -> round_p t p = p.
Proof.
  intros Ht Hp. destruct t; cbn [round_p]; try reflexivity; try congruence;
  apply wrapS_id; unfold inS; cbn; lia.
Qed.

Lemma p10_spec t k : 0 < k -> 10 ^ k <= max_of t -> round_p10 t (- k) = Ok (10 ^ k).
Proof.
  intros Hk Hm. pose proof (pow10_gt k ltac:(lia)) as Hg.
  assert (Hk' : k < 20).
  { apply (Z.pow_lt_mono_r_iff 10); try lia.
    apply Z.le_lt_trans with (max_of t); [auto|]. destruct t; reflexivity. }
  unfold round_p10.
  assert (Hw : (match t with TInt | TU64 => wrapS 64 (- - k) | _ => wrapS 32 (- - k) end) = k).
  { rewrite Z.opp_involutive. destruct t; apply wrapS_id; unfold inS; cbn; lia. }
  rewrite Hw. clear Hw.
  assert (H10 : 10 <= 10 ^ k).
  { rewrite <- (Z.pow_1_r 10) at 1. apply Z.pow_le_mono_r; lia. }
  assert (Hf : forall z, 0 <= z <= max_of t -> fits t z).
  { intros z Hz. unfold fits. destruct t; cbn in *; lia. }
  destruct (signed t) eqn:Es.
  - rewrite norm_id by (apply Hf; lia).
    rewrite pow_big; try (apply Hf; lia); try lia. f_equal. apply norm_id, Hf. lia.
  - rewrite pow_big; [|cbv; split; discriminate| |lia].
    + cbn [mapr]. f_equal. unfold norm at 2. cbn [signed bits].
      rewrite norm_wrapS by (destruct t; cbn; lia). apply norm_id, Hf. lia.
    + unfold fits. cbn. lia.
Qed.

Lemma round_pos_spec t n k :
  t <> TU1 -> ~ (t = TU64 /\ k = 19) ->
  0 < k -> 10 ^ k <= max_of t -> fits t n -> 0 <= n -> n + 10 ^ k / 2 <= max_of t ->
  exists q, round_pos t n (- k) = Ok (q * 10 ^ k) /\ 2 * Z.abs (n - q * 10 ^ k) <= 10 ^ k
            /\ 0 <= q.
Proof.
  intros Ht H64 Hk Hm Hn Hn0 Hup.
  assert (Hk' : k < 20).
  { apply (Z.pow_lt_mono_r_iff 10); try lia.
    apply Z.le_lt_trans with (max_of t); [auto|]. destruct t; reflexivity. }
  assert (Hp0 : 0 < 10 ^ k) by (apply Z.pow_pos_nonneg; lia).
  assert (Hdbl : 2 * 10 ^ k <= (if psigned t then 2 ^ (pbits t - 1) else 2 ^ pbits t)).
  { assert (HK : exists K, 0 <= K /\ 10 ^ k < 10 ^ (K + 1) /\
                   2 * 10 ^ K <= (if psigned t then 2 ^ (pbits t - 1) else 2 ^ pbits t)).
    { destruct t; try congruence.
      - exists 18. split; [lia|]. split; [|cbv; discriminate].
        eapply Z.le_lt_trans; [exact Hm|reflexivity].
      - exists 9. split; [lia|]. split; [|cbv; discriminate].
        eapply Z.le_lt_trans; [exact Hm|reflexivity].
      - exists 4. split; [lia|]. split; [|cbv; discriminate].
        eapply Z.le_lt_trans; [exact Hm|reflexivity].
      - exists 2. split; [lia|]. split; [|cbv; discriminate].
        eapply Z.le_lt_trans; [exact Hm|reflexivity].
      - exists 18. split; [lia|]. split; [|cbv; discriminate].
        apply Z.pow_lt_mono_r_iff; try lia. assert (k <> 19) by (intros ->; apply H64; auto).
        lia.
      - exists 9. split; [lia|]. split; [|cbv; discriminate].
        eapply Z.le_lt_trans; [exact Hm|reflexivity].
      - exists 4. split; [lia|]. split; [|cbv; discriminate].
        eapply Z.le_lt_trans; [exact Hm|reflexivity].
      - exists 2. split; [lia|]. split; [|cbv; discriminate].
        eapply Z.le_lt_trans; [exact Hm|reflexivity]. }
    destruct HK as (K & HK0 & HK1 & HK2).
    pose proof (pow10_le k K ltac:(lia) HK0 HK1). lia. }
  unfold round_pos. rewrite round_p_small by (auto; lia).
  destruct (Z.leb_spec 0 (- k)) as [|_]; [lia|].
  rewrite p10_spec by auto. cbn [bindr].
  assert (Hf : forall z, 0 <= z <= max_of t -> fits t z).
  { intros z Hz. unfold fits. destruct t; cbn in *; lia. }
  assert (Hok : c_div_ok t n (10 ^ k) = true).
  { unfold c_div_ok. rewrite andb_true_iff. split; [lia|].
    destruct (Z.eqb_spec (10 ^ k) (-1)); [lia|]. now rewrite andb_false_r. }
  rewrite c_div_spec by (auto; apply Hf; lia).
  rewrite c_rem_spec by auto. cbn [bindr].
  set (P := 10 ^ k) in *.
  rewrite Z.quot_div_nonneg, Z.rem_mod_nonneg by lia.
  pose proof (Z.div_mod n P ltac:(lia)) as E.
  pose proof (Z.mod_pos_bound n P Hp0) as B.
  pose proof (Z.div_pos n P Hn0 Hp0) as Hq.
  assert (Hqm : n / P <= n).
  { apply Z.div_le_upper_bound; [lia|]. rewrite <- (Z.mul_1_l n) at 1.
    apply Z.mul_le_mono_nonneg_r; lia. }
  rewrite (prom_id t (n mod P * 2)).
  2:{ unfold fitsP, inS, inU. destruct (psigned t); lia. }
  pose proof (Z.div_mod P 2 ltac:(lia)) as E2.
  pose proof (Z.mod_pos_bound P 2 ltac:(lia)) as B2.
  assert (Hnm : n <= max_of t) by apply Hn.
  destruct (Z.ltb_spec P (n mod P * 2)) as [Hlt|Hge].
  - assert (Hbig : (n / P + 1) * P <= max_of t) by lia.
    assert (Hq1 : n / P + 1 <= max_of t).
    { apply Z.le_trans with ((n / P + 1) * P); [|lia].
      rewrite <- (Z.mul_1_r (n / P + 1)) at 1. apply Z.mul_le_mono_nonneg_l; lia. }
    exists (n / P + 1). rewrite (prom_id t (n / P + 1)) by (apply fits_P, Hf; lia).
    rewrite (norm_id t (n / P + 1)) by (apply Hf; lia).
    split; [|lia].
    assert (Hr : 0 <= (n / P + 1) * P) by (apply Z.mul_nonneg_nonneg; lia).
    destruct (signed t); rewrite prom_id, norm_id; auto; try (apply fits_P); apply Hf; lia.
  - exists (n / P). rewrite (norm_id t (n / P)) by (apply Hf; lia).
    split; [|lia].
    assert (Hr : 0 <= n / P * P) by (apply Z.mul_nonneg_nonneg; lia).
    destruct (signed t); rewrite prom_id, norm_id; auto; try (apply fits_P); apply Hf; lia.
Qed.

Lemma neg_spec t z : fits t (- z) -> i_neg t z = - z.
Proof. intros H. unfold i_neg. rewrite norm_prom. now apply norm_id. Qed.

Lemma round_spec t n k :
  t <> TU1 -> ~ (t = TU64 /\ k = 19) ->
  0 < k -> 10 ^ k <= max_of t -> fits t n -> Z.abs n + 10 ^ k / 2 <= max_of t ->
  exists r, i_round 2 t n (- k) = Ok r /\ (10 ^ k | r) /\ 2 * Z.abs (n - r) <= 10 ^ k
            /\ fits t r.
Proof.
  intros Ht H64 Hk Hm Hn Hup.
  assert (Hp0 : 0 < 10 ^ k) by (apply Z.pow_pos_nonneg; lia).
  assert (Hhalf : 0 <= 10 ^ k / 2) by (apply Z.div_pos; lia).
  pose proof (Z.div_mod (10 ^ k) 2 ltac:(lia)) as E2.
  pose proof (Z.mod_pos_bound (10 ^ k) 2 ltac:(lia)) as B2.
  cbn [i_round].
  destruct (signed t && (n <? 0)) eqn:Es.
  - rewrite andb_true_iff in Es. destruct Es as [Es Hneg].
    assert (Hfn : forall z, - max_of t <= z <= max_of t -> fits t z).
    { intros z Hz. unfold fits in *. destruct t; cbn in *; try discriminate; lia. }
    rewrite neg_spec by (apply Hfn; lia).
    rewrite Es. destruct (Z.ltb_spec (- n) 0) as [|_]; [lia|]. cbn [andb].
    destruct (round_pos_spec t (- n) k Ht H64 Hk Hm) as (q & Eq & Hd & Hq);
      [apply Hfn; lia|lia|lia|].
    rewrite Eq. cbn [bindr]. exists (- (q * 10 ^ k)).
    assert (fits t (- (q * 10 ^ k))).
    { apply Hfn. assert (0 <= q * 10 ^ k) by (apply Z.mul_nonneg_nonneg; lia). lia. }
    rewrite neg_spec by auto. repeat split; try apply H; try lia.
    exists (- q). ring.
  - assert (Hn0 : 0 <= n).
    { rewrite andb_false_iff in Es. destruct Es as [Es|Es]; [|lia].
      unfold fits in Hn. destruct t; cbn in *; try discriminate; lia. }
    destruct (round_pos_spec t n k Ht H64 Hk Hm Hn Hn0) as (q & Eq & Hd & Hq); [lia|].
    exists (q * 10 ^ k). rewrite Eq. repeat split; auto.
    + exists q. reflexivity.
    + assert (min_of t <= 0) by (destruct t; cbn; lia).
      assert (0 <= q * 10 ^ k) by (apply Z.mul_nonneg_nonneg; lia). lia.
    + assert (0 <= q * 10 ^ k) by (apply Z.mul_nonneg_nonneg; lia). lia.
Qed.

(** Conversions. *)
Lemma limbs_value_bound l : Forall (fun x => 0 <= x < 2 ^ 64) l ->
  0 <= limbs_value l < 2 ^ (64 * zlen l).
Proof.
  induction l as [|x r IH]; intros H; [cbn; lia|].
  inversion H; subst. specialize (IH H3). cbn [limbs_value].
  replace (64 * zlen (x :: r)) with (64 + 64 * zlen r) by (unfold zlen; cbn [length]; lia).
  rewrite Z.pow_add_r by (pose proof (zlen_nonneg r); lia).
  set (M := 2 ^ (64 * zlen r)) in *. change (2 ^ 64) with 18446744073709551616 in *. lia.
Qed.

Lemma limbs_value_top l : Forall (fun x => 0 <= x < 2 ^ 64) l -> l <> [] ->
  nth (length l - 1) l 0 <> 0 -> 2 ^ (64 * (zlen l - 1)) <= limbs_value l.
Proof.
  induction l as [|x r IH]; intros H Hne Ht; [congruence|].
  inversion H; subst. destruct r as [|y r'].
  - cbn in *. lia.
  - cbn [limbs_value] in *. fold (limbs_value (y :: r')) in *.
    assert (Hi : 2 ^ (64 * (zlen (y :: r') - 1)) <= limbs_value (y :: r')).
    { apply IH; auto; [discriminate|].
      cbn [length] in Ht |- *. replace (S (S (length r')) - 1)%nat with (S (length r')) in Ht by lia.
      cbn [nth] in Ht. now replace (S (length r') - 1)%nat with (length r') by lia. }
    replace (64 * (zlen (x :: y :: r') - 1)) with (64 + 64 * (zlen (y :: r') - 1))
      by (unfold zlen; cbn [length]; lia).
    rewrite Z.pow_add_r by (unfold zlen; cbn [length]; lia).
    set (M := 2 ^ (64 * (zlen (y :: r') - 1))) in *.
    change (2 ^ 64) with 18446744073709551616 in *.
    change (limbs_value (y :: r')) with (y + 18446744073709551616 * limbs_value r') in *. lia.
Qed.

Lemma limb0_value z : zz_ok z -> Z.abs (size z) = 1 ->
  zz_value z = size z * limb0 z /\ 0 < limb0 z < 2 ^ 64.
Proof.
  intros (Hl & Hne & Hs & Hb & Ht) H1. unfold zz_value, limb0. rewrite H1.
  destruct (limbs z) as [|x r] eqn:El; [congruence|].
  change (Z.to_nat 1) with 1%nat. cbn [firstn limbs_value hd].
  rewrite H1 in Ht. change (Z.to_nat 1 - 1)%nat with 0%nat in Ht. cbn [nth] in Ht. apply Forall_inv in Hl. cbv beta in Hl.
  specialize (Ht ltac:(lia)). split; [|lia].
  assert (Hc : size z = 1 \/ size z = -1) by lia. destruct Hc as [->| ->]; cbn [Z.sgn]; lia.
Qed.

Lemma big_value z : zz_ok z -> 1 < Z.abs (size z) -> 2 ^ 64 <= Z.abs (zz_value z) /\
  (Z.sgn (zz_value z) = Z.sgn (size z)).
Proof.
  intros (Hl & Hne & Hs & Hb & Ht) H1. unfold zz_value.
  set (k := Z.to_nat (Z.abs (size z))) in *.
  set (l := firstn k (limbs z)).
  assert (Hlen : length l = k) by (unfold l; rewrite firstn_length; lia).
  assert (Hv : 2 ^ (64 * (zlen l - 1)) <= limbs_value l).
  { apply limbs_value_top.
    - unfold l. rewrite <- (firstn_skipn k (limbs z)) in Hl.
      apply Forall_app in Hl. apply Hl.
    - destruct l; [cbn in Hlen; lia|discriminate].
    - rewrite Hlen. unfold l. 
      assert (En : nth (k - 1) (firstn k (limbs z)) 0 = nth (k - 1) (limbs z) 0).
      { rewrite <- (firstn_skipn k (limbs z)) at 2. rewrite app_nth1; auto.
        fold l. lia. }
      rewrite En. apply Ht. lia. }
  assert (2 ^ 64 <= 2 ^ (64 * (zlen l - 1))).
  { apply Z.pow_le_mono_r; [lia|]. unfold zlen. lia. }
  set (V := limbs_value l) in *. clearbody V.
  assert (Hc : size z > 1 \/ size z < -1) by lia.
  change (2 ^ 64) with 18446744073709551616 in *.
  destruct Hc as [Hc|Hc].
  - rewrite (Z.sgn_pos (size z)) by lia. lia.
  - rewrite (Z.sgn_neg (size z)) by lia. lia.
Qed.

Lemma atom_bigint a : atom_ok a -> zz_ok (bigint_new a) /\ zz_value (bigint_new a) = atom_value a.
Proof.
  assert (HB : forall n, - 2 ^ 63 <= n < 2 ^ 63 -> zz_ok (toB_bigint n) /\ zz_value (toB_bigint n) = n).
  { intros n Hn. unfold toB_bigint, zz_ok, zz_value.
    destruct (Z.ltb_spec 0 n); destruct (Z.ltb_spec n 0); try lia; cbn [limbs size].
    - change (Z.to_nat (Z.abs 1)) with 1%nat. cbn [firstn limbs_value nth Nat.sub length Z.abs Z.sgn].
      repeat split; try lia; try discriminate. constructor; [|constructor].
      change (2 ^ 64) with 18446744073709551616. change (2 ^ 63) with 9223372036854775808 in *. lia.
    - change (Z.to_nat (Z.abs (-1))) with 1%nat. cbn [firstn limbs_value nth Nat.sub length Z.abs Z.sgn].
      repeat split; try lia; try discriminate. constructor; [|constructor].
      change (2 ^ 64) with 18446744073709551616. change (2 ^ 63) with 9223372036854775808 in *. lia.
    - assert (n = 0) by lia. subst. cbn. repeat split; try lia; try discriminate.
      constructor; [lia|constructor]. }
  destruct a as [t v|b|z]; cbn [atom_ok bigint_new atom_value]; intros H.
  - destruct (signed t) eqn:Es.
    + apply HB. unfold fits in H. destruct t; cbn in *; try discriminate; lia.
    + destruct (Z.eqb_spec v 0) as [->|Hv]; [apply HB; cbn; lia|].
      assert (Hu : 0 < v < 2 ^ 64).
      { unfold fits in H. destruct t; cbn in *; try discriminate; lia. }
      unfold zz_ok, zz_value. cbn [limbs size].
      change (Z.to_nat (Z.abs 1)) with 1%nat. cbn [firstn limbs_value nth Nat.sub length Z.abs Z.sgn].
      repeat split; try lia; try discriminate. constructor; [lia|constructor].
  - apply HB. destruct b; cbn; lia.
  - split; auto.
Qed.

Definition narrow (t : ity) : bool := match t with TI16 | TI8 => true | _ => false end.

(** What the constructors do with a value v of any size. *)
Lemma int_new_spec t a : atom_ok a ->
  let v := atom_value a in
  (fits t v -> int_new t a = Ok v) /\
  (~ fits t v -> narrow t = false -> int_new t a = Exn ValueError) /\
  (narrow t = true -> int_new t a = if (min_of TI32 <=? v) && (v <=? max_of TI32)
                      then Ok (norm t v) else Exn ValueError).
Proof.
  intros Ha v. destruct (atom_bigint a Ha) as [Hz Hv]. fold v in Hv.
  unfold int_new. set (z := bigint_new a) in *. clearbody z. clearbody v. clear a Ha.
  assert (Hsz : size_var t (size z) = size z).
  { unfold size_var. destruct t; auto; apply wrapS_id; try lia; unfold inS;
    destruct Hz as (_ & _ & _ & Hb & _); cbn in *; lia. }
  rewrite Hsz.
  assert (Hcase : size z = 0 \/ Z.abs (size z) = 1 \/ 1 < Z.abs (size z)) by lia.
  destruct Hcase as [H0|[H1|H2]].
  - (* zero *)
    rewrite H0. assert (v = 0) by (rewrite <- Hv; unfold zz_value; rewrite H0; reflexivity).
    subst v. rewrite H.
    assert (En : norm t (wrapU 64 (limb0 z * wrapU 64 0)) = 0).
    { change (wrapU 64 0) with 0. rewrite Z.mul_0_r. change (wrapU 64 0) with 0.
      apply norm_id. unfold fits. destruct t; cbn; lia. }
    rewrite En. repeat split.
    + intros _. destruct t; reflexivity.
    + intros Hf. exfalso. apply Hf. unfold fits. destruct t; cbn; lia.
    + intros Hnar. destruct t; try discriminate; reflexivity.
  - (* one limb *)
    destruct (limb0_value z Hz H1) as [Ev Hl]. rewrite Hv in Ev.
    assert (En : norm t (wrapU 64 (limb0 z * wrapU 64 (size z))) = norm t v).
    { rewrite norm_wrapU by (destruct t; cbn; lia).
      destruct (wrapU_cong 64 (size z)) as [k E]; [lia|]. rewrite E, Ev.
      apply (norm_ext t _ _ (limb0 z * k * 2 ^ (64 - bits t))).
      rewrite (bits_split t 64) by (destruct t; cbn; lia). ring. }
    rewrite En. clear En.
    assert (Hs : size z = 1 \/ size z = -1) by lia.
    set (n := limb0 z) in *. clearbody n. change (2 ^ 64) with 18446744073709551616 in Hl.
    repeat split.
    + intros Hf. rewrite (norm_id t v Hf). unfold fits in Hf.
      destruct Hs as [Hs|Hs]; rewrite Hs in *; destruct t; cbn [min_of max_of] in Hf;
      (match goal with |- (if ?b then _ else _) = _ => destruct b eqn:Eb; [lia|reflexivity] end).
    + intros Hf Hnar. unfold fits in Hf.
      destruct Hs as [Hs|Hs]; rewrite Hs in *; destruct t; cbn [min_of max_of narrow] in *; try discriminate;
      (match goal with |- (if ?b then _ else _) = _ => destruct b eqn:Eb; [reflexivity|lia] end).
    + intros Hnar.
      destruct Hs as [Hs|Hs]; rewrite Hs in *; destruct t; cbn [min_of max_of narrow] in *; try discriminate;
      (match goal with |- (if ?b then _ else _) = (if ?c then _ else _) =>
         destruct b eqn:Eb; destruct c eqn:Ec; try reflexivity; lia end).
  - (* more limbs *)
    destruct (big_value z Hz H2) as [Hbig Hsg]. rewrite Hv in *.
    change (2 ^ 64) with 18446744073709551616 in Hbig.
    assert (Hnf : ~ fits t v) by (unfold fits; destruct t; cbn [min_of max_of]; lia).
    repeat split.
    + intros Hf. contradiction.
    + intros _ _. 
      destruct t; (match goal with |- (if ?b then _ else _) = _ => destruct b eqn:Eb; [reflexivity|lia] end).
    + intros Hnar. destruct t; try discriminate;
      (match goal with |- (if ?b then _ else _) = (if ?c then _ else _) =>
         destruct b eqn:Eb; destruct c eqn:Ec; cbn [min_of max_of] in *; try reflexivity; lia end).
Qed.

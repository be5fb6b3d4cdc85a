(** Proofs about big integers: words, shifts, bitwise operations. *)
From Verif Require Import Base S_Bigint M_Bigint.
Local Open Scope Z_scope.

Lemma W64_pos : 0 < W64. Proof. reflexivity. Qed.
Lemma W64_eq : W64 = 2 ^ 64. Proof. reflexivity. Qed.

Lemma zlen_cons {A} (x : A) l : zlen (x :: l) = zlen l + 1.
Proof. unfold zlen. cbn [length]. lia. Qed.
Lemma zlen_nil {A} : zlen (@nil A) = 0. Proof. reflexivity. Qed.
Lemma zlen_app {A} (l r : list A) : zlen (l ++ r) = zlen l + zlen r.
Proof. unfold zlen. rewrite app_length. lia. Qed.
Lemma zlen_nonneg {A} (l : list A) : 0 <= zlen l. Proof. unfold zlen. lia. Qed.

Lemma pow64_S n : 0 <= n -> 2 ^ (64 * (n + 1)) = 2 ^ 64 * 2 ^ (64 * n).
Proof. intro. rewrite <- Z.pow_add_r by lia. f_equal. lia. Qed.
Lemma pow64_pos n : 0 <= n -> 0 < 2 ^ (64 * n).
Proof. intro. apply Z.pow_pos_nonneg; lia. Qed.

Lemma wval_bound l : Forall wordp l -> 0 <= wval l < 2 ^ (64 * zlen l).
Proof.
  induction 1 as [|x l X F IH]; cbn [wval]; [cbn; lia|]. rewrite zlen_cons, pow64_S by apply zlen_nonneg.
  unfold wordp in X. set (p := 2 ^ 64) in *. nia.
Qed.

Lemma wval_app l r : wval (l ++ r) = wval l + 2 ^ (64 * zlen l) * wval r.
Proof.
  induction l as [|x l IH]; cbn [wval app]; [cbn [zlen]; unfold zlen; cbn [length]; rewrite Z.mul_0_r, Z.pow_0_r; lia|].
  rewrite IH, zlen_cons, pow64_S by apply zlen_nonneg. ring.
Qed.

Lemma wval_zeros k : wval (repeat 0 k) = 0.
Proof. induction k as [|k IH]; cbn [repeat wval]; [reflexivity|]. rewrite IH. lia. Qed.

(** A number with a top word that is not 0 is large. *)
Lemma wval_top l : Forall wordp l -> last l 1 <> 0 -> l <> [] -> 2 ^ (64 * (zlen l - 1)) <= wval l.
Proof.
  intros F T N. destruct (exists_last N) as (r & x & ->). rewrite last_last in T. rewrite zlen_app, wval_app, zlen_cons, zlen_nil. cbn [wval].
  apply Forall_app in F. destruct F as [F1 F2]. inversion F2; subst. pose proof (wval_bound r F1). unfold wordp in *.
  replace (zlen r + (0 + 1) - 1) with (zlen r) by lia. pose proof (pow64_pos (zlen r) (zlen_nonneg r)).
  set (p := 2 ^ (64 * zlen r)) in *. clearbody p. rewrite Z.mul_0_r, Z.add_0_r. nia.
Qed.

Lemma wval_top_conv l : Forall wordp l -> 2 ^ (64 * (zlen l - 1)) <= wval l -> last l 1 <> 0.
Proof.
  intros F H E. destruct l as [|y l0] eqn:El; [discriminate|]. rewrite <- El in *. assert (N : l <> []) by (subst; discriminate).
  destruct (exists_last N) as (r & x & Er). clear El. subst l. rewrite last_last in E. subst x.
  rewrite zlen_app, wval_app, zlen_cons, zlen_nil in H. cbn [wval] in H. apply Forall_app in F. destruct F as [F1 _].
  pose proof (wval_bound r F1). replace (zlen r + (0 + 1) - 1) with (zlen r) in H by lia. lia.
Qed.

(** * Dropping the top word *)

Lemma drop_top_spec l : Forall wordp l -> l <> [] -> 2 ^ (64 * (zlen l - 2)) <= wval l \/ wval l = 0 /\ zlen l = 1 ->
  wval (drop_top l) = wval l /\ Forall wordp (drop_top l) /\ last (drop_top l) 1 <> 0.
Proof.
  intros F N H. destruct (exists_last N) as (r & x & ->). unfold drop_top. rewrite rev_unit.
  apply Forall_app in F. destruct F as [F1 F2]. inversion F2 as [|? ? X _]; subst. unfold wordp in X.
  destruct (Z.eq_dec x 0) as [->|Nx].
  - rewrite removelast_last. rewrite wval_app in *. cbn [wval] in *. split; [lia|]. split; auto.
    destruct r as [|y r]; [cbn; lia|]. apply wval_top_conv; auto. rewrite zlen_app, !zlen_cons, zlen_nil in H.
    rewrite zlen_cons. pose proof (zlen_nonneg r). destruct H as [H|[_ H]]; [|lia].
    replace (zlen r + 1 + (0 + 1) - 2) with (zlen r + 1 - 1) in H by lia. lia.
  - assert (E : match x with 0 => removelast (r ++ [x]) | _ => r ++ [x] end = r ++ [x]) by (destruct x; congruence).
    rewrite E. split; [reflexivity|]. split; [apply Forall_app; auto|]. rewrite last_last. auto.
Qed.

Lemma with_sign_ok ma l : Forall wordp l -> last l 1 <> 0 ->
  normal (with_sign ma l) /\ value (with_sign ma l) = (if ma <? 0 then - wval l else wval l).
Proof.
  intros F T. unfold with_sign, normal, value. cbn [zsize zn]. pose proof (zlen_nonneg l). split.
  - repeat split; auto. destruct (ma <? 0); lia.
  - destruct (Z.ltb_spec ma 0).
    + destruct (Z.ltb_spec (- zlen l) 0); auto. destruct l; [reflexivity|]. rewrite zlen_cons in *. pose proof (zlen_nonneg l). lia.
    + destruct (Z.ltb_spec (zlen l) 0); auto. lia.
Qed.

(** * Shifts *)

Lemma nn_shl_spec bits : 0 <= bits < 64 -> forall l carry l' c, Forall wordp l -> 0 <= carry < 2 ^ bits -> nn_shl l bits carry = (l', c) ->
  zlen l' = zlen l /\ Forall wordp l' /\ 0 <= c < 2 ^ bits /\ wval l' + 2 ^ (64 * zlen l) * c = wval l * 2 ^ bits + carry.
Proof.
  intros B. assert (P : 2 ^ 64 = 2 ^ bits * 2 ^ (64 - bits)) by (rewrite <- Z.pow_add_r by lia; f_equal; lia).
  assert (Pb : 0 < 2 ^ bits) by (apply Z.pow_pos_nonneg; lia). assert (Pc : 0 < 2 ^ (64 - bits)) by (apply Z.pow_pos_nonneg; lia).
  induction l as [|x l IH]; intros carry l' c F C E; cbn [nn_shl] in E.
  - injection E as <- <-. cbn [wval]. unfold zlen. cbn [length]. rewrite Z.mul_0_r, Z.pow_0_r. repeat split; auto; lia.
  - inversion F as [|? ? X F']; subst. unfold wordp in X.
    destruct (nn_shl l bits (x * 2 ^ bits / W64)) as [r c'] eqn:R. injection E as <- <-.
    rewrite W64_eq in *.
    assert (Q : 0 <= x * 2 ^ bits / 2 ^ 64 < 2 ^ bits).
    { split; [apply Z.div_pos; nia|]. apply Z.div_lt_upper_bound; [lia|]. nia. }
    destruct (IH _ _ _ F' Q R) as (L & G & C' & V). rewrite !zlen_cons, L, pow64_S by apply zlen_nonneg. cbn [wval].
    assert (M : (x * 2 ^ bits) mod 2 ^ 64 = 2 ^ bits * (x mod 2 ^ (64 - bits))).
    { rewrite P, (Z.mul_comm x). rewrite Z.mul_mod_distr_l by lia. reflexivity. }
    pose proof (Z.mod_pos_bound x (2 ^ (64 - bits)) Pc).
    split; [reflexivity|]. split; [constructor; auto; unfold wordp; rewrite M; nia|]. split; [auto|].
    pose proof (Z.div_mod (x * 2 ^ bits) (2 ^ 64) ltac:(lia)). nia.
Qed.

Lemma nn_shr_spec bits : 0 <= bits < 64 -> forall l l' c, Forall wordp l -> nn_shr l bits = (l', c) ->
  zlen l' = zlen l /\ Forall wordp l' /\ wval l' = wval l / 2 ^ bits /\ c = (wval l * 2 ^ (64 - bits)) mod 2 ^ 64.
Proof.
  intros B. assert (P : 2 ^ 64 = 2 ^ bits * 2 ^ (64 - bits)) by (rewrite <- Z.pow_add_r by lia; f_equal; lia).
  assert (Pb : 0 < 2 ^ bits) by (apply Z.pow_pos_nonneg; lia). assert (Pc : 0 < 2 ^ (64 - bits)) by (apply Z.pow_pos_nonneg; lia).
  induction l as [|x l IH]; intros l' c F E; cbn [nn_shr] in E.
  - injection E as <- <-. cbn [wval]. rewrite Z.div_0_l by lia. repeat split; auto.
  - inversion F as [|? ? X F']; subst. unfold wordp in X.
    destruct (nn_shr l bits) as [r c'] eqn:R. injection E as <- <-. destruct (IH _ _ F' eq_refl) as (L & G & V & C). rewrite W64_eq in *.
    rewrite !zlen_cons, L. cbn [wval]. rewrite V.
    assert (M : c' = 2 ^ (64 - bits) * (wval l mod 2 ^ bits)).
    { rewrite C, P, (Z.mul_comm (wval l)), (Z.mul_comm (2 ^ bits)). rewrite Z.mul_mod_distr_l by lia. reflexivity. }
    assert (X1 : 0 <= x / 2 ^ bits < 2 ^ (64 - bits)).
    { split; [apply Z.div_pos; lia|]. apply Z.div_lt_upper_bound; lia. }
    pose proof (Z.mod_pos_bound (wval l) (2 ^ bits) Pb).
    split; [reflexivity|]. split; [constructor; auto; unfold wordp; rewrite M; nia|]. split.
    + rewrite M. rewrite P. replace (x + 2 ^ bits * 2 ^ (64 - bits) * wval l) with (x + (2 ^ (64 - bits) * wval l) * 2 ^ bits) by ring.
      rewrite Z.div_add by lia. pose proof (Z.div_mod (wval l) (2 ^ bits) ltac:(lia)). nia.
    + rewrite Z.mul_add_distr_r. replace (2 ^ 64 * wval l * 2 ^ (64 - bits)) with (wval l * 2 ^ (64 - bits) * 2 ^ 64) by ring.
      rewrite Z.mod_add by lia. reflexivity.
Qed.

Lemma value_neg a : normal a -> (zsize a <? 0) = true -> value a < 0.
Proof.
  intros (S & F & T) N. unfold value. rewrite N. destruct (zn a) as [|x r] eqn:E; [cbn in S; unfold zlen in S; cbn in S; lia|].
  rewrite <- E in *. pose proof (wval_top (zn a) F T). assert (zn a <> []) by (rewrite E; discriminate).
  specialize (H H0). pose proof (pow64_pos (zlen (zn a) - 1)). rewrite E, zlen_cons in *. pose proof (zlen_nonneg r). lia.
Qed.

Lemma value_abs a : normal a -> Z.abs (value a) = wval (zn a).
Proof. intros (S & F & T). unfold value. pose proof (wval_bound _ F). destruct (zsize a <? 0); lia. Qed.

Lemma size_zero a : normal a -> zsize a = 0 <-> value a = 0.
Proof.
  intros (S & F & T). split; intro H.
  - rewrite H in S. cbn in S. destruct (zn a) eqn:E; [unfold value; rewrite H, E; reflexivity|]. rewrite zlen_cons in S. pose proof (zlen_nonneg l). lia.
  - destruct (zn a) as [|x r] eqn:E; [unfold zlen in S; cbn in S; lia|]. exfalso. rewrite <- E in *.
    assert (N : zn a <> []) by (rewrite E; discriminate). pose proof (wval_top (zn a) F T N).
    pose proof (pow64_pos (zlen (zn a) - 1)). pose proof (zlen_nonneg r). rewrite E, zlen_cons in *.
    unfold value in H. rewrite E in H. destruct (zsize a <? 0); lia.
Qed.

Lemma lshift_ok a b : normal a -> 0 <= b -> exists r, zz_lshift a b = Ok r /\ normal r /\ value r = value a * 2 ^ b.
Proof.
  intros N B. pose proof N as (S & F & T). unfold zz_lshift.
  destruct (Z.eqb_spec (zsize a) 0) as [Z0|Z0]; cbn [orb].
  { exists a. repeat split; auto. apply size_zero in Z0; auto. rewrite Z0. reflexivity. }
  destruct (Z.eqb_spec b 0) as [->|B0].
  { exists a. repeat split; auto. rewrite Z.pow_0_r. lia. }
  destruct (Z.ltb_spec b 0); [lia|].
  pose proof (Z.mod_pos_bound b 64 ltac:(lia)) as Hb. pose proof (Z.div_mod b 64 ltac:(lia)) as Db. pose proof (Z.div_pos b 64 B ltac:(lia)) as Dp.
  destruct (nn_shl (zn a) (b mod 64) 0) as [l ci] eqn:E.
  assert (C0 : 0 <= 0 < 2 ^ (b mod 64)) by (split; [lia|apply Z.pow_pos_nonneg; lia]).
  destruct (nn_shl_spec _ Hb _ _ _ _ F C0 E) as (L & G & C & V).
  set (k := Z.to_nat (b / 64)). set (l1 := if 0 <? b mod 64 then l ++ [ci] else l).
  assert (Nn : zn a <> []) by (intro A; rewrite A in S; unfold zlen in S; cbn in S; lia).
  assert (Pb : 0 < 2 ^ (b mod 64)) by (apply Z.pow_pos_nonneg; lia).
  assert (Pm : 2 ^ (b mod 64) <= 2 ^ 63) by (apply Z.pow_le_mono_r; lia).
  assert (V1 : wval l1 = wval (zn a) * 2 ^ (b mod 64) /\ Forall wordp l1 /\ (zlen l1 = zlen (zn a) \/ zlen l1 = zlen (zn a) + 1)).
  { unfold l1. destruct (Z.ltb_spec 0 (b mod 64)) as [A|A].
    - rewrite wval_app, zlen_app, zlen_cons, zlen_nil, L. cbn [wval]. rewrite Z.mul_0_r, Z.add_0_r. split; [lia|]. split; [|lia].
      apply Forall_app. split; auto. constructor; auto. unfold wordp. lia.
    - assert (b mod 64 = 0) by lia. rewrite H0 in *. rewrite Z.pow_0_r in *. assert (ci = 0) by lia. subst ci. split; [lia|]. auto. }
  destruct V1 as (V1 & F1 & L1).
  pose proof (wval_top _ F T Nn) as Top.
  assert (Zl : zlen (repeat 0 k ++ l1) = b / 64 + zlen l1) by (rewrite zlen_app; unfold zlen at 1; rewrite repeat_length; unfold k; lia).
  assert (Fk : Forall wordp (repeat 0 k ++ l1)).
  { apply Forall_app. split; auto. apply Forall_forall. intros y Hy. apply repeat_spec in Hy. subst y. unfold wordp. lia. }
  assert (Vk : wval (repeat 0 k ++ l1) = wval (zn a) * 2 ^ b).
  { rewrite wval_app, wval_zeros. unfold zlen. rewrite repeat_length. unfold k. rewrite Z2Nat.id by lia.
    rewrite V1. replace (2 ^ b) with (2 ^ (64 * (b / 64)) * 2 ^ (b mod 64)); [ring|]. rewrite <- Z.pow_add_r by lia. f_equal. lia. }
  destruct (drop_top_spec (repeat 0 k ++ l1) Fk) as (D1 & D2 & D3).
  { intro A. assert (zlen (repeat 0 k ++ l1) = 0) by now rewrite A. pose proof (zlen_nonneg (zn a)). destruct (zn a); [congruence|]. rewrite zlen_cons in *. pose proof (zlen_nonneg l0). lia. }
  { left. rewrite Vk, Zl. assert (zlen l1 - 2 <= zlen (zn a) - 1) by lia. pose proof (zlen_nonneg l1).
    assert (1 <= zlen (zn a)) by (destruct (zn a); [congruence|rewrite zlen_cons; pose proof (zlen_nonneg l0); lia]).
    apply Z.le_trans with (2 ^ (64 * (zlen (zn a) - 1) + b)).
    - apply Z.pow_le_mono_r; [lia|]. lia.
    - rewrite Z.pow_add_r by lia. apply Z.mul_le_mono_nonneg_r; auto. apply Z.pow_nonneg. lia. }
  eexists. split; [reflexivity|]. destruct (with_sign_ok (zsize a) _ D2 D3) as (W1 & W2). split; auto.
  rewrite W2, D1, Vk. unfold value. destruct (zsize a <? 0); lia.
Qed.

Lemma rshift_ok a b : normal a -> 0 <= b -> b < 64 * zlen (zn a) \/ value a = 0 ->
  exists r, zz_rshift a b = Ok r /\ normal r /\ value r = Z.quot (value a) (2 ^ b).
Proof.
  intros N B Hi. pose proof N as (S & F & T). unfold zz_rshift.
  destruct (Z.eqb_spec (zsize a) 0) as [Z0|Z0]; cbn [orb].
  { exists a. repeat split; auto. apply size_zero in Z0; auto. rewrite Z0. symmetry. apply Z.quot_0_l. apply Z.pow_nonzero; lia. }
  destruct Hi as [Hi|Hi]; [|apply size_zero in Hi; [congruence|auto]].
  destruct (Z.eqb_spec b 0) as [->|B0].
  { exists a. repeat split; auto. rewrite Z.pow_0_r, Z.quot_1_r. reflexivity. }
  destruct (Z.ltb_spec b 0); [lia|].
  pose proof (Z.mod_pos_bound b 64 ltac:(lia)) as Hb. pose proof (Z.div_mod b 64 ltac:(lia)) as Db. pose proof (Z.div_pos b 64 B ltac:(lia)) as Dp.
  destruct (Z.leb_spec (Z.abs (zsize a) - b / 64) 0); [lia|].
  set (k := Z.to_nat (b / 64)). set (lo := firstn k (zn a)). set (tmp := skipn k (zn a)).
  assert (E : zn a = lo ++ tmp) by (symmetry; apply firstn_skipn).
  assert (Ll : zlen lo = b / 64). { unfold lo, zlen. rewrite firstn_length. unfold zlen in *. unfold k. lia. }
  assert (Lt : zlen tmp = zlen (zn a) - b / 64) by (rewrite E, zlen_app; lia).
  assert (Ft : Forall wordp lo /\ Forall wordp tmp) by (rewrite E in F; now apply Forall_app). destruct Ft as [Fl Ft].
  destruct (nn_shr tmp (b mod 64)) as [l c] eqn:R. destruct (nn_shr_spec _ Hb _ _ _ Ft R) as (L & G & V & _). cbn [fst].
  assert (Pb : 0 < 2 ^ (b mod 64)) by (apply Z.pow_pos_nonneg; lia).
  assert (Tt : last tmp 1 <> 0).
  { rewrite E in T. assert (tmp <> []) by (intro A; rewrite A in Lt; cbn in Lt; lia). destruct (exists_last H1) as (q & y & A). rewrite A in *.
    rewrite app_assoc, last_last in T. now rewrite last_last. }
  assert (Nt : tmp <> []) by (intro A; rewrite A in Lt; cbn in Lt; lia).
  pose proof (wval_top _ Ft Tt Nt) as Top. pose proof (wval_bound _ Ft) as Bt.
  assert (Vq : wval l = wval (zn a) / 2 ^ b).
  { rewrite V, E, wval_app, Ll. replace (2 ^ b) with (2 ^ (64 * (b / 64)) * 2 ^ (b mod 64)) by (rewrite <- Z.pow_add_r by lia; f_equal; lia).
    pose proof (pow64_pos (b / 64) Dp). rewrite <- Z.div_div by lia. f_equal. rewrite (Z.mul_comm (2 ^ _)), Z.div_add by lia.
    rewrite Z.div_small; [lia|]. rewrite <- Ll. now apply wval_bound. }
  destruct (drop_top_spec l G) as (D1 & D2 & D3).
  { intro A. rewrite A in L. cbn in L. lia. }
  { rewrite L, Lt. assert (1 <= zlen tmp) by lia. destruct (Z.eq_dec (zlen tmp) 1) as [One|More].
    - destruct (Z.eq_dec (wval l) 0); [right; lia|]. left. replace (64 * (zlen (zn a) - b / 64 - 2)) with (- 64) by lia.
      assert (0 <= wval l) by (rewrite V; apply Z.div_pos; lia). rewrite Z.pow_neg_r by lia. lia.
    - left. rewrite V. apply Z.div_le_lower_bound; [lia|]. apply Z.le_trans with (2 ^ (64 * (zlen tmp - 1))); [|lia].
      replace (64 * (zlen tmp - 1)) with (64 + 64 * (zlen tmp - 2)) by lia. rewrite Z.pow_add_r by lia.
      rewrite <- Lt. apply Z.mul_le_mono_nonneg_r; [apply Z.pow_nonneg; lia|]. apply Z.pow_le_mono_r; lia. }
  eexists. split; [reflexivity|]. destruct (with_sign_ok (zsize a) _ D2 D3) as (W1 & W2). split; auto.
  rewrite W2, D1, Vq. unfold value. pose proof (wval_bound _ F). assert (0 < 2 ^ b) by (apply Z.pow_pos_nonneg; lia).
  destruct (zsize a <? 0).
  - rewrite Z.quot_opp_l by lia. rewrite Z.quot_div_nonneg by lia. reflexivity.
  - rewrite Z.quot_div_nonneg by lia. reflexivity.
Qed.

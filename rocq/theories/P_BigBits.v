(** Proofs about the bitwise operations on big integers. *)
From Verif Require Import Base S_Bigint M_Bigint P_Bigint.
Local Open Scope Z_scope.

(** The words l followed by infinitely many words that are all 0 (s = 0) or all ones (s = -1). *)
Definition ext (l : list Z) (s : Z) : Z := wval l + 2 ^ (64 * zlen l) * s.

Lemma tb_split x a n : wordp x -> 0 <= n -> Z.testbit (x + 2 ^ 64 * a) n = if n <? 64 then Z.testbit x n else Z.testbit a (n - 64).
Proof.
  intros X N. unfold wordp in X. destruct (Z.ltb_spec n 64) as [L|L].
  - rewrite <- (Z.mod_pow2_bits_low (x + 2 ^ 64 * a) 64 n) by lia. f_equal.
    rewrite (Z.mul_comm (2 ^ 64)), Z.mod_add by lia. apply Z.mod_small. lia.
  - replace n with ((n - 64) + 64) at 1 by lia. rewrite <- Z.div_pow2_bits by lia. f_equal.
    rewrite (Z.mul_comm (2 ^ 64)), Z.div_add by lia. rewrite Z.div_small by lia. lia.
Qed.

Lemma tb_high x n : wordp x -> 64 <= n -> Z.testbit x n = false.
Proof. intros X N. unfold wordp in X. rewrite <- (Z.mod_small x (2 ^ 64)) by lia. apply Z.mod_pow2_bits_high. lia. Qed.

Lemma map2_app f a1 b1 a2 b2 : length a1 = length b1 -> map2 f (a1 ++ a2) (b1 ++ b2) = map2 f a1 b1 ++ map2 f a2 b2.
Proof. revert b1. induction a1 as [|x a1 IH]; intros [|y b1] L; try discriminate; [reflexivity|]. cbn [app map2]. rewrite IH; auto. Qed.

Lemma map2_longer f a b : (length b <= length a)%nat -> map2 f a b = map2 f (firstn (length b) a) b.
Proof. revert b. induction a as [|x a IH]; intros [|y b] L; cbn [length firstn map2] in *; auto; try lia. rewrite IH by lia. reflexivity. Qed.

Lemma map2_len f a b : (length b <= length a)%nat -> length (map2 f a b) = length b.
Proof. revert b. induction a as [|x a IH]; intros [|y b] L; cbn [length map2] in *; auto; try lia. rewrite IH; lia. Qed.

Section Op.
Variable f : Z -> Z -> Z.
Variable g : bool -> bool -> bool.
Hypothesis fg : forall x y n, Z.testbit (f x y) n = g (Z.testbit x n) (Z.testbit y n).
Hypothesis g0 : g false false = false.

Lemma op_word x y : wordp x -> wordp y -> wordp (f x y).
Proof.
  intros X Y. unfold wordp. replace (f x y) with (f x y mod 2 ^ 64); [apply Z.mod_pos_bound; lia|].
  apply Z.bits_inj'. intros n N. destruct (Z.lt_ge_cases n 64) as [L|L].
  - apply Z.mod_pow2_bits_low. lia.
  - rewrite Z.mod_pow2_bits_high by lia. rewrite fg, !tb_high by auto. auto.
Qed.

Lemma op_split x y a b : wordp x -> wordp y -> f (x + 2 ^ 64 * a) (y + 2 ^ 64 * b) = f x y + 2 ^ 64 * f a b.
Proof.
  intros X Y. apply Z.bits_inj'. intros n N. rewrite fg, !tb_split by (auto using op_word). rewrite !fg. destruct (n <? 64); reflexivity.
Qed.

Lemma op_ext : forall a b s t, length a = length b -> Forall wordp a -> Forall wordp b ->
  f (ext a s) (ext b t) = ext (map2 f a b) (f s t).
Proof.
  induction a as [|x a IH]; intros [|y b] s t L A B; try discriminate.
  - unfold ext. cbn [map2 wval]. unfold zlen. cbn [length]. rewrite Z.mul_0_r, Z.pow_0_r, !Z.mul_1_l. reflexivity.
  - inversion A as [|? ? X A']; inversion B as [|? ? Y B']; subst. injection L as L. cbn [map2].
    assert (E : forall z l u, ext (z :: l) u = z + 2 ^ 64 * ext l u).
    { intros z l u. unfold ext. cbn [wval]. rewrite zlen_cons, pow64_S by apply zlen_nonneg. ring. }
    rewrite !E, op_split by auto. now rewrite IH.
Qed.

Lemma map2_word a b : Forall wordp a -> Forall wordp b -> Forall wordp (map2 f a b).
Proof. intros A. revert b. induction A as [|x a X A IH]; intros b B; destruct B; cbn [map2]; constructor; auto using op_word. Qed.

End Op.

Lemma zlen_repeat {A} (x : A) k : zlen (repeat x k) = Z.of_nat k.
Proof. unfold zlen. now rewrite repeat_length. Qed.

Lemma wval_ones k : wval (repeat (2 ^ 64 - 1) k) = 2 ^ (64 * Z.of_nat k) - 1.
Proof.
  induction k as [|k IH]; [reflexivity|]. cbn [repeat wval]. rewrite IH.
  replace (Z.of_nat (S k)) with (Z.of_nat k + 1) by lia. rewrite pow64_S by lia. ring.
Qed.

Definition sgnw (s : Z) : Z := if s =? 0 then 0 else 2 ^ 64 - 1.

(** Extending the words. *)
Lemma ext_more l s k : s = 0 \/ s = -1 -> ext l s = ext (l ++ repeat (sgnw s) k) s.
Proof.
  intro S. unfold ext. rewrite wval_app, zlen_app, zlen_repeat. destruct S as [-> | ->].
  - unfold sgnw. cbn [Z.eqb]. rewrite wval_zeros. lia.
  - unfold sgnw. cbn [Z.eqb]. rewrite wval_ones. rewrite Z.mul_add_distr_l, Z.pow_add_r by (pose proof (zlen_nonneg l); lia). ring.
Qed.

Lemma sgnw_word s : wordp (sgnw s).
Proof. unfold sgnw, wordp. destruct (s =? 0); lia. Qed.

Lemma Forall_repeat {A} (P : A -> Prop) x k : P x -> Forall P (repeat x k).
Proof. intro. induction k; cbn; constructor; auto. Qed.

(** Words of different lengths. *)
Lemma op_longer f g a b s t : (forall x y n, Z.testbit (f x y) n = g (Z.testbit x n) (Z.testbit y n)) -> g false false = false ->
  s = 0 \/ s = -1 -> t = 0 \/ t = -1 -> (length b <= length a)%nat -> Forall wordp a -> Forall wordp b ->
  f (ext a s) (ext b t) = ext (map2 f a b ++ map2 f (skipn (length b) a) (repeat (sgnw t) (length a - length b))) (f s t).
Proof.
  intros fg g0 Hs Ht L A B. rewrite (ext_more b t (length a - length b) Ht).
  rewrite (op_ext f g) by (auto; rewrite ?app_length, ?repeat_length; try lia; apply Forall_app; split; auto; apply Forall_repeat, sgnw_word).
  f_equal. rewrite <- (firstn_skipn (length b) a) at 1. rewrite (map2_app f) by (rewrite firstn_length; lia).
  f_equal. symmetry. now apply map2_longer.
Qed.

Lemma map2_repeat f x l : map2 f l (repeat x (length l)) = map (fun y => f y x) l.
Proof. induction l as [|y l IH]; cbn [length repeat map2 map]; [reflexivity|]. now rewrite IH. Qed.

(** * Two's complement *)

Lemma twocompl_len l : forall c, length (twocompl l c) = length l.
Proof. induction l as [|x l IH]; intro c; cbn [twocompl length]; [reflexivity|]. destruct (_ || _); cbn [length]; now rewrite IH. Qed.

Lemma twocompl0 l : Forall wordp l -> Forall wordp (twocompl l 0) /\ wval (twocompl l 0) = 2 ^ (64 * zlen l) - 1 - wval l.
Proof.
  induction 1 as [|x l X F IH]; [split; [constructor|reflexivity]|]. cbn [twocompl]. rewrite Z.eqb_refl, Bool.orb_true_r.
  unfold wordp in X. rewrite W64_eq, Z.add_0_r, Z.mod_small by lia. destruct IH as [IH1 IH2]. split; [constructor; auto; unfold wordp; lia|].
  cbn [wval]. rewrite IH2, zlen_cons, pow64_S by apply zlen_nonneg. ring.
Qed.

Lemma twocompl1 l : Forall wordp l -> Forall wordp (twocompl l 1) /\
  wval (twocompl l 1) = if wval l =? 0 then 0 else 2 ^ (64 * zlen l) - wval l.
Proof.
  induction 1 as [|x l X F IH]; [split; [constructor|reflexivity]|]. cbn [twocompl]. change (1 =? 0) with false. rewrite Bool.orb_false_r.
  unfold wordp in X. rewrite W64_eq. destruct IH as [IH1 IH2]. pose proof (wval_bound l F). destruct (Z.ltb_spec (2 ^ 64 - 1 - x) (2 ^ 64 - 1)) as [A|A].
  - destruct (twocompl0 l F) as [T1 T2]. rewrite Z.mod_small by lia. split; [constructor; auto; unfold wordp; lia|].
    cbn [wval]. rewrite T2, zlen_cons, pow64_S by apply zlen_nonneg. destruct (Z.eqb_spec (x + 2 ^ 64 * wval l) 0); [lia|ring].
  - assert (x = 0) by lia. subst x. split; [constructor; auto; unfold wordp; lia|]. cbn [wval]. rewrite IH2, zlen_cons, pow64_S by apply zlen_nonneg.
    destruct (Z.eqb_spec (wval l) 0) as [E|E]; destruct (Z.eqb_spec (0 + 2 ^ 64 * wval l) 0) as [E'|E']; try lia.
Qed.

Definition sg (a : zz) : Z := if zsize a <? 0 then -1 else 0.
Lemma sg_or a : sg a = 0 \/ sg a = -1. Proof. unfold sg. destruct (zsize a <? 0); auto. Qed.

(** The words of a number and its sign stand for the number. *)
Lemma words_ok a : normal a -> Forall wordp (words a) /\ length (words a) = length (zn a) /\ ext (words a) (sg a) = value a.
Proof.
  intros N. pose proof N as (S & F & T). unfold words, sg, ext, value. destruct (zsize a <? 0) eqn:E.
  - destruct (twocompl1 _ F) as [T1 T2]. rewrite twocompl_len. split; [auto|split; [auto|]]. unfold zlen. rewrite twocompl_len. fold (zlen (zn a)).
    pose proof (value_neg a N E) as V. unfold value in V. rewrite E in V. rewrite T2. destruct (Z.eqb_spec (wval (zn a)) 0); lia.
  - repeat split; auto. lia.
Qed.

(** * The end *)

Lemma strip_spec l : Forall wordp l -> Forall wordp (strip l) /\ wval (strip l) = wval l /\ last (strip l) 1 <> 0 /\ (length (strip l) <= length l)%nat.
Proof.
  induction 1 as [|x l X F (IH1 & IH2 & IH3 & IH4)]; cbn [strip length]; [repeat split; auto; cbn; lia|].
  destruct (strip l) as [|y r] eqn:E.
  - cbn [wval] in IH2. destruct (Z.eqb_spec x 0) as [->|Nx]; cbn [wval length last].
    + rewrite <- IH2. repeat split; auto; lia.
    + rewrite <- IH2. repeat split; auto; lia.
  - split; [constructor; auto|]. split; [cbn [wval] in *; lia|]. split; [|cbn [length] in *; lia]. exact IH3.
Qed.

Lemma finish_pos l : Forall wordp l -> normal (finish false l) /\ value (finish false l) = wval l.
Proof.
  intro F. destruct (strip_spec l F) as (A & B & C & D). unfold finish, normal, value. cbn [zsize zn].
  pose proof (zlen_nonneg (strip l)). destruct (Z.ltb_spec (zlen (strip l)) 0); [lia|]. repeat split; auto. lia.
Qed.

Lemma finish_neg l : Forall wordp l -> let k := zlen l in let R := wval l - 2 ^ (64 * k) in
  1 <= k -> R <= - 2 ^ (64 * (k - 1)) -> 2 ^ (64 * (k - 1)) - 2 ^ (64 * k) <= R ->
  normal (finish true l) /\ value (finish true l) = R.
Proof.
  intros F k R K U L. destruct (strip_spec l F) as (A & B & C & D). pose proof (pow64_pos (k - 1) ltac:(lia)) as P.
  assert (E : zlen (strip l) = k).
  { assert (zlen (strip l) <= k) by (unfold k, zlen; lia). pose proof (wval_bound _ A). rewrite B in H0.
    destruct (Z.lt_ge_cases (zlen (strip l)) k) as [G|G]; [|lia]. exfalso.
    assert (2 ^ (64 * zlen (strip l)) <= 2 ^ (64 * (k - 1))) by (apply Z.pow_le_mono_r; lia). unfold R in *. lia. }
  destruct (twocompl1 _ A) as [T1 T2]. rewrite B, E in T2.
  assert (W : wval (twocompl (strip l) 1) = - R) by (rewrite T2; destruct (Z.eqb_spec (wval l) 0); unfold R in *; lia).
  unfold finish, normal, value. cbn [zsize zn]. rewrite E. destruct (Z.ltb_spec (- k) 0); [|lia].
  assert (Ln : zlen (twocompl (strip l) 1) = k) by (unfold zlen; rewrite twocompl_len; exact E).
  repeat split; auto; [lia| |lia]. apply wval_top_conv; auto. rewrite Ln, W. lia.
Qed.

Lemma longer_spec a b : let '(a', b') := longer_first a b in
  (a' = a /\ b' = b \/ a' = b /\ b' = a) /\ Z.abs (zsize b') <= Z.abs (zsize a').
Proof. unfold longer_first. destruct (Z.ltb_spec (Z.abs (zsize a)) (Z.abs (zsize b))); split; auto; lia. Qed.

Lemma normal_len a b : normal a -> normal b -> Z.abs (zsize b) <= Z.abs (zsize a) -> (length (words b) <= length (words a))%nat.
Proof.
  intros A B L. destruct (words_ok a A) as (_ & La & _), (words_ok b B) as (_ & Lb & _). destruct A as (A & _), B as (B & _). unfold zlen in *. lia.
Qed.

Lemma value_zero : value (mkZZ 0 []) = 0. Proof. reflexivity. Qed.
Lemma normal_zero : normal (mkZZ 0 []). Proof. repeat split; cbn; auto; lia. Qed.

Lemma map_id_word (f : Z -> Z) l : Forall wordp l -> (forall x, wordp x -> f x = x) -> map f l = l.
Proof. intros F H. induction F as [|x l X F IH]; cbn [map]; [reflexivity|]. rewrite H, IH; auto. Qed.

Lemma land_ones_word x : wordp x -> Z.land x (2 ^ 64 - 1) = x.
Proof. intro X. change (2 ^ 64 - 1) with (Z.ones 64). rewrite Z.land_ones by lia. apply Z.mod_small. exact X. Qed.
Lemma lor_ones_word x : wordp x -> Z.lor x (2 ^ 64 - 1) = 2 ^ 64 - 1.
Proof.
  intro X. change (2 ^ 64 - 1) with (Z.ones 64). apply Z.bits_inj'. intros n N. rewrite Z.lor_spec. destruct (Z.lt_ge_cases n 64).
  - rewrite (Z.ones_spec_low 64 n) by lia. apply Bool.orb_true_r.
  - rewrite (Z.ones_spec_high 64 n) by lia. rewrite (tb_high x n); auto.
Qed.
Lemma lxor_ones_word x : wordp x -> Z.lxor x (2 ^ 64 - 1) = 2 ^ 64 - 1 - x.
Proof.
  intro X. replace (2 ^ 64 - 1 - x) with (Z.land (Z.lnot x) (Z.ones 64)).
  - change (2 ^ 64 - 1) with (Z.ones 64). apply Z.bits_inj'. intros n N. rewrite Z.lxor_spec, Z.land_spec, Z.lnot_spec by lia. destruct (Z.lt_ge_cases n 64).
    + rewrite (Z.ones_spec_low 64 n) by lia. destruct (Z.testbit x n); reflexivity.
    + rewrite (Z.ones_spec_high 64 n) by lia. rewrite (tb_high x n); auto.
  - rewrite Z.land_ones by lia. unfold Z.lnot, Z.pred. unfold wordp in X. replace (- x + -1) with ((2 ^ 64 - 1 - x) + (-1) * 2 ^ 64) by lia.
    rewrite Z.mod_add by lia. apply Z.mod_small. lia.
Qed.

Lemma Forall_skipn {A} (P : A -> Prop) k l : Forall P l -> Forall P (skipn k l).
Proof. intro F. rewrite <- (firstn_skipn k l) in F. apply Forall_app in F. tauto. Qed.

Lemma size_pos_words a : normal a -> zsize a <> 0 -> 1 <= zlen (words a) /\ zlen (words a) = Z.abs (zsize a).
Proof. intros N Z. destruct (words_ok a N) as (_ & L & _). destruct N as (S & _). unfold zlen in *. rewrite L. lia. Qed.

Lemma ext0 l : ext l 0 = wval l. Proof. unfold ext. lia. Qed.
Lemma extm l : ext l (-1) = wval l - 2 ^ (64 * zlen l). Proof. unfold ext. lia. Qed.

Lemma ext_nonneg_sg l s : Forall wordp l -> s = 0 \/ s = -1 -> 0 <= ext l s <-> s = 0.
Proof. intros F [-> | ->]; [rewrite ext0|rewrite extm]; pose proof (wval_bound l F); lia. Qed.

(** What the code gives for the words l and the sign s of the result. *)
Lemma finish_ok l s : Forall wordp l -> s = 0 \/ s = -1 -> 1 <= zlen l ->
  (0 <= ext l s \/ ext l s <= - 2 ^ (64 * (zlen l - 1)) /\ 2 ^ (64 * (zlen l - 1)) - 2 ^ (64 * zlen l) <= ext l s) ->
  normal (finish (s <? 0) l) /\ value (finish (s <? 0) l) = ext l s.
Proof.
  intros F [-> | ->] K H.
  - rewrite ext0. now apply finish_pos.
  - rewrite extm in *. pose proof (wval_bound l F). destruct H as [H|[H1 H2]]; [lia|]. apply finish_neg; auto.
Qed.

Lemma land_le x y : y < 0 -> Z.land x y <= x.
Proof.
  intro Y. assert (E : Z.ldiff x y + Z.land x y = x).
  { rewrite Z.add_nocarry_lxor, Z.lxor_lor.
    - apply Z.bits_inj'. intros n N. rewrite Z.lor_spec, Z.ldiff_spec, Z.land_spec. destruct (Z.testbit x n), (Z.testbit y n); reflexivity.
    - apply Z.bits_inj'. intros n N. rewrite Z.land_spec, Z.ldiff_spec, Z.land_spec, Z.bits_0. destruct (Z.testbit x n), (Z.testbit y n); reflexivity.
    - apply Z.bits_inj'. intros n N. rewrite Z.land_spec, Z.ldiff_spec, Z.land_spec, Z.bits_0. destruct (Z.testbit x n), (Z.testbit y n); reflexivity. }
  assert (0 <= Z.ldiff x y) by (apply Z.ldiff_nonneg; auto). lia.
Qed.

(** What the operands look like after the exchange, and the words of the result. *)
Record setup (f : Z -> Z -> Z) (a' b' : zz) (R : Z) (lo hi : list Z) : Prop := {
  su_lo : lo = map2 f (words a') (words b');
  su_hi : hi = skipn (length (words b')) (words a');
  su_R : R = ext (lo ++ map (fun y => f y (sgnw (sg b'))) hi) (f (sg a') (sg b'));
  su_Fl : Forall wordp lo;
  su_Fh : Forall wordp hi;
  su_Ll : zlen lo = Z.abs (zsize b');
  su_Lh : zlen hi = Z.abs (zsize a') - Z.abs (zsize b');
  su_k : 1 <= Z.abs (zsize b') <= Z.abs (zsize a')
}.

Lemma setup_ok f g a b a' b' : (forall x y n, Z.testbit (f x y) n = g (Z.testbit x n) (Z.testbit y n)) -> g false false = false ->
  (forall x y, f x y = f y x) ->
  normal a -> normal b -> zsize a <> 0 -> zsize b <> 0 -> longer_first a b = (a', b') ->
  normal a' /\ normal b' /\ setup f a' b' (f (value a) (value b)) (map2 f (words a') (words b')) (skipn (length (words b')) (words a')).
Proof.
  intros fg g0 comm A B Za Zb LF. pose proof (longer_spec a b) as LS. rewrite LF in LS. destruct LS as [Sw Le].
  assert (A' : normal a') by (destruct Sw as [[-> ->]|[-> ->]]; auto). assert (B' : normal b') by (destruct Sw as [[-> ->]|[-> ->]]; auto).
  assert (NZa : zsize a' <> 0) by (destruct Sw as [[-> ->]|[-> ->]]; auto). assert (NZb : zsize b' <> 0) by (destruct Sw as [[-> ->]|[-> ->]]; auto).
  assert (ER : f (value a) (value b) = f (value a') (value b')) by (destruct Sw as [[-> ->]|[-> ->]]; auto).
  destruct (words_ok a' A') as (Fa & La & Va), (words_ok b' B') as (Fb & Lb & Vb).
  pose proof (normal_len _ _ A' B' Le) as Len. destruct (size_pos_words _ A' NZa) as [Pa Ka]. destruct (size_pos_words _ B' NZb) as [Pb Kb].
  split; auto. split; auto. split; auto.
  - rewrite ER, <- Va, <- Vb. rewrite (op_longer f g) by (auto using sg_or). f_equal. f_equal.
    replace (length (words a') - length (words b'))%nat with (length (skipn (length (words b')) (words a'))) by (rewrite skipn_length; lia).
    apply map2_repeat.
  - apply (map2_word f g); auto.
  - apply Forall_skipn; auto.
  - unfold zlen. rewrite map2_len by auto. exact Kb.
  - rewrite <- Ka, <- Kb. unfold zlen. rewrite skipn_length. lia.
  - lia.
Qed.

Lemma sign_sym (f : bool -> bool -> bool) a b a' b' : (forall x y, f x y = f y x) -> longer_first a b = (a', b') ->
  f (zsize a <? 0) (zsize b <? 0) = f (zsize a' <? 0) (zsize b' <? 0).
Proof. intros H E. pose proof (longer_spec a b) as LS. rewrite E in LS. destruct LS as [[[-> ->]|[-> ->]] _]; auto. Qed.

Lemma value_le a : normal a -> zsize a < 0 -> value a <= - 2 ^ (64 * (Z.abs (zsize a) - 1)).
Proof.
  intros (S & F & T) N. unfold value. destruct (Z.ltb_spec (zsize a) 0); [|lia]. pose proof (wval_top _ F T) as TT.
  assert (NN : zn a <> []) by (intro Q; rewrite Q in S; unfold zlen in S; cbn in S; lia). specialize (TT NN). rewrite S. lia.
Qed.

Lemma sg_m a : (zsize a <? 0) = true -> sg a = -1. Proof. unfold sg. now intros ->. Qed.
Lemma sg_p a : (zsize a <? 0) = false -> sg a = 0. Proof. unfold sg. now intros ->. Qed.

Lemma longer_max a b a' b' : longer_first a b = (a', b') -> Z.max (Z.abs (zsize a)) (Z.abs (zsize b)) = Z.abs (zsize a') /\ Z.min (Z.abs (zsize a)) (Z.abs (zsize b)) = Z.abs (zsize b').
Proof. intros E. pose proof (longer_spec a b) as LS. rewrite E in LS. destruct LS as [[[-> ->]|[-> ->]] H]; lia. Qed.

Lemma and_ok a b : normal a -> normal b -> let R := Z.land (value a) (value b) in
  let k := Z.max (Z.abs (zsize a)) (Z.abs (zsize b)) in
  0 <= R \/ 2 ^ (64 * (k - 1)) - 2 ^ (64 * k) <= R ->
  normal (zz_and a b) /\ value (zz_and a b) = R.
Proof.
  intros A B R k W. unfold zz_and. destruct (Z.eqb_spec (zsize b) 0) as [Zb|Zb].
  { split; [apply normal_zero|]. unfold R. rewrite (proj1 (size_zero b B) Zb), Z.land_0_r. reflexivity. }
  destruct (Z.eqb_spec (zsize a) 0) as [Za|Za].
  { split; [apply normal_zero|]. unfold R. rewrite (proj1 (size_zero a A) Za), Z.land_0_l. reflexivity. }
  destruct (longer_first a b) as [a' b'] eqn:LF. destruct (longer_max _ _ _ _ LF) as [Mx _]. fold k in Mx.
  destruct (setup_ok Z.land andb a b a' b' Z.land_spec eq_refl Z.land_comm A B Za Zb LF) as (A' & B' & [_ _ ER Fl Fh Ll Lh K]).
  fold R in ER. rewrite (sign_sym andb _ _ _ _ Bool.andb_comm LF). set (lo := map2 Z.land (words a') (words b')) in *. set (hi := skipn (length (words b')) (words a')) in *.
  destruct (zsize b' <? 0) eqn:Nb.
  - rewrite Bool.andb_true_r. rewrite (sg_m b' Nb) in ER. change (sgnw (-1)) with (2 ^ 64 - 1) in ER.
    rewrite (map_id_word _ hi Fh) in ER by (intros; now apply land_ones_word).
    assert (Es : (zsize a' <? 0) = (Z.land (sg a') (-1) <? 0)) by (unfold sg; destruct (zsize a' <? 0); reflexivity). rewrite Es, ER.
    apply finish_ok; auto.
    + apply Forall_app; auto.
    + unfold sg. destruct (zsize a' <? 0); auto.
    + rewrite zlen_app. lia.
    + rewrite <- ER, zlen_app. replace (zlen lo + zlen hi) with k by lia. destruct W as [W|W]; auto.
      destruct (Z.lt_ge_cases R 0) as [G|G]; auto. right. split; auto.
      destruct (zsize a' <? 0) eqn:Na.
      * assert (RR : R = Z.land (value a') (value b')).
        { unfold R. pose proof (longer_spec a b) as LS. rewrite LF in LS. destruct LS as [[[-> ->]|[-> ->]] _]; auto using Z.land_comm. }
        rewrite RR, Mx. apply Z.le_trans with (value a'); [apply land_le; apply (value_neg b' B' Nb)|]. apply value_le; auto. lia.
      * rewrite (sg_p a' Na) in ER. cbn [Z.land] in ER. rewrite ER, ext0 in G. pose proof (wval_bound (lo ++ hi)). rewrite Forall_app in H. specialize (H (conj Fl Fh)). lia.
  - rewrite Bool.andb_false_r. rewrite (sg_p b' Nb) in ER. rewrite Z.land_0_r, ext0, wval_app in ER. change (sgnw 0) with 0 in ER.
    assert (Hz : forall l, wval (map (fun y => Z.land y 0) l) = 0).
    { induction l as [|y l IH]; cbn [map wval]; [reflexivity|]. rewrite IH, Z.land_0_r. reflexivity. }
    rewrite Hz in ER. rewrite app_nil_r. replace R with (wval lo) by lia. now apply finish_pos.
Qed.

(** The number of words that the code computes for __or__. *)
Definition or_width (a b : zz) : Z :=
  let '(a', b') := longer_first a b in if zsize b' <? 0 then Z.abs (zsize b') else Z.abs (zsize a').

Lemma or_ok a b : normal a -> normal b -> let R := Z.lor (value a) (value b) in
  let k := or_width a b in
  0 <= R \/ R <= - 2 ^ (64 * (k - 1)) /\ 2 ^ (64 * (k - 1)) - 2 ^ (64 * k) <= R \/ value a = 0 \/ value b = 0 ->
  normal (zz_or a b) /\ value (zz_or a b) = R.
Proof.
  intros A B R k W. unfold zz_or. destruct (Z.eqb_spec (zsize b) 0) as [Zb|Zb].
  { split; auto. unfold R. rewrite (proj1 (size_zero b B) Zb), Z.lor_0_r. reflexivity. }
  destruct (Z.eqb_spec (zsize a) 0) as [Za|Za].
  { split; auto. unfold R. rewrite (proj1 (size_zero a A) Za), Z.lor_0_l. reflexivity. }
  assert (W' : 0 <= R \/ R <= - 2 ^ (64 * (k - 1)) /\ 2 ^ (64 * (k - 1)) - 2 ^ (64 * k) <= R).
  { destruct W as [W|[W|[W|W]]]; auto; apply size_zero in W; auto; congruence. }
  clear W. unfold or_width in k. destruct (longer_first a b) as [a' b'] eqn:LF.
  destruct (setup_ok Z.lor orb a b a' b' Z.lor_spec eq_refl Z.lor_comm A B Za Zb LF) as (A' & B' & [_ _ ER Fl Fh Ll Lh K]).
  fold R in ER. rewrite (sign_sym orb _ _ _ _ Bool.orb_comm LF). set (lo := map2 Z.lor (words a') (words b')) in *. set (hi := skipn (length (words b')) (words a')) in *.
  destruct (zsize b' <? 0) eqn:Nb.
  - rewrite Bool.orb_true_r, app_nil_r. rewrite (sg_m b' Nb) in ER. change (sgnw (-1)) with (2 ^ 64 - 1) in ER.
    rewrite Z.lor_m1_r in ER.
    assert (E1 : map (fun y => Z.lor y (2 ^ 64 - 1)) hi = repeat (sgnw (-1)) (length hi)).
    { clear - Fh. induction Fh as [|x l X F IH]; cbn [map length repeat]; [reflexivity|]. rewrite IH, lor_ones_word; auto. }
    rewrite E1, <- ext_more in ER by auto. rewrite ER. change true with (-1 <? 0). apply finish_ok; auto; try lia.
    rewrite <- ER, Ll. exact W'.
  - rewrite Bool.orb_false_r. rewrite (sg_p b' Nb) in ER. change (sgnw 0) with 0 in ER. rewrite Z.lor_0_r in ER.
    rewrite (map_id_word _ hi Fh) in ER by (intros; now apply Z.lor_0_r).
    assert (Es : (zsize a' <? 0) = (sg a' <? 0)) by (unfold sg; destruct (zsize a' <? 0); reflexivity). rewrite Es, ER.
    apply finish_ok; auto using sg_or.
    + apply Forall_app; auto.
    + rewrite zlen_app. lia.
    + rewrite <- ER, zlen_app. replace (zlen lo + zlen hi) with k by (unfold k; lia). exact W'.
Qed.

Lemma xor_ok a b : normal a -> normal b -> let R := Z.lxor (value a) (value b) in
  let k := Z.max (Z.abs (zsize a)) (Z.abs (zsize b)) in
  0 <= R \/ R <= - 2 ^ (64 * (k - 1)) /\ 2 ^ (64 * (k - 1)) - 2 ^ (64 * k) <= R \/ value a = 0 \/ value b = 0 ->
  normal (zz_xor a b) /\ value (zz_xor a b) = R.
Proof.
  intros A B R k W. unfold zz_xor. destruct (Z.eqb_spec (zsize b) 0) as [Zb|Zb].
  { split; auto. unfold R. rewrite (proj1 (size_zero b B) Zb), Z.lxor_0_r. reflexivity. }
  destruct (Z.eqb_spec (zsize a) 0) as [Za|Za].
  { split; auto. unfold R. rewrite (proj1 (size_zero a A) Za), Z.lxor_0_l. reflexivity. }
  assert (W' : 0 <= R \/ R <= - 2 ^ (64 * (k - 1)) /\ 2 ^ (64 * (k - 1)) - 2 ^ (64 * k) <= R).
  { destruct W as [W|[W|[W|W]]]; auto; apply size_zero in W; auto; congruence. }
  clear W. destruct (longer_first a b) as [a' b'] eqn:LF. destruct (longer_max _ _ _ _ LF) as [Mx _]. fold k in Mx.
  destruct (setup_ok Z.lxor xorb a b a' b' Z.lxor_spec eq_refl Z.lxor_comm A B Za Zb LF) as (A' & B' & [_ _ ER Fl Fh Ll Lh K]).
  fold R in ER. rewrite (sign_sym xorb _ _ _ _ Bool.xorb_comm LF). set (lo := map2 Z.lxor (words a') (words b')) in *. set (hi := skipn (length (words b')) (words a')) in *.
  assert (Es : xorb (zsize a' <? 0) (zsize b' <? 0) = (Z.lxor (sg a') (sg b') <? 0)) by (unfold sg; destruct (zsize a' <? 0), (zsize b' <? 0); reflexivity).
  assert (Ss : Z.lxor (sg a') (sg b') = 0 \/ Z.lxor (sg a') (sg b') = -1) by (unfold sg; destruct (zsize a' <? 0), (zsize b' <? 0); auto).
  assert (Eh : (if zsize b' <? 0 then map (fun x => W64 - 1 - x) hi else hi) = map (fun y => Z.lxor y (sgnw (sg b'))) hi).
  { unfold sg. destruct (zsize b' <? 0).
    - change (sgnw (-1)) with (2 ^ 64 - 1). apply map_ext_in. intros x Hx. rewrite Forall_forall in Fh. rewrite lxor_ones_word by auto. reflexivity.
    - change (sgnw 0) with 0. symmetry. apply map_id_word; auto. intros; apply Z.lxor_0_r. }
  rewrite Eh, Es, ER. set (h := map (fun y => Z.lxor y (sgnw (sg b'))) hi) in *.
  assert (Hh : Forall wordp h).
  { unfold h. clear - Fh. induction Fh as [|x l X F IH]; cbn [map]; constructor; auto. apply (op_word Z.lxor xorb); auto using Z.lxor_spec, sgnw_word. }
  assert (Lh' : zlen h = zlen hi) by (unfold h, zlen; now rewrite map_length).
  apply finish_ok; auto.
  - apply Forall_app; auto.
  - rewrite zlen_app. lia.
  - rewrite <- ER, zlen_app. replace (zlen lo + zlen h) with k by lia. exact W'.
Qed.

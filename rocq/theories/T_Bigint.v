(** C53-C55, C59: big integers. *)
From Verif Require Import Base S_Bigint M_Bigint P_Bigint P_BigBits P_BigStr.
Local Open Scope Z_scope.

(** * C53 Parsing *)

Lemma dpw base p : 2 <= base <= 36 -> digits_per_word base p -> pow_in_word base = p.
Proof.
  intros B (P & L & U).
  assert (H : forallb (fun i => (0 <? pow_in_word (Z.of_nat i)) && (Z.of_nat i ^ pow_in_word (Z.of_nat i) <? 2 ^ 63) && (2 ^ 63 <=? Z.of_nat i ^ (pow_in_word (Z.of_nat i) + 1))) (seq 2 35) = true) by (vm_compute; reflexivity).
  rewrite forallb_forall in H. specialize (H (Z.to_nat base)). rewrite in_seq in H. specialize (H ltac:(lia)). rewrite Z2Nat.id in H by lia.
  set (q := pow_in_word base) in *. destruct (Z.lt_trichotomy q p) as [G|[G|G]]; auto; exfalso.
  - assert (base ^ (q + 1) <= base ^ p) by (apply Z.pow_le_mono_r; lia). lia.
  - assert (base ^ (p + 1) <= base ^ q) by (apply Z.pow_le_mono_r; lia). lia.
Qed.

(** A text that is a number in the sense of S_Bigint.written is converted to that number,
    whatever its length and base, except negative numbers whose count of digits is a multiple of the
    number of digits that fit in a word (18 for base 10). *)
Theorem C53_parse_partial : forall s ib sgn base ds v, ~ In 0 s -> written s ib sgn base ds v ->
  (sgn = -1 -> forall p, digits_per_word base p -> zlen ds mod p <> 0) ->
  bigint_of_str s ib = Ok (sgn * v).
Proof.
  intros s ib sgn base ds v Z W H. unfold bigint_of_str. rewrite (cstr_id s Z).
  assert (S : sgn = 1 \/ sgn = -1) by (destruct W as (_ & t & _ & _ & _ & T & _); unfold sign_text in T; tauto).
  destruct (written_read _ _ _ _ _ _ W) as (E & F & N & B & ->). rewrite E, (convert_ok sgn base ds B F N).
  destruct (Z.eqb_spec (zlen ds mod pow_in_word base) 0) as [M|M]; auto. destruct S as [-> | ->]; [f_equal; lia|]. exfalso.
  destruct (pow_in_word_ok base B) as [P1 P2]. apply (H eq_refl (pow_in_word base)); auto. split; auto. split; auto.
  assert (G : forallb (fun i => (2 ^ 63 <=? Z.of_nat i ^ (pow_in_word (Z.of_nat i) + 1))) (seq 2 35) = true) by (vm_compute; reflexivity).
  rewrite forallb_forall in G. specialize (G (Z.to_nat base)). rewrite in_seq in G. specialize (G ltac:(lia)). rewrite Z2Nat.id in G by lia. lia.
Qed.
Print Assumptions C53_parse_partial.

(** Any other text is rejected with ValueError. *)
Theorem C53_rejects : forall s ib, ~ In 0 s -> (forall sgn base ds v, ~ written s ib sgn base ds v) -> bigint_of_str s ib = Exn ValueError.
Proof.
  intros s ib Z H. unfold bigint_of_str. rewrite (cstr_id s Z). destruct (set_str_dec s ib) as [(sgn & base & ds & v & W)|E]; auto. destruct (H _ _ _ _ W).
Qed.
Print Assumptions C53_rejects.

(** The exceptions are all wrong: the sign is lost.  Also, a text with a byte 0 is read up to that
    byte only. *)
Theorem C53_parse_refuted :
  (forall s ib base ds v p, ~ In 0 s -> written s ib (-1) base ds v -> digits_per_word base p -> zlen ds mod p = 0 -> bigint_of_str s ib = Ok v) /\
  (exists s v, written s None (-1) 10 (tl s) v /\ v = 123456789012345678 /\ bigint_of_str s None = Ok 123456789012345678) /\
  bigint_of_str [49; 50; 0; 51] None = Ok 12.
Proof.
  split; [|split].
  - intros s ib base ds v p Z W D M. unfold bigint_of_str. rewrite (cstr_id s Z).
    destruct (written_read _ _ _ _ _ _ W) as (E & F & N & B & ->). rewrite E, (convert_ok (-1) base ds B F N), (dpw base p B D), M. reflexivity.
  - exists [45; 49; 50; 51; 52; 53; 54; 55; 56; 57; 48; 49; 50; 51; 52; 53; 54; 55; 56], 123456789012345678. split; [|split; [reflexivity|vm_compute; reflexivity]].
    exists [], [45], []. cbn [app tl]. split; [reflexivity|]. split; [constructor|]. split; [right; auto|]. split; [|split; [lia|]].
    + apply numeral_iff; [lia|]. split; [discriminate|]. split; [repeat constructor|vm_compute; reflexivity].
    + right. split; [reflexivity|]. split; [|left; auto]. intros (p & r & b & A & (c & -> & _)). discriminate A.
  - vm_compute. reflexivity.
Qed.
Print Assumptions C53_parse_refuted.

(** " +0xFF" is a case. *)
Example C53_case : written [32; 43; 48; 120; 70; 70] None 1 16 [70; 70] 255 /\ bigint_of_str [32; 43; 48; 120; 70; 70] None = Ok 255.
Proof.
  split; [|vm_compute; reflexivity]. exists [32], [43], [48; 120]. split; [reflexivity|]. split; [repeat constructor|]. split; [left; auto|]. split; [|split; [lia|]].
  - apply numeral_iff; [lia|]. split; [discriminate|]. split; [repeat constructor|vm_compute; reflexivity].
  - left. split; [|auto]. exists 120. split; auto.
Qed.

(** * C54 Shifts *)

(** a << b is a * 2^b. *)
Theorem C54_lshift : forall a b, normal a -> 0 <= b -> exists r, zz_lshift a b = Ok r /\ normal r /\ value r = value a * 2 ^ b.
Proof. exact lshift_ok. Qed.
Print Assumptions C54_lshift.

(** a >> b is the floor of a / 2^b for a >= 0, and for a < 0 if nothing is shifted out, as long as b is less
    than 64 times the number of words of a. *)
Theorem C54_rshift_partial : forall a b, normal a -> 0 <= b -> b < 64 * zlen (zn a) \/ value a = 0 ->
  0 <= value a \/ (2 ^ b | value a) ->
  exists r, zz_rshift a b = Ok r /\ normal r /\ value r = value a / 2 ^ b.
Proof.
  intros a b N B H D. destruct (rshift_ok a b N B H) as (r & E & R & V). exists r. split; auto. split; auto. rewrite V.
  assert (P : 0 < 2 ^ b) by (apply Z.pow_pos_nonneg; lia). destruct D as [D|[q D]].
  - apply Z.quot_div_nonneg; auto.
  - rewrite D. rewrite Z.quot_mul, Z.div_mul by lia. reflexivity.
Qed.
Print Assumptions C54_rshift_partial.

(** Otherwise a >> b is wrong: for negative a it is the quotient rounded toward zero, and for b of at
    least the number of bits in the words of a it is undefined. *)
Theorem C54_rshift_refuted :
  (forall a b, normal a -> 0 <= b -> b < 64 * zlen (zn a) -> value a < 0 -> ~ (2 ^ b | value a) ->
     exists r, zz_rshift a b = Ok r /\ value r = value a / 2 ^ b + 1) /\
  (forall a b, normal a -> value a <> 0 -> 64 * zlen (zn a) <= b -> zz_rshift a b = UB).
Proof.
  split.
  - intros a b N B H V D. destruct (rshift_ok a b N B (or_introl H)) as (r & E & R & Q). exists r. split; auto. rewrite Q.
    assert (P : 0 < 2 ^ b) by (apply Z.pow_pos_nonneg; lia).
    pose proof (Z.quot_opp_l (- value a) (2 ^ b) ltac:(lia)) as O. rewrite Z.opp_involutive in O. rewrite O, Z.quot_div_nonneg by lia.
    assert (M : - value a mod 2 ^ b <> 0). { intro M. apply D. apply Z.mod_divide in M; [|lia]. apply Z.divide_opp_r. exact M. }
    pose proof (Z.div_opp_l_nz (- value a) (2 ^ b) ltac:(lia) M) as G. rewrite Z.opp_involutive in G. lia.
  - intros a b N V B. pose proof N as (S & F & T). assert (Z : zsize a <> 0) by (intro A; apply size_zero in A; auto).
    unfold zz_rshift. destruct (Z.eqb_spec (zsize a) 0); [congruence|]. pose proof (zlen_nonneg (zn a)).
    destruct (Z.eqb_spec b 0); [lia|]. cbn [orb]. destruct (Z.ltb_spec b 0); [lia|].
    assert (zlen (zn a) <= b / 64) by (apply Z.div_le_lower_bound; lia). destruct (Z.leb_spec (Z.abs (zsize a) - b / 64) 0); [reflexivity|lia].
Qed.
Print Assumptions C54_rshift_refuted.

(** Negative counts raise ValueError, except for 0, which is returned. *)
Theorem C54_negative_count : forall a b, normal a -> b < 0 ->
  (value a <> 0 -> zz_lshift a b = Exn ValueError /\ zz_rshift a b = Exn ValueError) /\
  (value a = 0 -> zz_lshift a b = Ok a /\ zz_rshift a b = Ok a).
Proof.
  intros a b N B. unfold zz_lshift, zz_rshift. split; intro V.
  - destruct (Z.eqb_spec (zsize a) 0) as [A|A]; [apply size_zero in A; auto; congruence|]. destruct (Z.eqb_spec b 0); [lia|]. cbn [orb].
    destruct (Z.ltb_spec b 0); [auto|lia].
  - apply size_zero in V; auto. rewrite V. auto.
Qed.
Print Assumptions C54_negative_count.

Example C54_case : let a := mkZZ (-2) [5; 7] in normal a /\ value a = - (5 + 7 * 2 ^ 64) /\
  zz_lshift a 70 = Ok (mkZZ (-3) [0; 320; 448]) /\ zz_rshift a 1 = Ok (mkZZ (-2) [2 ^ 63 + 2; 3]).
Proof.
  cbv zeta. split; [|vm_compute; auto]. split; [reflexivity|]. split; [|cbn; lia].
  repeat (apply Forall_cons; [unfold wordp; lia|]). constructor.
Qed.

(** * C55 Bitwise operations *)

(** a & b: right, and kept in the normal form, if the result is not negative or its absolute value is at most
    2^(64k) - 2^(64(k-1)), where k is the number of words of the longer operand. *)
Theorem C55_and_partial : forall a b, normal a -> normal b ->
  let R := Z.land (value a) (value b) in
  let k := Z.max (zlen (zn a)) (zlen (zn b)) in
  0 <= R \/ - R <= 2 ^ (64 * k) - 2 ^ (64 * (k - 1)) -> normal (zz_and a b) /\ value (zz_and a b) = R.
Proof.
  intros a b A B R k H. apply and_ok; auto. destruct A as (A & _), B as (B & _). rewrite A, B. fold k. fold R. lia.
Qed.
Print Assumptions C55_and_partial.

(** a | b: k is the number of words of the shorter operand if that is negative, otherwise of the longer one. *)
Theorem C55_or_partial : forall a b, normal a -> normal b ->
  let R := Z.lor (value a) (value b) in
  0 <= R \/ value a = 0 \/ value b = 0 \/
  (exists s l, (s = a /\ l = b \/ s = b /\ l = a) /\ zlen (zn s) <= zlen (zn l) /\
     let k := if value s <? 0 then zlen (zn s) else zlen (zn l) in
     2 ^ (64 * (k - 1)) <= - R <= 2 ^ (64 * k) - 2 ^ (64 * (k - 1))) ->
  normal (zz_or a b) /\ value (zz_or a b) = R.
Proof.
  intros a b A B R H. apply or_ok; auto. fold R. destruct H as [H|[H|[H|(s & l & C & L & K)]]]; auto. right. left.
  assert (V : forall x, normal x -> (value x <? 0) = (zsize x <? 0)).
  { intros x X. destruct (zsize x <? 0) eqn:E; [pose proof (value_neg x X E); lia|]. unfold value. rewrite E. destruct X as (_ & F & _). pose proof (wval_bound _ F). lia. }
  pose proof A as (SA & _). pose proof B as (SB & _). unfold or_width, longer_first. rewrite SA, SB.
  destruct C as [[-> ->]|[-> ->]].
  - rewrite (V a A) in K. destruct (Z.ltb_spec (zlen (zn a)) (zlen (zn b))) as [G|G].
    + rewrite SA, SB. cbv zeta in K. lia.
    + rewrite SA, SB. assert (zlen (zn a) = zlen (zn b)) by lia. rewrite H in *. cbv zeta in K. destruct (zsize a <? 0), (zsize b <? 0); lia.
  - rewrite (V b B) in K. destruct (Z.ltb_spec (zlen (zn a)) (zlen (zn b))) as [G|G]; [lia|]. rewrite SA, SB. cbv zeta in K. lia.
Qed.
Print Assumptions C55_or_partial.

(** a ^ b: k is the number of words of the longer operand. *)
Theorem C55_xor_partial : forall a b, normal a -> normal b ->
  let R := Z.lxor (value a) (value b) in
  let k := Z.max (zlen (zn a)) (zlen (zn b)) in
  0 <= R \/ value a = 0 \/ value b = 0 \/ 2 ^ (64 * (k - 1)) <= - R <= 2 ^ (64 * k) - 2 ^ (64 * (k - 1)) ->
  normal (zz_xor a b) /\ value (zz_xor a b) = R.
Proof.
  intros a b A B R k H. apply xor_ok; auto. pose proof A as (SA & _). pose proof B as (SB & _). rewrite SA, SB. fold k. fold R. lia.
Qed.
Print Assumptions C55_xor_partial.

Lemma range_shift x : - 2 ^ 63 <= x < 2 ^ 63 <-> Z.shiftr x 63 = 0 \/ Z.shiftr x 63 = -1.
Proof. rewrite Z.shiftr_div_pow2 by lia. lia. Qed.

Lemma small_len a : normal a -> - 2 ^ 63 <= value a < 2 ^ 63 -> value a = 0 \/ zlen (zn a) = 1.
Proof.
  intros N R. pose proof (value_abs a N) as V. destruct N as (S & F & T). destruct (zn a) as [|x l] eqn:E; [left; cbn in V; lia|]. right. rewrite <- E in *.
  assert (Nn : zn a <> []) by (rewrite E; discriminate). pose proof (wval_top _ F T Nn) as W. pose proof (zlen_nonneg l). rewrite E, zlen_cons in *.
  destruct (Z.eq_dec (zlen l) 0); [lia|]. assert (2 ^ 64 <= 2 ^ (64 * (zlen l + 1 - 1))) by (apply Z.pow_le_mono_r; lia). lia.
Qed.

(** For numbers in the range of 64-bit integers all three are right. *)
Theorem C55_small : forall a b, normal a -> normal b -> - 2 ^ 63 <= value a < 2 ^ 63 -> - 2 ^ 63 <= value b < 2 ^ 63 ->
  (normal (zz_and a b) /\ value (zz_and a b) = Z.land (value a) (value b)) /\
  (normal (zz_or a b) /\ value (zz_or a b) = Z.lor (value a) (value b)) /\
  (normal (zz_xor a b) /\ value (zz_xor a b) = Z.lxor (value a) (value b)).
Proof.
  intros a b A B Ra Rb. pose proof (small_len a A Ra) as La. pose proof (small_len b B Rb) as Lb.
  apply range_shift in Ra. apply range_shift in Rb.
  assert (R1 : - 2 ^ 63 <= Z.land (value a) (value b) < 2 ^ 63) by (apply range_shift; rewrite Z.shiftr_land; destruct Ra as [-> | ->], Rb as [-> | ->]; auto).
  assert (R2 : - 2 ^ 63 <= Z.lor (value a) (value b) < 2 ^ 63) by (apply range_shift; rewrite Z.shiftr_lor; destruct Ra as [-> | ->], Rb as [-> | ->]; auto).
  assert (R3 : - 2 ^ 63 <= Z.lxor (value a) (value b) < 2 ^ 63) by (apply range_shift; rewrite Z.shiftr_lxor; destruct Ra as [-> | ->], Rb as [-> | ->]; auto).
  split; [|split].
  - apply C55_and_partial; auto. destruct La as [-> |La]; [left; now rewrite Z.land_0_l|]. destruct Lb as [-> |Lb]; [left; now rewrite Z.land_0_r|].
    rewrite La, Lb. change (Z.max 1 1) with 1. lia.
  - apply C55_or_partial; auto. destruct La as [La|La]; auto. destruct Lb as [Lb|Lb]; auto.
    destruct (Z.lt_ge_cases (Z.lor (value a) (value b)) 0) as [G|G]; auto. right. right. right. exists a, b. split; auto. rewrite La, Lb. split; [lia|].
    cbv zeta. destruct (value a <? 0); change (64 * (1 - 1)) with 0; change (64 * 1) with 64; lia.
  - apply C55_xor_partial; auto. destruct La as [La|La]; auto. destruct Lb as [Lb|Lb]; auto. rewrite La, Lb. change (Z.max 1 1) with 1. change (64 * (1 - 1)) with 0; change (64 * 1) with 64. lia.
Qed.
Print Assumptions C55_small.

(** ~a is -a - 1, the complement. *)
Theorem C55_invert : forall a, big_invert a = Z.lnot a.
Proof. intro a. unfold big_invert, Z.lnot. lia. Qed.
Print Assumptions C55_invert.

Lemma normal2 s x y : Z.abs s = 2 -> 0 <= x < 2 ^ 64 -> 0 < y < 2 ^ 64 -> normal (mkZZ s [x; y]).
Proof. intros S X Y. split; [exact S|]. split; [|cbn; lia]. repeat (apply Forall_cons; [unfold wordp; lia|]). constructor. Qed.
Lemma normal1 s x : Z.abs s = 1 -> 0 < x < 2 ^ 64 -> normal (mkZZ s [x]).
Proof. intros S X. split; [exact S|]. split; [|cbn; lia]. repeat (apply Forall_cons; [unfold wordp; lia|]). constructor. Qed.

(** Wrong results: -(2^64-1) & -2 is -2^64, the code gives 0; -(2^128-2^64+1) | 1 and -1 ^ (2^64-1) are wrong too.
    -2^64 | 1 is right but not normal: it differs from the same number computed otherwise. *)
Theorem C55_bitwise_refuted :
  (exists a b, normal a /\ normal b /\ Z.land (value a) (value b) = - 2 ^ 64 /\ value (zz_and a b) = 0) /\
  (exists a b, normal a /\ normal b /\ Z.lor (value a) (value b) = - (2 ^ 128 - 2 ^ 64 + 1) /\ value (zz_or a b) = -1) /\
  (exists a b, normal a /\ normal b /\ Z.lxor (value a) (value b) = - 2 ^ 64 /\ value (zz_xor a b) = 0) /\
  (exists a b, normal a /\ normal b /\ value (zz_or a b) = Z.lor (value a) (value b) /\ ~ normal (zz_or a b)).
Proof.
  split; [|split; [|split]].
  - exists (mkZZ (-1) [2 ^ 64 - 1]), (mkZZ (-1) [2]). split; [apply normal1; lia|]. split; [apply normal1; lia|]. vm_compute. auto.
  - exists (mkZZ (-2) [1; 2 ^ 64 - 1]), (mkZZ 1 [1]). split; [apply normal2; lia|]. split; [apply normal1; lia|]. vm_compute. auto.
  - exists (mkZZ (-1) [1]), (mkZZ 1 [2 ^ 64 - 1]). split; [apply normal1; lia|]. split; [apply normal1; lia|]. vm_compute. auto.
  - exists (mkZZ (-2) [0; 1]), (mkZZ 1 [1]). split; [apply normal2; lia|]. split; [apply normal1; lia|]. split; [vm_compute; reflexivity|].
    intros (_ & _ & T). apply T. vm_compute. reflexivity.
Qed.
Print Assumptions C55_bitwise_refuted.

Example C55_case : let a := mkZZ (-2) [6; 1] in let b := mkZZ (-1) [3] in normal a /\ normal b /\
  value (zz_and a b) = Z.land (value a) (value b) /\ - Z.land (value a) (value b) <= 2 ^ 128 - 2 ^ 64.
Proof. cbv zeta. split; [apply normal2; lia|]. split; [apply normal1; lia|]. split; [vm_compute; reflexivity|vm_compute; discriminate]. Qed.

(** * C59 Printing *)

(** str(n) is the decimal form of n, for all n but those of absolute value 10^18 to 2^64 - 1. *)
Theorem C59_str_partial : forall n, Z.abs n < 10 ^ 18 \/ 2 ^ 64 <= Z.abs n -> exists s, get_str n = Ok s /\ decimal n s.
Proof. exact get_str_ok. Qed.
Print Assumptions C59_str_partial.

(** For these the code writes outside of a buffer on the stack. *)
Theorem C59_str_refuted : forall n, 10 ^ 18 <= Z.abs n < 2 ^ 64 -> get_str n = UB.
Proof. exact get_str_overflow. Qed.
Print Assumptions C59_str_refuted.

(** Reading back what was printed gives the same number, except for negative numbers with a multiple of 18
    digits (by C53). *)
Theorem C59_round_trip_partial : forall n s, get_str n = Ok s -> (n < 0 -> (zlen s - 1) mod 18 <> 0) -> bigint_of_str s None = Ok n.
Proof.
  intros n s E M. assert (R : Z.abs n < 10 ^ 18 \/ 2 ^ 64 <= Z.abs n).
  { destruct (Z.lt_ge_cases (Z.abs n) (10 ^ 18)); auto. destruct (Z.lt_ge_cases (Z.abs n) (2 ^ 64)); auto. rewrite get_str_overflow in E by lia. discriminate. }
  destruct (get_str_ok n R) as (s' & E' & (ds & v & Nv & F & H & C)). rewrite E in E'. injection E' as <-.
  assert (Nz : ~ In 0 ds) by (intro I; rewrite Forall_forall in F; specialize (F 0 I); cbn in F; lia).
  assert (NP : ~ has_prefix ds).
  { intros (p & r & b & A & (c & -> & G)). subst ds. inversion F as [|? ? _ F1]; subst. inversion F1; subst. lia. }
  assert (W : forall t sgn, sign_text t sgn -> written (t ++ ds) None sgn 10 ds v).
  { intros t sgn T. exists [], t, []. cbn [app]. split; auto. split; [constructor|]. split; auto. split; auto. split; [lia|]. right. auto. }
  destruct C as [(P & -> & ->)|(P & -> & ->)].
  - rewrite (C53_parse_partial ds None 1 10 ds v); [f_equal; lia|auto|apply (W [] 1); left; auto|lia].
  - rewrite (C53_parse_partial (45 :: ds) None (-1) 10 ds v); [f_equal; lia| |apply (W [45] (-1)); right; auto|].
    + intros [I|I]; [discriminate|auto].
    + intros _ p D. apply (dpw 10 p ltac:(lia)) in D. subst p. change (pow_in_word 10) with 18. specialize (M P). rewrite zlen_cons in M. replace (zlen ds + 1 - 1) with (zlen ds) in M by lia. exact M.
Qed.
Print Assumptions C59_round_trip_partial.

Example C59_case : get_str (- 1000000000000000000000000000000000000012) =
  Ok [45; 49; 48;48;48;48;48;48;48;48;48;48;48;48;48;48;48;48;48;48;48;48;48;48;48;48;48;48;48;48;48;48;48;48;48;48;48;48;48; 49; 50].
Proof. vm_compute. reflexivity. Qed.

(** Proofs about parsing and printing big integers. *)
From Verif Require Import Base S_Bigint M_Bigint P_Bigint.
Local Open Scope Z_scope.

(** * Digits *)

Lemma digvalue_spec c v : digit c v <-> digvalue c = v /\ v < 99.
Proof.
  unfold digit, digvalue.
  destruct ((48 <=? c) && (c <=? 57)) eqn:A; [lia|]. destruct ((65 <=? c) && (c <=? 90)) eqn:B; [lia|]. destruct ((97 <=? c) && (c <=? 122)) eqn:C; lia.
Qed.
Lemma digvalue_nonneg c : 0 <= digvalue c.
Proof. unfold digvalue. destruct ((48 <=? c) && (c <=? 57)) eqn:A; [lia|]. destruct ((65 <=? c) && (c <=? 90)) eqn:B; [lia|]. destruct ((97 <=? c) && (c <=? 122)) eqn:C; lia. Qed.

Notation dv := (dval digvalue).

Lemma fold_dval d base s : forall v, fold_left (fun v c => v * base + d c) s v = v * base ^ zlen s + dval d base s.
Proof.
  unfold dval. induction s as [|c s IH]; intro v; cbn [fold_left]; [unfold zlen; cbn [length]; rewrite Z.pow_0_r; lia|].
  rewrite IH, (IH (0 * base + d c)), zlen_cons, Z.pow_add_r, Z.pow_1_r by (pose proof (zlen_nonneg s); lia). ring.
Qed.

Lemma dval_app d base a b : dval d base (a ++ b) = dval d base a * base ^ zlen b + dval d base b.
Proof. unfold dval at 1. rewrite fold_left_app. apply fold_dval. Qed.

Lemma dval_cons d base c s : dval d base (c :: s) = d c * base ^ zlen s + dval d base s.
Proof. change (c :: s) with ([c] ++ s). rewrite dval_app. unfold dval at 1. cbn [fold_left]. lia. Qed.

Definition below (base : Z) (s : list Z) : Prop := Forall (fun c => digvalue c < base) s.

Lemma dval_bound base s : 2 <= base -> below base s -> 0 <= dv base s < base ^ zlen s.
Proof.
  intros B F. induction F as [|c s C F IH]; [unfold dval, zlen; cbn; lia|].
  rewrite dval_cons, zlen_cons, Z.pow_add_r, Z.pow_1_r by (pose proof (zlen_nonneg s); lia). pose proof (digvalue_nonneg c). nia.
Qed.

Lemma numeral_iff base s v : base <= 36 -> numeral base s v <-> s <> [] /\ below base s /\ v = dv base s.
Proof.
  intro B. split.
  - induction 1 as [c v D L|s v c x N (IH1 & IH2 & IH3) D L].
    + apply digvalue_spec in D. destruct D as [D _]. subst v. split; [discriminate|]. split; [repeat constructor; auto|]. reflexivity.
    + apply digvalue_spec in D. destruct D as [D _]. subst x v. split; [destruct s; discriminate|]. split; [apply Forall_app; split; auto; repeat constructor; auto|].
      rewrite dval_app. change (zlen [c]) with 1. rewrite Z.pow_1_r. reflexivity.
  - intros (N & F & ->). revert N F. induction s as [|c s IH] using rev_ind; [congruence|]. intros _ F. apply Forall_app in F. destruct F as [F C]. inversion C; subst.
    assert (D : digit c (digvalue c)) by (apply digvalue_spec; split; [reflexivity|lia]).
    destruct s as [|y s]; [constructor; auto; exact D|]. rewrite dval_app. change (zlen [c]) with 1. rewrite Z.pow_1_r. change (dv base [c]) with (digvalue c).
    constructor; auto. apply IH; auto. discriminate.
Qed.

(** * Blocks of digits *)

Lemma pow_in_word_ok base : 2 <= base <= 36 -> 0 < pow_in_word base /\ base ^ pow_in_word base < 2 ^ 63.
Proof.
  intro B. assert (H : forallb (fun i => (0 <? pow_in_word (Z.of_nat i)) && (Z.of_nat i ^ pow_in_word (Z.of_nat i) <? 2 ^ 63)) (seq 2 35) = true) by (vm_compute; reflexivity).
  rewrite forallb_forall in H. specialize (H (Z.to_nat base)). rewrite in_seq in H. specialize (H ltac:(lia)). rewrite Z2Nat.id in H by lia. lia.
Qed.

Lemma word_value_gen base s : 2 <= base -> below base s -> forall v, 0 <= v -> (v + 1) * base ^ zlen s <= 2 ^ 64 ->
  fold_left (fun v c => (v * base + digvalue c) mod W64) s v = v * base ^ zlen s + dv base s.
Proof.
  intros B F. induction F as [|c s C F IH]; intros v V L; cbn [fold_left].
  - unfold zlen, dval. cbn [length fold_left]. rewrite Z.pow_0_r. lia.
  - rewrite zlen_cons, Z.pow_add_r, Z.pow_1_r in * by (pose proof (zlen_nonneg s); lia). rewrite dval_cons.
    pose proof (digvalue_nonneg c). assert (P : 0 < base ^ zlen s) by (apply Z.pow_pos_nonneg; [lia|apply zlen_nonneg]).
    assert ((v + 1) * base <= 2 ^ 64) by nia. rewrite W64_eq in *. rewrite Z.mod_small by nia. rewrite IH; [ring|nia|]. nia.
Qed.

Lemma word_value_ok base s : 2 <= base <= 36 -> below base s -> zlen s <= pow_in_word base ->
  wrapS 64 (word_value base s) = dv base s /\ dv base s < 2 ^ 63.
Proof.
  intros B F L. destruct (pow_in_word_ok base B) as [P Q].
  assert (base ^ zlen s <= base ^ pow_in_word base) by (apply Z.pow_le_mono_r; lia). pose proof (dval_bound base s ltac:(lia) F).
  unfold word_value. rewrite word_value_gen by (auto; lia). rewrite Z.mul_0_l, Z.add_0_l. split; [unfold wrapS|lia]. lia.
Qed.

Lemma below_firstn base k s : below base s -> below base (firstn k s).
Proof. intro F. unfold below in *. rewrite <- (firstn_skipn k s) in F. apply Forall_app in F. tauto. Qed.
Lemma below_skipn base k s : below base s -> below base (skipn k s).
Proof. intro F. unfold below in *. rewrite <- (firstn_skipn k s) in F. apply Forall_app in F. tauto. Qed.

Lemma firstn_add {A} a b (l : list A) : firstn (a + b) l = firstn a l ++ firstn b (skipn a l).
Proof. revert l. induction a as [|a IH]; intros [|x l]; cbn [plus firstn skipn app]; auto; [now destruct b|]. now rewrite IH. Qed.

Lemma set_str0_ok base : 2 <= base <= 36 -> forall fuel ds parts, below base ds -> 1 <= parts -> (Z.to_nat parts <= fuel)%nat ->
  parts * pow_in_word base <= zlen ds -> set_str0 fuel ds base parts = Ok (dv base (firstn (Z.to_nat (parts * pow_in_word base)) ds)).
Proof.
  intros B. destruct (pow_in_word_ok base B) as [P _]. set (p := pow_in_word base) in *.
  induction fuel as [|fuel IH]; intros ds parts F P1 Hf L; [lia|]. cbn [set_str0]. fold p. destruct (Z.eqb_spec parts 1) as [->|N].
  - rewrite Z.mul_1_l in *. f_equal. apply word_value_ok; auto using below_firstn. unfold zlen in *. rewrite firstn_length. fold p. lia.
  - pose proof (Z.div_mod parts 2 ltac:(lia)). pose proof (Z.mod_pos_bound parts 2 ltac:(lia)). set (hi := parts / 2) in *.
    assert (H1 : 1 <= hi < parts) by lia. assert (H2 : 1 <= parts - hi < parts) by lia.
    assert (M : parts * p = hi * p + (parts - hi) * p) by ring.
    assert (0 <= hi * p) by nia. assert (0 <= (parts - hi) * p) by nia.
    rewrite (IH ds hi) by (auto; try lia). cbn [bindr].
    rewrite (IH (skipn (Z.to_nat (hi * p)) ds) (parts - hi)); [|now apply below_skipn|lia|lia|unfold zlen in *; rewrite skipn_length; lia]. cbn [bindr].
    f_equal. rewrite M, Z2Nat.inj_add, firstn_add, dval_app by lia. f_equal. rewrite (Z.mul_comm (base ^ _)). f_equal.
    unfold zlen in *. f_equal. rewrite firstn_length, skipn_length. lia.
Qed.

(** * The text *)

Lemma isspace_spec c : isspace c = true <-> is_space c.
Proof. unfold isspace, is_space. lia. Qed.

Lemma skip_space_dec s : exists sp, s = sp ++ skip_space s /\ Forall is_space sp.
Proof.
  induction s as [|c s (sp & E & F)]; cbn [skip_space]; [exists []; auto|]. destruct (isspace c) eqn:S.
  - exists (c :: sp). split; [cbn; congruence|]. constructor; auto. now apply isspace_spec.
  - exists []. auto.
Qed.

Lemma skip_space_app sp r : Forall is_space sp -> (forall c q, r = c :: q -> ~ is_space c) -> skip_space (sp ++ r) = r.
Proof.
  intros F H. induction F as [|c sp S F IH]; cbn [app skip_space].
  - destruct r as [|c q]; auto. cbn [skip_space]. destruct (isspace c) eqn:E; auto. apply isspace_spec in E. destruct (H c q eq_refl E).
  - apply isspace_spec in S. now rewrite S.
Qed.

Lemma read_sign_dec s sgn r : read_sign s = (sgn, r) -> exists t, s = t ++ r /\ sign_text t sgn.
Proof.
  unfold read_sign, sign_text. intro E.
  destruct s as [|c s]; [injection E as <- <-; exists []; auto|].
  destruct (Z.eq_dec c 43) as [->|N1]; [injection E as <- <-; exists [43]; auto|].
  destruct (Z.eq_dec c 45) as [->|N2]; [injection E as <- <-; exists [45]; auto|].
  assert (E' : (1, c :: s) = (sgn, r)).
  { rewrite <- E. destruct c as [|q|q]; auto. do 6 (destruct q as [q|q|]; auto); try congruence. }
  injection E' as <- <-. exists []; auto.
Qed.

Lemma read_sign_app t sgn r : sign_text t sgn -> (forall c q, r = c :: q -> c <> 43 /\ c <> 45) -> read_sign (t ++ r) = (sgn, r).
Proof.
  intros [[[-> | ->] ->]|[-> ->]] H; cbn [app]; auto. destruct r as [|c q]; auto. destruct (H c q eq_refl) as [N1 N2]. unfold read_sign.
  destruct c as [|z|z]; auto. do 6 (destruct z as [z|z|]; auto); congruence.
Qed.

Lemma read_prefix_eq c r : read_prefix (48 :: c :: r) =
  if (c =? 120) || (c =? 88) then (16, r) else if (c =? 111) || (c =? 79) then (8, r) else if (c =? 98) || (c =? 66) then (2, r) else (0, 48 :: c :: r).
Proof. reflexivity. Qed.

Lemma read_prefix_other s : (forall c r, s <> 48 :: c :: r) -> read_prefix s = (0, s).
Proof.
  intro H. unfold read_prefix. destruct s as [|x s]; auto. destruct s as [|c s].
  - destruct x as [|q|q]; auto. do 6 (destruct q as [q|q|]; auto).
  - destruct (Z.eq_dec x 48) as [->|N]; [destruct (H c s eq_refl)|]. destruct x as [|q|q]; auto. do 6 (destruct q as [q|q|]; auto). congruence.
Qed.

Lemma read_prefix_dec s bs r : read_prefix s = (bs, r) -> (bs = 0 /\ r = s /\ ~ has_prefix s) \/ (exists p, s = p ++ r /\ prefix p bs /\ bs <> 0).
Proof.
  intro E. assert (C : (exists c q, s = 48 :: c :: q) \/ (forall c q, s <> 48 :: c :: q)).
  { destruct s as [|x [|c q]]; try (right; discriminate). destruct (Z.eq_dec x 48) as [->|N]; [left; eauto|right; congruence]. }
  destruct C as [(c & q & ->)|C].
  - rewrite read_prefix_eq in E. destruct ((c =? 120) || (c =? 88)) eqn:E1; [injection E as <- <-|destruct ((c =? 111) || (c =? 79)) eqn:E2; [injection E as <- <-|destruct ((c =? 98) || (c =? 66)) eqn:E3; injection E as <- <-]].
    1-3: right; exists [48; c]; split; [reflexivity|]; split; [exists c; split; auto; lia|lia].
    left. split; auto. split; auto. intros (p & r & b & A & (c' & -> & H)). cbn [app] in A. injection A as <- _. lia.
  - rewrite read_prefix_other in E by auto. injection E as <- <-. left. split; auto. split; auto.
    intros (p & r & b & A & (c' & -> & H)). cbn [app] in A. exact (C _ _ A).
Qed.

Lemma read_prefix_app p b r : prefix p b -> read_prefix (p ++ r) = (b, r).
Proof.
  intros (c & -> & H). cbn [app]. rewrite read_prefix_eq.
  destruct H as [[[-> | ->] ->]|[[[-> | ->] ->]|[[-> | ->] ->]]]; reflexivity.
Qed.

Lemma read_prefix_none r : ~ has_prefix r -> read_prefix r = (0, r).
Proof.
  intro H. destruct (read_prefix r) as [b q] eqn:E. destruct (read_prefix_dec _ _ _ E) as [(-> & -> & _)|(p & A & P & _)]; auto.
  exfalso. apply H. exists p, q, b. auto.
Qed.

Lemma span_digits_all base ds : below base ds -> span_digits base ds = (ds, []).
Proof. induction 1 as [|c ds C F IH]; cbn [span_digits]; auto. destruct (Z.ltb_spec (digvalue c) base); [|lia]. now rewrite IH. Qed.

Lemma span_digits_dec base s ds r : span_digits base s = (ds, r) -> s = ds ++ r /\ below base ds.
Proof.
  revert ds r. induction s as [|c s IH]; intros ds r E; cbn [span_digits] in E; [injection E as <- <-; split; auto; constructor|].
  destruct (Z.ltb_spec (digvalue c) base).
  - destruct (span_digits base s) as [d q]. injection E as <- <-. destruct (IH d q eq_refl) as [-> F]. split; auto. constructor; auto.
  - injection E as <- <-. split; auto. constructor.
Qed.

Lemma choose_base_dec ib bs base : choose_base ib bs = Ok base -> bs = 0 \/ bs = 2 \/ bs = 8 \/ bs = 16 ->
  2 <= base <= 36 /\ (bs <> 0 /\ base = bs /\ (ib = None \/ ib = Some base) \/ bs = 0 /\ (ib = None /\ base = 10 \/ ib = Some base)).
Proof.
  intros E B. unfold choose_base in E. destruct ib as [b|].
  - destruct ((b <? 2) || (36 <? b)) eqn:R; [discriminate|]. destruct (Z.eqb_spec bs 0) as [->|N].
    + injection E as <-. split; [lia|]. right. auto.
    + destruct (Z.eqb_spec bs b) as [->|]; [|discriminate]. injection E as <-. split; [lia|]. left. auto.
  - destruct (Z.eqb_spec bs 0) as [->|N]; injection E as <-; [split; [lia|]; right; auto|split; [lia|]; left; auto].
Qed.

Lemma choose_base_exn ib bs : (exists b, choose_base ib bs = Ok b) \/ choose_base ib bs = Exn ValueError.
Proof.
  unfold choose_base. destruct ib as [b|]; [|left; eauto]. destruct (_ || _); auto. destruct (bs =? 0); [left; eauto|]. destruct (bs =? b); [left; eauto|auto].
Qed.

Lemma prefix_base p b : prefix p b -> b = 2 \/ b = 8 \/ b = 16.
Proof. intros (c & _ & H). lia. Qed.

(** The last part of set_str, once sign, base and digits are known. *)
Definition convert (sgn base : Z) (ds : list Z) : res Z :=
  let len := zlen ds in
  let parts := len / pow_in_word base in
  let offset := len mod pow_in_word base in
  if offset =? 0 then set_str0 (S (Z.to_nat parts)) ds base parts
  else
    let headval := word_value base (firstn (Z.to_nat offset) ds) in
    if 0 <? parts then
      do r <- set_str0 (S (Z.to_nat parts)) (skipn (Z.to_nat offset) ds) base parts;
      Ok (sgn * (base ^ (pow_in_word base * parts) * wrapS 64 headval + r))
    else Ok (sgn * wrapS 64 headval).

Lemma set_str_conv s ib sgn s1 bs s2 base ds : read_sign (skip_space s) = (sgn, s1) -> read_prefix s1 = (bs, s2) ->
  choose_base ib bs = Ok base -> span_digits base s2 = (ds, []) -> ds <> [] -> set_str s ib = convert sgn base ds.
Proof.
  intros E1 E2 E3 E4 N. unfold set_str. rewrite E1, E2, E3. cbn [bindr]. rewrite E4. destruct ds; [congruence|]. reflexivity.
Qed.

Lemma convert_ok sgn base ds : 2 <= base <= 36 -> below base ds -> ds <> [] ->
  convert sgn base ds = Ok (if zlen ds mod pow_in_word base =? 0 then dv base ds else sgn * dv base ds).
Proof.
  intros B F N. destruct (pow_in_word_ok base B) as [P _]. unfold convert. set (p := pow_in_word base) in *.
  assert (L : 1 <= zlen ds) by (destruct ds; [congruence|]; rewrite zlen_cons; pose proof (zlen_nonneg ds); lia).
  pose proof (Z.div_mod (zlen ds) p ltac:(lia)) as D. pose proof (Z.mod_pos_bound (zlen ds) p P) as M.
  pose proof (Z.div_pos (zlen ds) p ltac:(lia) P) as Q. set (parts := zlen ds / p) in *. set (off := zlen ds mod p) in *.
  clearbody parts off. assert (PP : 0 <= p * parts) by nia.
  destruct (Z.eqb_spec off 0) as [E|E].
  - assert (1 <= parts) by nia. rewrite set_str0_ok by (auto; try lia; fold p; nia). f_equal. f_equal. fold p.
    apply firstn_all2. unfold zlen in *. lia.
  - assert (Lf : zlen (firstn (Z.to_nat off) ds) = off) by (unfold zlen in *; rewrite firstn_length; lia).
    destruct (word_value_ok base (firstn (Z.to_nat off) ds) B (below_firstn _ _ _ F)) as [Hw _]; [fold p; lia|]. rewrite Hw.
    destruct (Z.ltb_spec 0 parts) as [G|G].
    + assert (Ls : zlen (skipn (Z.to_nat off) ds) = parts * p) by (unfold zlen in *; rewrite skipn_length; lia).
      rewrite set_str0_ok; [|auto|now apply below_skipn|lia|lia|fold p; lia]. cbn [bindr]. f_equal. f_equal. fold p.
      rewrite <- (firstn_skipn (Z.to_nat off) ds) at 3. rewrite dval_app, Ls. rewrite (firstn_all2 (n := Z.to_nat (parts * p))) by (unfold zlen in Ls; lia).
      rewrite (Z.mul_comm p parts). ring.
    + assert (parts = 0) by lia. subst parts. rewrite Z.mul_0_r in D. f_equal. f_equal. f_equal. apply firstn_all2. unfold zlen in *. lia.
Qed.

Lemma digit_char c v : digit c v -> 48 <= c.
Proof. unfold digit. lia. Qed.

Lemma below_head base ds c q : base <= 36 -> below base ds -> ds = c :: q -> 48 <= c.
Proof. intros B F ->. inversion F; subst. apply (digit_char c (digvalue c)). apply digvalue_spec. lia. Qed.

Lemma written_read s ib sgn base ds v : written s ib sgn base ds v -> set_str s ib = convert sgn base ds /\ below base ds /\ ds <> [] /\ 2 <= base <= 36 /\ v = dv base ds.
Proof.
  intros (sp & t & p & -> & Fs & T & N & B & H). apply numeral_iff in N; [|lia]. destruct N as (N & F & V).
  split; [|auto]. assert (Hd : forall c q, p ++ ds = c :: q -> 48 <= c).
  { intros c q E. destruct H as [[(x & -> & _) _]|[-> _]]; [injection E as <- _; lia|]. apply (below_head base ds c q); auto. lia. }
  assert (E1 : skip_space (sp ++ t ++ p ++ ds) = t ++ p ++ ds).
  { apply skip_space_app; auto. intros c q E S. unfold is_space in S.
    destruct T as [[[-> | ->] _]|[-> _]]; cbn [app] in E; [apply Hd in E; lia|injection E as <- _; lia|injection E as <- _; lia]. }
  assert (E2 : read_sign (t ++ p ++ ds) = (sgn, p ++ ds)). { apply read_sign_app; auto. intros c q E. apply Hd in E. lia. }
  destruct H as [[P Hib]|(-> & NP & Hib)].
  - eapply set_str_conv; [rewrite E1; exact E2|exact (read_prefix_app p base ds P)| |exact (span_digits_all base ds F)|auto].
    unfold choose_base. pose proof (prefix_base _ _ P). destruct Hib as [-> | ->].
    + destruct (Z.eqb_spec base 0); [lia|reflexivity].
    + destruct ((base <? 2) || (36 <? base)) eqn:R; [lia|]. destruct (Z.eqb_spec base 0); [lia|]. now rewrite Z.eqb_refl.
  - eapply set_str_conv; [rewrite E1; exact E2|exact (read_prefix_none ds NP)| |exact (span_digits_all base ds F)|auto].
    unfold choose_base. destruct Hib as [[-> ->]| ->]; [reflexivity|]. destruct ((base <? 2) || (36 <? base)) eqn:R; [lia|]. reflexivity.
Qed.

Lemma set_str_dec s ib : (exists sgn base ds v, written s ib sgn base ds v) \/ set_str s ib = Exn ValueError.
Proof.
  destruct (skip_space_dec s) as (sp & Es & Fs). destruct (read_sign (skip_space s)) as [sgn s1] eqn:E1.
  destruct (read_sign_dec _ _ _ E1) as (t & Et & T). destruct (read_prefix s1) as [bs s2] eqn:E2.
  destruct (choose_base_exn ib bs) as [[base E3]|E3]; [|right; unfold set_str; rewrite E1, E2, E3; reflexivity].
  destruct (span_digits base s2) as [ds r] eqn:E4. destruct (span_digits_dec _ _ _ _ E4) as [Ed F].
  destruct ds as [|c ds0] eqn:Ds; [right; unfold set_str; rewrite E1, E2, E3; cbn [bindr]; rewrite E4; reflexivity|].
  destruct r as [|x r]; [|right; unfold set_str; rewrite E1, E2, E3; cbn [bindr]; rewrite E4; reflexivity].
  left. rewrite <- Ds in *. assert (N : ds <> []) by (rewrite Ds; discriminate). clear Ds c ds0. rewrite app_nil_r in Ed. subst s2.
  exists sgn, base, ds, (dv base ds). pose proof (read_prefix_dec _ _ _ E2) as H.
  assert (Bs : bs = 0 \/ bs = 2 \/ bs = 8 \/ bs = 16) by (destruct H as [(-> & _)|(p & _ & P & _)]; [auto|apply prefix_base in P; lia]).
  destruct (choose_base_dec _ _ _ E3 Bs) as (B & C).
  destruct H as [(-> & -> & NP)|(p & Ep & P & Nb)].
  - exists sp, t, []. cbn [app]. split; [congruence|]. split; auto. split; auto. split; [apply numeral_iff; auto; lia|]. split; auto. right.
    split; auto. split; auto. destruct C as [(C & _)|(_ & C)]; [congruence|auto].
  - exists sp, t, p. split; [congruence|]. split; auto. split; auto. split; [apply numeral_iff; auto; lia|]. split; auto. left.
    destruct C as [(_ & -> & C)|(C & _)]; [auto|congruence].
Qed.

Lemma cstr_id s : ~ In 0 s -> cstr s = s.
Proof. induction s as [|c s IH]; intro H; cbn [cstr]; auto. destruct (Z.eqb_spec c 0) as [->|]; [destruct H; now left|]. rewrite IH; auto. intro; apply H; now right. Qed.

(** * Printing *)

Definition dec_char (c : Z) : Prop := 48 <= c <= 57.
Definition isdec (s : list Z) (n : Z) : Prop :=
  s <> [] /\ Forall dec_char s /\ dv 10 s = n /\ (hd 0 s <> 48 \/ length s = 1%nat).

Lemma dec_digvalue c : dec_char c -> digvalue c = c - 48.
Proof. unfold dec_char, digvalue. intro H. destruct ((48 <=? c) && (c <=? 57)) eqn:E; lia. Qed.
Lemma dec_below s : Forall dec_char s -> below 10 s.
Proof. intro F. unfold below. eapply Forall_impl; [|exact F]. intros c H. rewrite dec_digvalue; auto. unfold dec_char in H. lia. Qed.

Lemma sprint_ok fuel : forall n, 0 <= n < 10 ^ Z.of_nat fuel -> (0 < fuel)%nat -> isdec (sprint fuel n) n.
Proof.
  induction fuel as [|fuel IH]; intros n N Hf; [lia|]. cbn [sprint]. destruct (Z.ltb_spec n 10) as [L|L].
  - assert (D : dec_char (48 + n)) by (unfold dec_char; lia). repeat split; try discriminate; auto.
    unfold dval. cbn [fold_left]. rewrite dec_digvalue by auto. lia.
  - assert (fuel <> O) by (intros ->; cbn in N; lia). replace (Z.of_nat (S fuel)) with (Z.of_nat fuel + 1) in N by lia.
    rewrite Z.pow_add_r, Z.pow_1_r in N by lia. pose proof (Z.div_mod n 10 ltac:(lia)). pose proof (Z.mod_pos_bound n 10 ltac:(lia)).
    assert (Q : 0 <= n / 10 < 10 ^ Z.of_nat fuel) by (split; [apply Z.div_pos; lia|apply Z.div_lt_upper_bound; lia]).
    destruct (IH (n / 10) Q ltac:(lia)) as (A & B & C & D). assert (E : dec_char (48 + n mod 10)) by (unfold dec_char; lia). repeat split.
    + destruct (sprint fuel (n / 10)); discriminate.
    + apply Forall_app. auto.
    + rewrite dval_app, C. change (zlen [48 + n mod 10]) with 1. unfold dval. cbn [fold_left]. rewrite dec_digvalue by auto. lia.
    + left. destruct (sprint fuel (n / 10)) as [|x r]; [congruence|]. cbn [app hd] in *. destruct D as [D|D]; auto.
      destruct r; [|discriminate]. unfold dval in C. cbn [fold_left] in C. inversion B; subst. rewrite dec_digvalue in C by auto. unfold dec_char in *. lia.
Qed.

Lemma isdec_low s n : isdec s n -> n <> 0 -> 10 ^ (zlen s - 1) <= n.
Proof.
  intros (A & B & C & D) N. destruct s as [|x r]; [congruence|]. rewrite dval_cons in C. inversion B; subst. rewrite zlen_cons.
  replace (zlen r + 1 - 1) with (zlen r) by lia. pose proof (dval_bound 10 r ltac:(lia) (dec_below r H2)). rewrite dec_digvalue in * by auto.
  assert (P : 0 < 10 ^ zlen r) by (apply Z.pow_pos_nonneg; [lia|apply zlen_nonneg]). unfold dec_char in H1. cbn [hd] in D.
  destruct (Z.eq_dec x 48) as [->|Nx]; [|nia]. destruct D as [D|D]; [congruence|]. destruct r; [|discriminate].
  exfalso. apply N. reflexivity.
Qed.

Lemma isdec_high s n : isdec s n -> n < 10 ^ zlen s.
Proof. intros (A & B & C & D). rewrite <- C. apply dval_bound; [lia|now apply dec_below]. Qed.

Lemma sprintf_ok n : 0 <= n < 2 ^ 64 -> isdec (sprintf_lu n) n.
Proof. intro N. apply sprint_ok; [|lia]. split; [lia|]. eapply Z.lt_trans; [apply N|]. reflexivity. Qed.

Lemma dval_pad k s : dv 10 (repeat 48 k ++ s) = dv 10 s.
Proof.
  rewrite dval_app. replace (dv 10 (repeat 48 k)) with 0; [lia|]. induction k as [|k IH]; [reflexivity|]. cbn [repeat]. rewrite dval_cons, <- IH. reflexivity.
Qed.

Lemma pow10_double d : 10 ^ (18 * 2 ^ Z.of_nat (S d)) = 10 ^ (18 * 2 ^ Z.of_nat d) * 10 ^ (18 * 2 ^ Z.of_nat d).
Proof.
  assert (0 < 2 ^ Z.of_nat d) by (apply Z.pow_pos_nonneg; lia). rewrite <- Z.pow_add_r by lia. f_equal.
  replace (Z.of_nat (S d)) with (Z.of_nat d + 1) by lia. rewrite Z.pow_add_r, Z.pow_1_r by lia. ring.
Qed.

Lemma get_str0_leaf n : 0 <= n < 10 ^ 18 -> isdec (sprintf_lu (n mod W64)) n /\ zlen (sprintf_lu (n mod W64)) <= 18.
Proof.
  intro N. assert (10 ^ 18 < 2 ^ 64) by reflexivity. rewrite W64_eq, Z.mod_small by lia. assert (D : isdec (sprintf_lu n) n) by (apply sprintf_ok; lia). split; auto.
  destruct (Z.eq_dec n 0) as [->|Z0]; [vm_compute; discriminate|]. pose proof (isdec_low _ _ D Z0).
  destruct (Z.le_gt_cases (zlen (sprintf_lu n)) 18); auto. assert (10 ^ 18 <= 10 ^ (zlen (sprintf_lu n) - 1)) by (apply Z.pow_le_mono_r; lia). lia.
Qed.

Lemma get_str0_tail d : forall n, 0 <= n < 10 ^ (18 * 2 ^ Z.of_nat d) ->
  exists s, get_str0 false n d = Ok s /\ Forall dec_char s /\ dv 10 s = n /\ zlen s = 18 * 2 ^ Z.of_nat d.
Proof.
  induction d as [|d IH]; intros n N.
  - cbn [get_str0]. destruct (get_str0_leaf n N) as ((A & B & C & _) & L). destruct (Z.ltb_spec 18 (zlen (sprintf_lu (n mod W64)))); [lia|].
    eexists. split; [reflexivity|]. split; [apply Forall_app; split; auto; apply Forall_forall; intros y Y; apply repeat_spec in Y; subst; unfold dec_char; lia|].
    rewrite dval_pad. split; auto. rewrite zlen_app. unfold zlen at 1. rewrite repeat_length. change (18 * 2 ^ Z.of_nat 0) with 18. lia.
  - cbn [get_str0]. rewrite Bool.andb_false_r. rewrite pow10_double in N. assert (H2 : 0 < 2 ^ Z.of_nat d) by (apply Z.pow_pos_nonneg; lia).
    assert (W : 18 * 2 ^ Z.of_nat (S d) = 18 * 2 ^ Z.of_nat d + 18 * 2 ^ Z.of_nat d).
    { replace (Z.of_nat (S d)) with (Z.of_nat d + 1) by lia. rewrite Z.pow_add_r, Z.pow_1_r by lia. ring. }
    rewrite W. set (w := 18 * 2 ^ Z.of_nat d) in *. assert (P : 0 < 10 ^ w) by (apply Z.pow_pos_nonneg; lia).
    pose proof (Z.div_mod n (10 ^ w) ltac:(lia)) as D.
    destruct (IH (n / 10 ^ w)) as (x & -> & Fx & Vx & Lx); [split; [apply Z.div_pos; lia|apply Z.div_lt_upper_bound; lia]|].
    destruct (IH (n mod 10 ^ w)) as (y & -> & Fy & Vy & Ly); [apply Z.mod_pos_bound; lia|]. cbn [bindr].
    eexists. split; [reflexivity|]. split; [apply Forall_app; auto|]. rewrite dval_app, zlen_app, Vx, Vy, Ly. split; lia.
Qed.

Lemma get_str0_head d : forall n, 0 < n < 10 ^ (18 * 2 ^ Z.of_nat d) -> exists s, get_str0 true n d = Ok s /\ isdec s n.
Proof.
  induction d as [|d IH]; intros n N.
  - cbn [get_str0]. destruct (get_str0_leaf n) as (D & L); [change (10 ^ (18 * 2 ^ Z.of_nat 0)) with (10 ^ 18) in N; lia|]. destruct (Z.ltb_spec 18 (zlen (sprintf_lu (n mod W64)))); [lia|].
    eexists. split; [reflexivity|]. exact D.
  - cbn [get_str0]. rewrite Bool.andb_true_r. rewrite pow10_double in N. assert (H2 : 0 < 2 ^ Z.of_nat d) by (apply Z.pow_pos_nonneg; lia).
    set (w := 18 * 2 ^ Z.of_nat d) in *. assert (P : 0 < 10 ^ w) by (apply Z.pow_pos_nonneg; lia).
    pose proof (Z.div_mod n (10 ^ w) ltac:(lia)) as D. pose proof (Z.mod_pos_bound n (10 ^ w) P) as M.
    assert (Q : 0 <= n / 10 ^ w < 10 ^ w) by (split; [apply Z.div_pos; lia|apply Z.div_lt_upper_bound; lia]).
    destruct (Z.eqb_spec (n / 10 ^ w) 0) as [E|E].
    + apply IH in M || idtac. rewrite E in D. assert (E' : n mod 10 ^ w = n) by lia. rewrite E'. apply IH. lia.
    + destruct (IH (n / 10 ^ w)) as (x & -> & (Nx & Fx & Vx & Hx)); [lia|].
      destruct (get_str0_tail d (n mod 10 ^ w) M) as (y & -> & Fy & Vy & Ly). cbn [bindr]. eexists. split; [reflexivity|].
      fold w in Ly. repeat split.
      * destruct x; [congruence|discriminate].
      * apply Forall_app; auto.
      * rewrite dval_app, Vx, Vy, Ly. lia.
      * left. destruct x as [|c x]; [congruence|]. cbn [app hd] in *. destruct Hx as [Hx|Hx]; auto. destruct x; [|discriminate].
        unfold dval in Vx. cbn [fold_left] in Vx. inversion Fx; subst. intros ->. apply E. rewrite <- Vx. reflexivity.
Qed.

Lemma pow_dbl n : (1 <= n)%nat -> 2 * Z.of_nat n <= 2 ^ Z.of_nat n.
Proof. induction n as [|n IH]; [lia|]. intros _. destruct n; [reflexivity|]. replace (Z.of_nat (S (S n))) with (Z.of_nat (S n) + 1) by lia. rewrite Z.pow_add_r, Z.pow_1_r by lia. specialize (IH ltac:(lia)). lia. Qed.

Lemma squarings_ok nlen : 1 <= nlen -> forall fuel d, (1 <= d)%nat -> nlen <= Z.of_nat (d + fuel) -> 2 ^ (64 * nlen) <= 10 ^ (18 * 2 ^ Z.of_nat (squarings fuel d nlen)).
Proof.
  intros L. induction fuel as [|fuel IH]; intros d D H; cbn [squarings].
  - pose proof (pow_dbl d D). assert (64 * nlen <= 54 * 2 ^ Z.of_nat d) by lia.
    apply Z.le_trans with (2 ^ (54 * 2 ^ Z.of_nat d)); [apply Z.pow_le_mono_r; lia|].
    replace (54 * 2 ^ Z.of_nat d) with (3 * (18 * 2 ^ Z.of_nat d)) by ring. rewrite Z.pow_mul_r by lia. apply Z.pow_le_mono_l. split; [cbn; lia|reflexivity || cbn; lia].
  - destruct (Z.leb_spec (2 ^ (64 * nlen)) (10 ^ (18 * 2 ^ Z.of_nat d))); auto. apply IH; lia.
Qed.

Lemma nwords_ok n : 0 < n -> 1 <= nwords n /\ n < 2 ^ (64 * nwords n) /\ (nwords n = 1 <-> n < 2 ^ 64).
Proof.
  intro N. unfold nwords. pose proof (Z.log2_nonneg n). pose proof (Z.log2_spec n N) as [A B].
  pose proof (Z.div_mod (Z.log2 n) 64 ltac:(lia)). pose proof (Z.mod_pos_bound (Z.log2 n) 64 ltac:(lia)). pose proof (Z.div_pos (Z.log2 n) 64 ltac:(lia) ltac:(lia)).
  split; [lia|]. split.
  - eapply Z.lt_le_trans; [exact B|]. apply Z.pow_le_mono_r; lia.
  - split; intro Hh.
    + eapply Z.lt_le_trans; [exact B|]. apply Z.pow_le_mono_r; lia.
    + apply Z.log2_lt_pow2 in Hh; [|lia]. lia.
Qed.

Lemma isdec_decimal s n : 0 <= n -> isdec s n -> decimal n s.
Proof.
  intros N (A & B & C & D). exists s, n. split; [apply numeral_iff; [lia|]; repeat split; auto; now apply dec_below|].
  split; [exact B|]. split; [exact D|]. left. auto.
Qed.

Lemma get_str_ok n : Z.abs n < 10 ^ 18 \/ 2 ^ 64 <= Z.abs n -> exists s, get_str n = Ok s /\ decimal n s.
Proof.
  intro H. unfold get_str. destruct (Z.eqb_spec n 0) as [->|N].
  { exists [48]. split; [reflexivity|]. apply isdec_decimal; [lia|]. repeat split; try discriminate; auto. repeat constructor; cbn; lia. }
  assert (P : 0 < Z.abs n) by lia. destruct (nwords_ok _ P) as (W1 & W2 & W3). set (nl := nwords (Z.abs n)) in *.
  set (d := if nl =? 1 then O else squarings (S (Z.to_nat nl)) 1 nl).
  assert (Hd : 0 < Z.abs n < 10 ^ (18 * 2 ^ Z.of_nat d)).
  { split; auto. unfold d. destruct (Z.eqb_spec nl 1) as [E|E].
    - apply W3 in E. change (10 ^ (18 * 2 ^ Z.of_nat 0)) with (10 ^ 18). lia.
    - eapply Z.lt_le_trans; [exact W2|]. apply squarings_ok; lia. }
  destruct (get_str0_head d _ Hd) as (s & -> & (A & B & C & D)). cbn [bindr]. eexists. split; [reflexivity|].
  exists s, (Z.abs n). split; [apply numeral_iff; [lia|]; repeat split; auto; now apply dec_below|].
  split; [exact B|]. split; [exact D|]. destruct (Z.ltb_spec n 0); [right|left]; repeat split; auto; lia.
Qed.

Lemma get_str_overflow n : 10 ^ 18 <= Z.abs n < 2 ^ 64 -> get_str n = UB.
Proof.
  intro H. unfold get_str. destruct (Z.eqb_spec n 0) as [->|N]; [exfalso; change (Z.abs 0) with 0 in H; lia|].
  assert (P : 0 < Z.abs n) by lia. destruct (nwords_ok _ P) as (W1 & W2 & W3). assert (E : nwords (Z.abs n) = 1) by (apply W3; lia).
  rewrite E. cbn [Z.eqb Pos.eqb get_str0]. rewrite W64_eq, Z.mod_small by lia. pose proof (sprintf_ok (Z.abs n) ltac:(lia)) as D.
  pose proof (isdec_high _ _ D). destruct (Z.ltb_spec 18 (zlen (sprintf_lu (Z.abs n)))) as [G|G]; [reflexivity|].
  assert (10 ^ zlen (sprintf_lu (Z.abs n)) <= 10 ^ 18) by (apply Z.pow_le_mono_r; lia). lia.
Qed.

(** Proofs about netstrings. *)
From Verif Require Import Base S_Bigint M_Bigint P_Bigint P_BigStr S_Netstring M_Netstring.
Local Open Scope Z_scope.

Lemma zget_app_r {A} (a b : list A) i : 0 <= i -> zget (a ++ b) (zlen a + i) = zget b i.
Proof.
  intro H. unfold zget, zlen. destruct (Z.ltb_spec (Z.of_nat (length a) + i) 0); [lia|]. destruct (Z.ltb_spec i 0); [lia|].
  rewrite nth_error_app2 by lia. f_equal. lia.
Qed.
Lemma zget_app_0 {A} (a : list A) x b : zget (a ++ x :: b) (zlen a) = Some x.
Proof. replace (zlen a) with (zlen a + 0) by lia. rewrite zget_app_r by lia. reflexivity. Qed.
Lemma zget_in {A} (l : list A) i : 0 <= i < zlen l -> exists x, zget l i = Some x.
Proof.
  intro H. unfold zget, zlen in *. destruct (Z.ltb_spec i 0); [lia|]. destruct (nth_error l (Z.to_nat i)) eqn:E; eauto.
  apply nth_error_None in E. lia.
Qed.

Definition nodigit (l : list Z) : Prop := match l with [] => True | c :: _ => isdigit c = false end.

Lemma isdigit_spec c : isdigit c = true <-> dec_char c.
Proof. unfold isdigit, dec_char. lia. Qed.

Lemma digit_span buf : exists ds tl, buf = ds ++ tl /\ Forall dec_char ds /\ nodigit tl.
Proof.
  induction buf as [|c r (ds & tl & -> & F & N)]; [exists [], []; cbn; auto|].
  destruct (isdigit c) eqn:E; [exists (c :: ds), tl|exists [], (c :: ds ++ tl)]; cbn; repeat split; auto.
  constructor; auto. now apply isdigit_spec.
Qed.

Lemma ns_digits_ok ds : forall fuel pre tl len, Forall dec_char ds -> nodigit tl -> zlen pre <= 9 -> 10 - zlen pre < Z.of_nat fuel ->
  ns_digits fuel (pre ++ ds ++ tl) (zlen pre) len =
  Ok (if 9 <? zlen pre + zlen ds then inl NS_TOO_LONG else inr (zlen pre + zlen ds, len * 10 ^ zlen ds + dv 10 ds)).
Proof.
  induction ds as [|c ds IH]; intros [|f] pre tl len F N P U; try (pose proof (zlen_nonneg pre); lia); cbn [ns_digits].
  - cbn [app]. rewrite (zlen_nil (A := Z)), zlen_app. destruct (Z.ltb_spec 9 (zlen pre + 0)); [lia|].
    change (dv 10 []) with 0. rewrite Z.pow_0_r. replace (len * 1 + 0) with len by lia. replace (zlen pre + 0) with (zlen pre) by lia.
    destruct tl as [|c tl]; [rewrite zlen_nil; destruct (Z.ltb_spec (zlen pre) (zlen pre + 0)); [lia|reflexivity]|].
    rewrite zlen_cons. pose proof (zlen_nonneg tl). destruct (Z.ltb_spec (zlen pre) (zlen pre + (zlen tl + 1))); [|lia].
    rewrite zget_app_0. cbn [orUB bindr]. cbn in N. rewrite N. reflexivity.
  - cbn [app]. rewrite zlen_app, zlen_cons. inversion F; subst. pose proof (zlen_nonneg (ds ++ tl)). pose proof (zlen_nonneg ds). pose proof (zlen_nonneg pre).
    destruct (Z.ltb_spec (zlen pre) (zlen pre + (zlen (ds ++ tl) + 1))); [|lia]. rewrite zget_app_0. cbn [orUB bindr].
    rewrite (proj2 (isdigit_spec c)) by auto. destruct (Z.leb_spec 9 (zlen pre)).
    + rewrite zlen_cons. destruct (Z.ltb_spec 9 (zlen pre + (zlen ds + 1))); [reflexivity|lia].
    + replace (zlen pre + 1) with (zlen (pre ++ [c])) by (rewrite zlen_app; reflexivity).
      replace (pre ++ c :: ds ++ tl) with ((pre ++ [c]) ++ ds ++ tl) by now rewrite <- app_assoc.
      rewrite IH; auto; rewrite ?zlen_app, ?zlen_cons, ?zlen_nil; try lia.
      replace (zlen pre + (0 + 1) + zlen ds) with (zlen pre + (zlen ds + 1)) by lia.
      destruct (9 <? zlen pre + (zlen ds + 1)); auto. do 3 f_equal. rewrite dval_cons, dec_digvalue by auto. rewrite Z.pow_add_r by lia. ring.
Qed.

(** What netstring_read does, in terms of the digits at the start. *)
Definition read_spec (buf ds tl : list Z) : nsret :=
  if zlen ds =? 0 then NsErr NS_NO_LENGTH
  else if (hd 0 ds =? 48) && (2 <=? zlen ds) then NsErr NS_LEADING_ZERO
  else if 9 <? zlen ds then NsErr NS_TOO_LONG
  else if zlen buf <=? zlen ds + dv 10 ds + 1 then NsErr NS_TOO_SHORT
  else if negb (hd 0 tl =? 58) then NsErr NS_NO_COLON
  else match zget tl (dv 10 ds + 1) with
       | Some k => if negb (k =? 44) then NsErr NS_NO_COMMA
                   else NsOk (zlen ds + 1) (dv 10 ds) (zlen ds + 1 + dv 10 ds + 1) (zlen buf - (zlen ds + 1 + dv 10 ds + 1))
       | None => NsErr 0
       end.

Lemma read_eq ds tl : 3 <= zlen (ds ++ tl) -> Forall dec_char ds -> nodigit tl -> netstring_read (ds ++ tl) = Ok (read_spec (ds ++ tl) ds tl).
Proof.
  intros L F N. unfold netstring_read, read_spec. destruct (Z.ltb_spec (zlen (ds ++ tl)) 3); [lia|]. rewrite zlen_app in L.
  pose proof (ns_digits_ok ds 11 [] tl 0 F N ltac:(rewrite zlen_nil; lia) ltac:(rewrite zlen_nil; lia)) as D. cbn [app] in D. rewrite (zlen_nil (A := Z)) in D.
  rewrite Z.mul_0_l, !Z.add_0_l in D.
  destruct ds as [|c ds].
  - cbn [app] in *. rewrite (zlen_nil (A := Z)) in *. destruct tl as [|c tl]; [cbn in L; lia|]. cbn in N. change (zget (c :: tl) 0) with (Some c). cbn [orUB bindr].
    rewrite N. destruct (Z.eqb_spec c 48) as [->|]; [discriminate N|]. cbn [bindr negb]. reflexivity.
  - inversion F; subst. rewrite zlen_cons in *. pose proof (zlen_nonneg ds). destruct (Z.eqb_spec (zlen ds + 1) 0); [lia|].
    change (zget ((c :: ds) ++ tl) 0) with (Some c). cbn [orUB bindr hd]. rewrite (proj2 (isdigit_spec c)) by auto. cbn [negb].
    assert (B : (if c =? 48 then do c1 <- orUB (zget ((c :: ds) ++ tl) 1); Ok (isdigit c1) else Ok false) = Ok ((c =? 48) && (2 <=? zlen ds + 1))).
    { destruct (c =? 48); auto. change (zget ((c :: ds) ++ tl) 1) with (zget (ds ++ tl) 0). destruct ds as [|c1 ds].
      - cbn [app zlen length]. destruct tl as [|c1 tl]; [cbn in L; lia|]. cbn in N. cbn. now rewrite N.
      - inversion H3; subst. change (zget ((c1 :: ds) ++ tl) 0) with (Some c1). cbn [orUB bindr]. rewrite (proj2 (isdigit_spec c1)) by auto. rewrite zlen_cons. pose proof (zlen_nonneg ds).
        destruct (Z.leb_spec 2 (zlen ds + 1 + 1)); [reflexivity|lia]. }
    rewrite B. cbn [bindr]. destruct ((c =? 48) && (2 <=? zlen ds + 1)); auto. rewrite D. cbn [bindr].
    destruct (Z.ltb_spec 9 (zlen ds + 1)); auto. pose proof (dval_bound 10 (c :: ds) ltac:(lia) (dec_below _ F)) as [V _]. set (v := dv 10 (c :: ds)) in *.
    destruct (Z.leb_spec (zlen ((c :: ds) ++ tl)) (zlen ds + 1 + v + 1)) as [|G]; auto. rewrite zlen_app, zlen_cons in G.
    destruct tl as [|k tl]; [rewrite zlen_nil in G; lia|]. replace (zlen ds + 1) with (zlen (c :: ds)) by apply zlen_cons. rewrite zget_app_0. cbn [orUB bindr hd].
    destruct (negb (k =? 58)); auto. replace (zlen (c :: ds) + 1 + v) with (zlen (c :: ds) + (v + 1)) by lia. rewrite zget_app_r by lia.
    rewrite zlen_cons in G. destruct (zget_in (k :: tl) (v + 1) ltac:(rewrite zlen_cons; lia)) as (y & ->). cbn [orUB bindr]. destruct (negb (y =? 44)); reflexivity.
Qed.

Lemma read_short buf : zlen buf < 3 -> netstring_read buf = Ok (NsErr NS_TOO_SHORT).
Proof. intro H. unfold netstring_read. destruct (Z.ltb_spec (zlen buf) 3); [reflexivity|lia]. Qed.

Lemma read_safe buf : exists r, netstring_read buf = Ok r.
Proof.
  destruct (Z.lt_ge_cases (zlen buf) 3); [rewrite read_short; eauto|]. destruct (digit_span buf) as (ds & tl & -> & F & N). rewrite read_eq; eauto.
Qed.

Lemma sub_bytes_mid (a b c : list Z) : sub_bytes (a ++ b ++ c) (zlen a) (zlen b) = b.
Proof.
  unfold sub_bytes, zlen. rewrite !Nat2Z.id. rewrite skipn_app, Nat.sub_diag, skipn_all, app_nil_l. cbn [skipn].
  rewrite firstn_app, Nat.sub_diag, firstn_all. cbn [firstn]. apply app_nil_r.
Qed.

Lemma numeral_bound ds v : numeral 10 ds v -> 0 <= v < 10 ^ zlen ds.
Proof. intro H. apply numeral_iff in H; [|lia]. destruct H as (_ & B & ->). apply dval_bound; auto; lia. Qed.

Lemma decimal_pos n ds : 0 <= n -> decimal n ds -> Forall dec_char ds /\ ds <> [] /\ (hd 0 ds <> 48 \/ length ds = 1%nat) /\ n = dv 10 ds.
Proof.
  intros P (e & v & Nv & F & H & [(_ & -> & ->)|(L & _)]); [|lia]. pose proof Nv as Nw. apply numeral_iff in Nw; [|lia]. destruct Nw as (Ne & _ & ->). auto.
Qed.

Lemma decimal_of ds : Forall dec_char ds -> ds <> [] -> (hd 0 ds <> 48 \/ length ds = 1%nat) -> decimal (dv 10 ds) ds.
Proof.
  intros F N H. exists ds, (dv 10 ds). split; [apply numeral_iff; [lia|]; split; auto; split; auto; now apply dec_below|]. split; auto. split; auto.
  left. split; auto. apply dval_bound; [lia|now apply dec_below].
Qed.

(** A number below 10^9 has at most 9 digits. *)
Lemma dec_len ds : Forall dec_char ds -> ds <> [] -> (hd 0 ds <> 48 \/ length ds = 1%nat) -> dv 10 ds < 10 ^ 9 -> zlen ds <= 9.
Proof.
  intros F N H L. destruct (Z.lt_ge_cases (zlen ds) 10) as [|G]; [lia|]. exfalso.
  destruct ds as [|c ds]; [congruence|]. destruct H as [H|H]; [|unfold zlen in G; rewrite H in G; lia]. cbn [hd] in H. inversion F; subst. rewrite dval_cons, dec_digvalue in L by auto.
  pose proof (dval_bound 10 ds ltac:(lia) (dec_below _ H3)). rewrite zlen_cons in G. unfold dec_char in H2.
  assert (10 ^ 9 <= 10 ^ zlen ds) by (apply Z.pow_le_mono_r; lia). nia.
Qed.

Lemma read_complete d s rest : netstring d s -> zlen d < ns_limit ->
  exists ds, s = ds ++ [58] ++ d ++ [44] /\ netstring_read (s ++ rest) = Ok (NsOk (zlen ds + 1) (zlen d) (zlen s) (zlen rest)).
Proof.
  intros (ds & D & ->) L. exists ds. split; auto. pose proof (zlen_nonneg d) as Ld. pose proof (zlen_nonneg rest) as Lr. destruct (decimal_pos _ _ Ld D) as (F & N & H & V). rewrite <- app_assoc.
  assert (Lds : 1 <= zlen ds) by (destruct ds; [congruence|rewrite zlen_cons; pose proof (zlen_nonneg ds); lia]).
  rewrite read_eq; [|rewrite !zlen_app, !zlen_cons, !zlen_nil; lia|auto|reflexivity]. unfold read_spec. rewrite <- V.
  destruct (Z.eqb_spec (zlen ds) 0); [lia|].
  assert (Hz : (hd 0 ds =? 48) && (2 <=? zlen ds) = false) by (unfold zlen; destruct H as [H|H]; [destruct (Z.eqb_spec (hd 0 ds) 48); [congruence|reflexivity]|rewrite H; now rewrite andb_false_r]).
  rewrite Hz. assert (zlen ds <= 9) by (apply dec_len; auto; rewrite <- V; exact L). destruct (Z.ltb_spec 9 (zlen ds)); [lia|].
  rewrite !zlen_app, !zlen_cons, !zlen_nil. match goal with |- context [?a <=? ?b] => destruct (Z.leb_spec a b); [lia|] end.
  cbn [app hd Z.eqb Pos.eqb negb]. replace (zlen d + 1) with (zlen (58 :: d)) by apply zlen_cons.
  replace (58 :: (d ++ [44]) ++ rest) with ((58 :: d) ++ 44 :: rest) by (cbn [app]; now rewrite <- app_assoc). rewrite zget_app_0. cbn [negb Z.eqb Pos.eqb].
  f_equal. f_equal; lia.
Qed.

Lemma read_sound buf st len nx rem : netstring_read buf = Ok (NsOk st len nx rem) ->
  exists d s rest ds, buf = s ++ rest /\ netstring d s /\ zlen d < ns_limit /\ s = ds ++ [58] ++ d ++ [44] /\
    st = zlen ds + 1 /\ len = zlen d /\ nx = zlen s /\ rem = zlen rest.
Proof.
  intro E. destruct (Z.lt_ge_cases (zlen buf) 3); [rewrite read_short in E by auto; discriminate|].
  destruct (digit_span buf) as (ds & tl & -> & F & N). rewrite read_eq in E by auto. injection E as E. unfold read_spec in E.
  destruct (Z.eqb_spec (zlen ds) 0) as [|Nz]; [discriminate|]. destruct ((hd 0 ds =? 48) && (2 <=? zlen ds)) eqn:Hz; [discriminate|].
  destruct (Z.ltb_spec 9 (zlen ds)) as [|Nn]; [discriminate|]. destruct (Z.leb_spec (zlen (ds ++ tl)) (zlen ds + dv 10 ds + 1)) as [|G]; [discriminate|].
  destruct (Z.eqb_spec (hd 0 tl) 58) as [Hc|]; [|discriminate]. cbn [negb] in E.
  assert (Hd : ds <> []) by (intros ->; apply Nz; reflexivity).
  assert (H0 : hd 0 ds <> 48 \/ length ds = 1%nat) by (destruct (Z.eqb_spec (hd 0 ds) 48); [right; unfold zlen in *; cbn [andb] in Hz; lia|left; auto]).
  pose proof (dval_bound 10 ds ltac:(lia) (dec_below _ F)) as [V0 V1]. set (v := dv 10 ds) in *.
  destruct tl as [|k tl]; [cbn in Hc; lia|]. cbn [hd] in Hc. subst k. rewrite zlen_app, zlen_cons in G.
  set (d := firstn (Z.to_nat v) tl). assert (Ld : zlen d = v) by (unfold d, zlen in *; rewrite firstn_length; lia).
  assert (T : tl = d ++ skipn (Z.to_nat v) tl) by (symmetry; apply firstn_skipn). destruct (skipn (Z.to_nat v) tl) as [|k rest].
  - exfalso. rewrite app_nil_r in T. rewrite T in G. lia.
  - rewrite T in E. replace (v + 1) with (zlen (58 :: d)) in E at 1 by (rewrite zlen_cons; lia). change (58 :: d ++ k :: rest) with ((58 :: d) ++ k :: rest) in E. rewrite zget_app_0 in E.
    destruct (Z.eqb_spec k 44) as [->|]; [|discriminate]. cbn [negb] in E. injection E as <- <- <- <-.
    exists d, (ds ++ [58] ++ d ++ [44]), rest, ds. clearbody d. subst tl.
    rewrite !zlen_app, !zlen_cons, ?zlen_app, ?zlen_cons, !zlen_nil. repeat split; try lia.
    + rewrite <- !app_assoc. reflexivity.
    + exists ds. split; auto. rewrite Ld. apply decimal_of; auto.
    + rewrite Ld. eapply Z.lt_le_trans; [exact V1|]. unfold ns_limit. apply Z.pow_le_mono_r; lia.
Qed.

Lemma read_bytes d s rest : netstring d s -> zlen d < ns_limit -> exists st,
  netstring_read (s ++ rest) = Ok (NsOk st (zlen d) (zlen s) (zlen rest)) /\ sub_bytes (s ++ rest) st (zlen d) = d /\ sub_bytes (s ++ rest) (zlen s) (zlen rest) = rest.
Proof.
  intros N L. destruct (read_complete d s rest N L) as (ds & E & R). exists (zlen ds + 1). split; auto. split.
  - rewrite E. replace ((ds ++ [58] ++ d ++ [44]) ++ rest) with ((ds ++ [58]) ++ d ++ ([44] ++ rest)) by (rewrite <- !app_assoc; reflexivity).
    replace (zlen ds + 1) with (zlen (ds ++ [58])) by (rewrite zlen_app; reflexivity). apply sub_bytes_mid.
  - rewrite <- (app_nil_r rest) at 1. apply sub_bytes_mid.
Qed.

Lemma ns_unique d s r d' s' r' : netstring d s -> netstring d' s' -> zlen d < ns_limit -> zlen d' < ns_limit -> s ++ r = s' ++ r' -> d = d' /\ s = s' /\ r = r'.
Proof.
  intros N N' L L' E. destruct (read_bytes d s r N L) as (st & R & A & B). destruct (read_bytes d' s' r' N' L') as (st' & R' & A' & B').
  rewrite <- E in *. rewrite R in R'. injection R' as -> Ed Es Er. rewrite <- Ed, A in A'. rewrite <- Es, <- Er, B in B'. subst. split; auto. split; auto.
  now apply app_inv_tail in E.
Qed.

Lemma ns_pos d s : netstring d s -> 3 <= zlen s.
Proof.
  intros (ds & D & ->). destruct (decimal_pos _ _ (zlen_nonneg d) D) as (_ & N & _). rewrite !zlen_app, !zlen_cons, !zlen_nil. pose proof (zlen_nonneg d).
  destruct ds; [congruence|]. rewrite zlen_cons. pose proof (zlen_nonneg ds). lia.
Qed.
Lemma ns_data d s : netstring d s -> zlen d < zlen s.
Proof. intros (ds & D & ->). rewrite !zlen_app, !zlen_cons, !zlen_nil. pose proof (zlen_nonneg ds). lia. Qed.

(** A proper prefix of a netstring is not read. *)
Lemma read_prefix_fails d s a b : netstring d s -> zlen d < ns_limit -> s = a ++ b -> b <> [] -> exists e, netstring_read a = Ok (NsErr e).
Proof.
  intros N L E B. destruct (read_safe a) as ([e|st len nx rem] & R); [eauto|]. exfalso.
  destruct (read_sound _ _ _ _ _ R) as (d' & s' & rest & ds & E1 & N' & L' & _). subst a.
  destruct (ns_unique d s [] d' s' (rest ++ b) N N' L L') as (_ & _ & H); [rewrite E, app_nil_r, <- app_assoc; reflexivity|].
  symmetry in H. apply app_eq_nil in H. tauto.
Qed.

(** * The encoder *)

Lemma numdigits_ok n s : 0 <= n < 10 ^ 16 -> isdec s n -> numdigits n = zlen s.
Proof.
  intros R D. pose proof (isdec_high s n D) as U. assert (Lo : n <> 0 -> 10 ^ (zlen s - 1) <= n) by (apply isdec_low; auto). destruct D as (Ne & N & V & H).
  assert (L0 : n = 0 -> zlen s = 1).
  { intros ->. destruct s as [|c s]; [congruence|]. inversion N; subst. rewrite zlen_cons. pose proof (zlen_nonneg s). destruct (Z.eq_dec (zlen s) 0); [lia|].
    exfalso. destruct H as [H|H]; [|unfold zlen in *; cbn [length] in H; lia]. cbn [hd] in H. rewrite dval_cons, dec_digvalue in V by auto. unfold dec_char in *.
    pose proof (dval_bound 10 s ltac:(lia) (dec_below _ H3)). assert (0 < 10 ^ zlen s) by (apply Z.pow_pos_nonneg; lia). nia. }
  assert (Q : forall k, 1 <= k <= 16 -> (n = 0 /\ k = 1) \/ 10 ^ (k - 1) <= n < 10 ^ k -> zlen s = k).
  { intros k K [[-> ->]|[A B]]; auto. assert (Nz : n <> 0) by (assert (0 < 10 ^ (k - 1)) by (apply Z.pow_pos_nonneg; lia); lia). specialize (Lo Nz).
    assert (zlen s - 1 < k) by (apply (Z.pow_lt_mono_r_iff 10); lia). assert (k - 1 < zlen s) by (apply (Z.pow_lt_mono_r_iff 10); try lia; apply zlen_nonneg). lia. }
  symmetry. unfold numdigits. cbv zeta.
  destruct (Z.leb_spec 100000000 n).
  - assert (E4 : n / 100000000 / 10000 = n / 1000000000000) by (rewrite Z.div_div by lia; reflexivity).
    destruct (Z.leb_spec 10000 (n / 100000000)).
    + assert (n / 100000000 / 10000 / 100 = n / 100000000000000) by (rewrite E4, Z.div_div by lia; reflexivity).
      destruct (Z.leb_spec 100 (n / 100000000 / 10000)); match goal with |- context [10 <=? ?x] => destruct (Z.leb_spec 10 x) end; apply Q; lia.
    + assert (n / 100000000 / 100 = n / 10000000000) by (rewrite Z.div_div by lia; reflexivity).
      destruct (Z.leb_spec 100 (n / 100000000)); match goal with |- context [10 <=? ?x] => destruct (Z.leb_spec 10 x) end; apply Q; lia.
  - destruct (Z.leb_spec 10000 n).
    + assert (n / 10000 / 100 = n / 1000000) by (rewrite Z.div_div by lia; reflexivity).
      destruct (Z.leb_spec 100 (n / 10000)); match goal with |- context [10 <=? ?x] => destruct (Z.leb_spec 10 x) end; apply Q; lia.
    + destruct (Z.leb_spec 100 n); match goal with |- context [10 <=? ?x] => destruct (Z.leb_spec 10 x) end; apply Q; lia.
Qed.

Lemma write_at_split (A B s : list Z) : zlen s <= zlen B -> exists C, zlen C = zlen B - zlen s /\ write_at (A ++ B) (zlen A) s = Ok (A ++ s ++ C).
Proof.
  intro L. unfold write_at, blit. pose proof (zlen_nonneg A). pose proof (zlen_nonneg s). rewrite zlen_app.
  replace ((0 <=? zlen s) && (0 <=? zlen A) && (zlen A + zlen s <=? zlen A + zlen B) && (0 <=? 0) && (0 + zlen s <=? zlen s)) with true by lia.
  cbn [orUB]. exists (skipn (Z.to_nat (zlen A + zlen s)) (A ++ B)). split; [unfold zlen in *; rewrite skipn_length, app_length; lia|].
  do 2 f_equal.
  - unfold zlen. rewrite Nat2Z.id, firstn_app, Nat.sub_diag, firstn_all. cbn [firstn]. apply app_nil_r.
  - f_equal. change (Z.to_nat 0) with 0%nat. cbn [skipn]. unfold zlen. rewrite Nat2Z.id. apply firstn_all.
Qed.

Lemma strlen_ok pre t : ~ In 0 pre -> strlen (pre ++ 0 :: t) = Ok (zlen pre).
Proof.
  induction pre as [|c pre IH]; intro N; cbn [app strlen]; [reflexivity|]. destruct (Z.eqb_spec c 0) as [->|]; [exfalso; apply N; now left|].
  rewrite IH by (intro I; apply N; now right). cbn [bindr]. now rewrite zlen_cons.
Qed.

Lemma isdec0 : sprintf_lu 0 = [48]. Proof. reflexivity. Qed.

Lemma add_body (pre X data : list Z) : zlen data < 10 ^ 16 -> zlen X = numdigits (zlen data) + zlen data + 3 ->
  exists ns, netstring data ns /\ zlen ns = numdigits (zlen data) + zlen data + 2 /\
  (if zlen data =? 0 then
    do m <- write_at (pre ++ X) (zlen pre) [48; 58; 44; 0]; Ok (m, zlen pre + (numdigits (zlen data) + zlen data + 2))
  else
    do m <- write_at (pre ++ X) (zlen pre) (sprintf_lu (zlen data) ++ [58; 0]);
    let ptr := zlen pre + numdigits (zlen data) + 1 in
    do m <- write_at m ptr data;
    let ptr := ptr + zlen data in
    do m <- write_at m ptr [44];
    do m <- write_at m (ptr + 1) [0];
    Ok (m, zlen pre + (numdigits (zlen data) + zlen data + 2))) = Ok (pre ++ ns ++ [0], zlen pre + zlen ns).
Proof.
  intros L LX. pose proof (zlen_nonneg data) as P. set (n := zlen data) in *.
  pose proof (sprintf_ok n ltac:(lia)) as D. assert (Nd : numdigits n = zlen (sprintf_lu n)) by (apply numdigits_ok; auto; lia).
  exists (sprintf_lu n ++ [58] ++ data ++ [44]). rewrite Nd in *. set (ds := sprintf_lu n) in *.
  assert (Ln : zlen (ds ++ [58] ++ data ++ [44]) = zlen ds + n + 2) by (rewrite !zlen_app; change (zlen [58]) with 1; change (zlen [44]) with 1; fold n; lia).
  split; [exists ds; split; auto; apply isdec_decimal; auto|]. split; [exact Ln|]. rewrite Ln.
  destruct (Z.eqb_spec n 0) as [E|E].
  - assert (data = []) by (destruct data; auto; unfold n in E; rewrite zlen_cons in E; pose proof (zlen_nonneg data); lia). subst data.
    unfold ds in *. rewrite E in *. rewrite isdec0 in *. change (zlen [48]) with 1 in *.
    destruct (write_at_split pre X [48; 58; 44; 0]) as (C & LC & ->); [rewrite LX; cbn; lia|]. cbn [bindr].
    rewrite LX in LC. change (zlen [48; 58; 44; 0]) with 4 in LC. destruct C; [reflexivity|]. rewrite zlen_cons in LC. pose proof (zlen_nonneg C). lia.
  - destruct (write_at_split pre X (ds ++ [58; 0])) as (C & LC & ->); [rewrite LX, zlen_app; change (zlen [58; 0]) with 2; lia|]. cbn [bindr].
    rewrite zlen_app in LC. change (zlen [58; 0]) with 2 in LC. cbv zeta.
    replace (pre ++ (ds ++ [58; 0]) ++ C) with ((pre ++ ds ++ [58]) ++ (0 :: C)) by (rewrite <- !app_assoc; reflexivity).
    assert (L1 : zlen (pre ++ ds ++ [58]) = zlen pre + zlen ds + 1) by (rewrite !zlen_app; change (zlen [58]) with 1; lia). rewrite <- L1.
    destruct (write_at_split (pre ++ ds ++ [58]) (0 :: C) data) as (C2 & LC2 & ->); [rewrite zlen_cons; fold n; lia|]. cbn [bindr].
    rewrite zlen_cons in LC2. fold n in LC2.
    rewrite (app_assoc _ data). assert (L2 : zlen ((pre ++ ds ++ [58]) ++ data) = zlen (pre ++ ds ++ [58]) + n) by (rewrite zlen_app; reflexivity). rewrite <- L2.
    destruct (write_at_split ((pre ++ ds ++ [58]) ++ data) C2 [44]) as (C3 & LC3 & ->); [change (zlen [44]) with 1; lia|]. cbn [bindr]. change (zlen [44]) with 1 in LC3.
    rewrite (app_assoc _ [44]). match goal with |- context [write_at (?a ++ C3) _ [0]] => assert (L3 : zlen a = zlen ((pre ++ ds ++ [58]) ++ data) + 1) by (rewrite (zlen_app _ [44]); reflexivity) end.
    rewrite <- L3.
    match goal with |- context [write_at (?a ++ C3) _ [0]] => destruct (write_at_split a C3 [0]) as (C4 & LC4 & ->); [change (zlen [0]) with 1; lia|] end.
    cbn [bindr]. change (zlen [0]) with 1 in LC4. assert (C4 = []) by (destruct C4; auto; rewrite zlen_cons in LC4; pose proof (zlen_nonneg C4); lia). subst C4.
    f_equal. f_equal. rewrite <- !app_assoc. reflexivity.
Qed.

Definition block_of (old : option (list Z)) (pre : list Z) : Prop :=
  match old with None => pre = [] | Some m => ~ In 0 pre /\ exists t, m = pre ++ 0 :: t end.

Lemma add_ok g old pre data : block_of old pre -> zlen data < 10 ^ 16 ->
  exists ns, netstring data ns /\ netstring_buffer_size (zlen data) = zlen ns /\ netstring_add_ex g old data = Ok (pre ++ ns ++ [0], zlen pre + zlen ns).
Proof.
  intros B L. unfold netstring_add_ex. cbv zeta.
  assert (Sz : 1 <= numdigits (zlen data)). { rewrite (numdigits_ok _ (sprintf_lu (zlen data))); [|pose proof (zlen_nonneg data); lia|apply sprintf_ok; pose proof (zlen_nonneg data); lia].
    pose proof (sprintf_ok (zlen data) ltac:(pose proof (zlen_nonneg data); lia)) as (N & _). destruct (sprintf_lu (zlen data)) as [|c s]; [congruence|rewrite zlen_cons; pose proof (zlen_nonneg s); lia]. }
  pose proof (zlen_nonneg data). destruct old as [m|]; cbn [block_of] in B.
  - destruct B as (N & t & ->). rewrite strlen_ok by auto. cbn [bindr].
    set (want := Z.to_nat (zlen pre + (numdigits (zlen data) + zlen data + 2) + 1)).
    set (pad := map g (seq 0 (want - length (pre ++ 0 :: t)))).
    assert (W : (length pre <= want)%nat) by (unfold want, zlen in *; lia).
    assert (E : firstn want (pre ++ 0 :: t) ++ pad = pre ++ (firstn (want - length pre) (0 :: t) ++ pad)).
    { rewrite firstn_app, (firstn_all2 (n := want) pre) by lia. now rewrite <- app_assoc. }
    rewrite E. destruct (add_body pre (firstn (want - length pre) (0 :: t) ++ pad) data L) as (ns & A & B & C); [|exists ns; split; auto]. unfold zlen at 1. rewrite app_length, firstn_length. unfold pad. rewrite map_length, seq_length, app_length. cbn [length].
    unfold want, zlen in *. lia.
  - subst pre. cbn [bindr]. destruct (add_body [] (map g (seq 0 (Z.to_nat (numdigits (zlen data) + zlen data + 2 + 1)))) data L) as (ns & A & B & C).
    + unfold zlen at 1. rewrite map_length, seq_length. lia.
    + exists ns. split; auto.
Qed.

Lemma ns_no_nul d ns : netstring d ns -> ~ In 0 d -> ~ In 0 ns.
Proof.
  intros (ds & D & ->) N I. destruct (decimal_pos _ _ (zlen_nonneg d) D) as (F & _). rewrite !in_app_iff in I. destruct I as [I|[I|[I|I]]]; auto.
  - rewrite Forall_forall in F. specialize (F 0 I). unfold dec_char in F. lia.
  - destruct I as [I|[]]; lia.
  - destruct I as [I|[]]; lia.
Qed.

Lemma add_all_ok g l : forall old pre, block_of old pre -> Forall (fun d => zlen d < 10 ^ 16) l -> Forall (fun d => ~ In 0 d) (removelast l) -> l <> [] ->
  exists ss, Forall2 netstring l ss /\ add_all g old (zlen pre) l = Ok (Some (pre ++ concat ss ++ [0]), zlen pre + zlen (concat ss)).
Proof.
  induction l as [|d l IH]; intros old pre B F N NE; [congruence|]. inversion F; subst. cbn [add_all].
  destruct (add_ok g old pre d B) as (ns & A & _ & ->); auto. cbn [bindr]. destruct l as [|d' l].
  - exists [ns]. split; auto. cbn [add_all concat]. rewrite app_nil_r. reflexivity.
  - assert (Nd : ~ In 0 d /\ Forall (fun d => ~ In 0 d) (removelast (d' :: l))) by (cbn [removelast] in N; inversion N; subst; auto). destruct Nd as [Nd Nl].
    replace (zlen pre + zlen ns) with (zlen (pre ++ ns)) by apply zlen_app.
    destruct (IH (Some (pre ++ ns ++ [0])) (pre ++ ns)) as (ss & C & D); auto.
    + cbn [block_of]. split; [|exists []; now rewrite <- app_assoc]. rewrite in_app_iff. intros [I|I]; [|now apply (ns_no_nul d ns A Nd)].
      destruct old as [m|]; cbn [block_of] in B; [tauto|subst pre; destruct I].
    + discriminate.
    + exists (ns :: ss). split; auto. rewrite D. cbn [concat]. rewrite !zlen_app, <- !app_assoc. f_equal. f_equal. lia.
Qed.

(** * Lists *)

Lemma count_ok l : forall ss fuel rc n, Forall2 netstring l ss -> Forall (fun d => zlen d < ns_limit) l -> (length (concat ss) < fuel)%nat -> l <> [] \/ rc = Some 0 ->
  list_count_loop fuel (concat ss) rc n = Ok (0, n + zlen l).
Proof.
  induction l as [|d l IH]; intros ss [|f] rc n F L U Ne; try lia; inversion F; subst; cbn [list_count_loop concat].
  - destruct Ne as [Ne| ->]; [congruence|]. cbn. do 2 f_equal. lia.
  - rename y into s, l' into ss. inversion L; subst. pose proof (ns_pos d s H1). rewrite zlen_app. pose proof (zlen_nonneg (concat ss)).
    destruct (Z.ltb_spec 0 (zlen s + zlen (concat ss))); [|lia]. destruct (read_bytes d s (concat ss) H1 H2) as (st & R1 & _ & R2). rewrite R1. cbn [bindr]. rewrite R2.
    rewrite IH; auto; [do 2 f_equal; rewrite zlen_cons; lia|]. cbn [concat] in U. rewrite app_length in U. unfold zlen in *. lia.
Qed.

Lemma size_ok l : forall ss fuel rc n tail e, Forall2 netstring l ss -> Forall (fun d => zlen d < ns_limit) l -> (length (concat ss ++ tail) < fuel)%nat -> l <> [] \/ rc = Some 0 ->
  tail = [] \/ netstring_read tail = Ok (NsErr e) /\ (e = NS_NO_LENGTH \/ e = NS_TOO_SHORT) ->
  list_size_loop fuel (concat ss ++ tail) rc n = Ok (0, n - zlen tail).
Proof.
  induction l as [|d l IH]; intros ss [|f] rc n tail e F L U Ne T; try lia; inversion F; subst; cbn [list_size_loop concat].
  - destruct Ne as [Ne| ->]; [congruence|]. cbn [app]. destruct T as [->|(T & X)]; [reflexivity|]. destruct tail as [|c tail]; [reflexivity|].
    rewrite zlen_cons. pose proof (zlen_nonneg tail). destruct (Z.ltb_spec 0 (zlen tail + 1)); [|lia]. rewrite T. cbn [bindr]. destruct X as [-> | ->]; reflexivity.
  - rename y into s, l' into ss. inversion L; subst. pose proof (ns_pos d s H1). rewrite <- app_assoc, zlen_app. pose proof (zlen_nonneg (concat ss ++ tail)).
    destruct (Z.ltb_spec 0 (zlen s + zlen (concat ss ++ tail))); [|lia]. destruct (read_bytes d s (concat ss ++ tail) H1 H2) as (st & R1 & _ & R2). rewrite R1. cbn [bindr]. rewrite R2.
    apply IH with (e := e); auto. cbn [concat] in U. rewrite !app_length in U. rewrite app_length. unfold zlen in *. lia.
Qed.

(** * The monitor socket *)

Lemma requests_ok rs : forall ss buf more fuel, Forall2 netstring rs ss -> Forall (fun d => zlen d < ns_limit) rs -> buf ++ more = concat ss -> (length buf < fuel)%nat ->
  exists rs1 rs2 ss1 ss2 rest, rs = rs1 ++ rs2 /\ ss = ss1 ++ ss2 /\ length rs1 = length ss1 /\ Forall2 netstring rs2 ss2 /\ mon_requests fuel buf = Ok (rs1, rest) /\ rest ++ more = concat ss2 /\
    buf = concat ss1 ++ rest /\ (ss2 = [] \/ zlen rest < zlen (hd [] ss2)).
Proof.
  induction rs as [|d rs IH]; intros ss buf more [|f] F L E U; try lia; inversion F; subst; cbn [concat] in E.
  - apply app_eq_nil in E. destruct E as [-> ->]. exists [], [], [], [], []. cbn. repeat split; auto.
  - rename y into s, l' into ss. inversion L; subst. destruct (Z.lt_ge_cases (zlen buf) (zlen s)) as [G|G].
    + exists [], (d :: rs), [], (s :: ss), buf. split; auto. split; auto. split; auto. split; auto. split; [|split; [exact E|split; [reflexivity|right; exact G]]].
      cbn [mon_requests]. destruct (Z.eqb_spec (zlen buf) 0) as [Z0|Z0]; auto.
      assert (P : exists b, s = buf ++ b /\ b <> []).
      { exists (skipn (length buf) s). assert (Q : firstn (length buf) s = buf).
        { assert (A : firstn (length buf) (buf ++ more) = firstn (length buf) (s ++ concat ss)) by now rewrite E.
          rewrite !firstn_app, firstn_all, Nat.sub_diag, (proj2 (Nat.sub_0_le (length buf) (length s))) in A by (unfold zlen in G; lia). cbn [firstn] in A. rewrite !app_nil_r in A. auto. }
        split; [rewrite <- Q at 1; symmetry; apply firstn_skipn|]. intro S0. apply (f_equal (@length Z)) in S0. rewrite skipn_length in S0. cbn in S0. unfold zlen in G. lia. }
      destruct P as (b & Es & Nb). destruct (read_prefix_fails d s buf b H1 H2 Es Nb) as (e & ->). reflexivity.
    + assert (P : exists b, buf = s ++ b /\ b ++ more = concat ss).
      { exists (skipn (length s) buf). assert (Q : firstn (length s) buf = s).
        { assert (A : firstn (length s) (buf ++ more) = firstn (length s) (s ++ concat ss)) by now rewrite E.
          rewrite !firstn_app, (firstn_all s), Nat.sub_diag, (proj2 (Nat.sub_0_le (length s) (length buf))) in A by (unfold zlen in G; lia). cbn [firstn] in A. rewrite !app_nil_r in A. auto. }
        assert (Eb : buf = s ++ skipn (length s) buf) by (rewrite <- Q at 1; symmetry; apply firstn_skipn). split; auto.
        rewrite Eb in E. rewrite <- app_assoc in E. now apply app_inv_head in E. }
      destruct P as (b & -> & Eb). pose proof (ns_pos d s H1). rewrite app_length in U.
      destruct (IH ss b more f H3 H4 Eb ltac:(unfold zlen in *; lia)) as (rs1 & rs2 & ss1 & ss2 & rest & A1 & A2 & A3 & A4 & A5 & A6 & A7 & A8). subst rs ss b.
      exists (d :: rs1), rs2, (s :: ss1), ss2, rest. split; auto. split; auto. split; [cbn; congruence|]. split; auto. split; [|split; [auto|split; [cbn [concat]; now rewrite <- app_assoc|auto]]].
      cbn [mon_requests]. destruct (Z.eqb_spec (zlen (s ++ concat ss1 ++ rest)) 0) as [Z0|_]; [rewrite zlen_app in Z0; pose proof (zlen_nonneg (concat ss1 ++ rest)); lia|].
      destruct (read_bytes d s (concat ss1 ++ rest) H1 H2) as (st & R1 & R3 & R2). rewrite R1. cbn [bindr]. rewrite R2, R3. rewrite A5. reflexivity.
Qed.

Lemma Forall2_app_len {A B} (R : A -> B -> Prop) a1 a2 b1 b2 : length a1 = length b1 -> Forall2 R (a1 ++ a2) (b1 ++ b2) -> Forall2 R a1 b1 /\ Forall2 R a2 b2.
Proof.
  revert b1. induction a1 as [|x a1 IH]; intros [|y b1] L F; try discriminate; cbn in *; [auto|]. inversion F; subst. destruct (IH b1) as [P Q]; auto.
Qed.

(** The requests handled: those before the first that does not fit in the buffer. *)
Fixpoint fitting (rs ss : list (list Z)) : list (list Z) :=
  match rs, ss with
  | r :: rs', s :: ss' => if zlen s <=? mon_size then r :: fitting rs' ss' else []
  | _, _ => []
  end.

Lemma fitting_app rs1 : forall rs2 ss1 ss2, length rs1 = length ss1 -> Forall (fun s => zlen s <= mon_size) ss1 -> fitting (rs1 ++ rs2) (ss1 ++ ss2) = rs1 ++ fitting rs2 ss2.
Proof.
  induction rs1 as [|r rs1 IH]; intros rs2 [|s ss1] ss2 L F; try discriminate; auto. inversion F; subst. cbn. destruct (Z.leb_spec (zlen s) mon_size); [|lia]. f_equal. apply IH; auto.
Qed.

Lemma concat_in_len (ss : list (list Z)) s : In s ss -> zlen s <= zlen (concat ss).
Proof.
  induction ss as [|x ss IH]; intros I; [destruct I|]. cbn [concat]. rewrite zlen_app. pose proof (zlen_nonneg x). pose proof (zlen_nonneg (concat ss)). destruct I as [->|I]; [lia|]. specialize (IH I). lia.
Qed.

Lemma loop_ok fuel : forall rs ss used chunks, Forall2 netstring rs ss -> Forall (fun d => zlen d < ns_limit) rs -> used ++ concat chunks = concat ss ->
  zlen used <= mon_size -> (ss = [] \/ zlen used < zlen (hd [] ss)) -> (length (concat chunks) + length chunks < fuel)%nat ->
  mon_loop fuel used chunks = Ok (fitting rs ss).
Proof.
  induction fuel as [|f IH]; intros rs ss used chunks F L E Z0 P U; [lia|]. cbn [mon_loop]. destruct chunks as [|c more].
  - cbn [concat] in E. rewrite app_nil_r in E. destruct P as [->|P]; [inversion F; reflexivity|]. destruct ss as [|s ss]; [inversion F; reflexivity|].
    exfalso. cbn [hd concat] in *. rewrite E, zlen_app in P. pose proof (zlen_nonneg (concat ss)). lia.
  - destruct (Z.leb_spec (mon_size - zlen used) 0) as [R|R].
    + destruct P as [->|P]; [inversion F; reflexivity|]. destruct ss as [|s ss]; [inversion F; reflexivity|]. cbn [hd] in P. inversion F; subst. cbn [fitting].
      destruct (Z.leb_spec (zlen s) mon_size); [lia|reflexivity].
    + destruct (Z.eqb_spec (zlen c) 0) as [Zc|Zc].
      * assert (c = []) by (destruct c; auto; rewrite zlen_cons in Zc; pose proof (zlen_nonneg c); lia). subst c. cbn [concat app length] in *. apply IH; auto. lia.
      * set (k := Z.to_nat (mon_size - zlen used)) in *.
        assert (E1 : (used ++ firstn k c) ++ concat (skipn k c :: more) = concat ss).
        { cbn [concat] in *. rewrite <- E, <- app_assoc. f_equal. rewrite app_assoc. now rewrite firstn_skipn. }
        destruct (requests_ok rs ss (used ++ firstn k c) _ (S (length (used ++ firstn k c))) F L E1 ltac:(lia)) as (rs1 & rs2 & ss1 & ss2 & rest & A1 & A2 & A3 & A4 & A5 & A6 & A7 & A8).
        rewrite A5. cbn [bindr]. subst rs ss. apply Forall_app in L. destruct L as [L1 L2].
        assert (Lb : zlen (used ++ firstn k c) <= mon_size) by (rewrite zlen_app; unfold zlen at 2; rewrite firstn_length; unfold k; lia).
        assert (Lr : zlen rest <= mon_size /\ zlen (concat ss1) <= mon_size) by (rewrite A7, zlen_app in Lb; pose proof (zlen_nonneg rest); pose proof (zlen_nonneg (concat ss1)); lia).
        rewrite (IH rs2 ss2 rest (skipn k c :: more)); auto.
        -- cbn [bindr]. f_equal. symmetry. apply fitting_app; auto. apply Forall_forall. intros s I. pose proof (concat_in_len _ _ I). lia.
        -- apply Lr.
        -- cbn [concat length] in *. rewrite app_length in *. rewrite skipn_length. unfold zlen in Zc. assert (1 <= k)%nat by (unfold k; lia). lia.
Qed.

Lemma fitting_all rs : forall ss, length rs = length ss -> Forall (fun s => zlen s <= mon_size) ss -> fitting rs ss = rs.
Proof. induction rs as [|r rs IH]; intros [|s ss] L F; try discriminate; auto. inversion F; subst. cbn. destruct (Z.leb_spec (zlen s) mon_size); [|lia]. f_equal; auto. Qed.

Lemma mon_run_ok rs ss chunks : Forall2 netstring rs ss -> Forall (fun d => zlen d < ns_limit) rs -> concat chunks = concat ss -> mon_run chunks = Ok (fitting rs ss).
Proof.
  intros F L E. unfold mon_run. apply loop_ok; auto; [unfold zlen, mon_size; cbn; lia|]. destruct ss as [|s ss]; auto. right. inversion F; subst. cbn [hd]. pose proof (ns_pos _ _ H2). unfold zlen in *. cbn [length]. lia.
Qed.

Lemma memcmp_lit lit : forall req, ~ In 0 lit -> (forall t, lit = req ++ t -> t = []) -> (forall t, req <> lit ++ 0 :: t) ->
  exists b, memcmp_eq req (lit ++ [0]) (length req) = Ok b /\ (b = true <-> req = lit).
Proof.
  induction lit as [|c lit IH]; intros req N P Q.
  - destruct req as [|x req]; cbn; [exists true; tauto|]. destruct (Z.eqb_spec x 0) as [->|]; [destruct (Q req); reflexivity|]. exists false. split; auto. split; discriminate.
  - destruct req as [|x req]; [specialize (P (c :: lit) eq_refl); discriminate|]. cbn [length app memcmp_eq]. destruct (Z.eqb_spec x c) as [->|Ne].
    + destruct (IH req) as (b & E & B); [intro I; apply N; now right|intros t T; apply P; cbn; now rewrite T|intros t T; apply (Q t); cbn; now rewrite T|].
      exists b. split; auto. rewrite B. split; [congruence|]. intro H. now injection H.
    + exists false. split; auto. split; [discriminate|]. intro H. injection H. congruence.
Qed.

Lemma read_sub buf st len nx rem : netstring_read buf = Ok (NsOk st len nx rem) ->
  exists d s rest, buf = s ++ rest /\ netstring d s /\ zlen d < ns_limit /\ sub_bytes buf st len = d /\ sub_bytes buf nx rem = rest.
Proof.
  intro R. destruct (read_sound _ _ _ _ _ R) as (d & s & rest & ds & E & N & L & _). exists d, s, rest. split; auto. split; auto. split; auto. subst buf.
  destruct (read_bytes d s rest N L) as (st' & R' & A & B). rewrite R' in R. injection R as <- <- <- <-. auto.
Qed.

Lemma read_too_long d s rest : netstring d s -> ns_limit <= zlen d -> netstring_read (s ++ rest) = Ok (NsErr NS_TOO_LONG).
Proof.
  intros (ds & D & ->) L. pose proof (zlen_nonneg d) as Ld. pose proof (zlen_nonneg rest) as Lr. destruct (decimal_pos _ _ Ld D) as (F & N & H & V). rewrite <- app_assoc.
  pose proof (dval_bound 10 ds ltac:(lia) (dec_below _ F)) as [_ U]. rewrite <- V in U.
  assert (Nd : 9 < zlen ds). { destruct (Z.lt_ge_cases 9 (zlen ds)); auto. assert (10 ^ zlen ds <= 10 ^ 9) by (apply Z.pow_le_mono_r; lia). unfold ns_limit in L. lia. }
  rewrite read_eq; [|rewrite !zlen_app, !zlen_cons, !zlen_nil; lia|auto|reflexivity]. unfold read_spec.
  destruct (Z.eqb_spec (zlen ds) 0); [lia|].
  assert (Hz : (hd 0 ds =? 48) && (2 <=? zlen ds) = false) by (unfold zlen; destruct H as [H|H]; [destruct (Z.eqb_spec (hd 0 ds) 48); [congruence|reflexivity]|rewrite H; now rewrite andb_false_r]).
  rewrite Hz. destruct (Z.ltb_spec 9 (zlen ds)); [reflexivity|lia].
Qed.

Lemma isdec_decimal' ds : forallb isdigit ds && negb (zlen ds =? 0) && (negb (hd 0 ds =? 48) || (zlen ds =? 1)) = true -> decimal (dv 10 ds) ds.
Proof.
  intro H. apply andb_prop in H. destruct H as [H H3]. apply andb_prop in H. destruct H as [H1 H2]. apply decimal_of.
  - apply Forall_forall. intros x I. rewrite forallb_forall in H1. now apply isdigit_spec, H1.
  - intros ->. discriminate.
  - apply orb_prop in H3. destruct H3; [left|right; unfold zlen in *]; lia.
Qed.

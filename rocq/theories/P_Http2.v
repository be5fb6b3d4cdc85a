(** Parsing messages. *)
From Coq Require Import String Ascii.
From Verif Require Import Base M_Slice S_Slice M_Str S_Str M_Bytes P_Base P_Bmh P_Str P_Str2 P_Bytes P_Bytes2 P_Bytes3 P_Http.
From Verif Require Import M_Bigint S_Bigint T_Bigint S_Uri M_Uri P_Uri M_Http S_Http S_Bytes.
From Coq Require Import ZifyBool ZifyNat.
Local Notation llen := List.length.

(** ** Texts of ASCII. *)
Definition plain (t : list Z) : Prop := Forall (fun c => 1 <= c < 128) t.
Lemma encode_plain t : plain t -> encode t = t.
Proof.
  unfold encode, plain. induction 1 as [|c t H _ IH]; [reflexivity|]. cbn [flat_map]. rewrite IH. unfold utf8. destruct (c <? 128) eqn:E; [reflexivity|lia].
Qed.
Lemma decode_plain t : plain t -> bdecode t = Ok t.
Proof.
  intros H. unfold bdecode. pose proof (encode_plain t H) as E. rewrite <- E at 2. apply decode_text.
  - eapply Forall_impl; [|exact H]. unfold scalar. cbn. lia.
  - intros H0. unfold plain in H. rewrite Forall_forall in H. specialize (H 0 H0). lia.
  - fold (encode t). change (S_Uri.bytes_of t) with (encode t). rewrite E. lia.
Qed.
Lemma printable_plain t : Forall (fun c => 32 <= c <= 126) t -> plain t.
Proof. intros H. eapply Forall_impl; [|exact H]. cbn. lia. Qed.

Lemma drop_repeat n t : drop_blanks (repeat 32 n ++ t) = drop_blanks t.
Proof. induction n as [|n IH]; [reflexivity|]. cbn [repeat app drop_blanks]. rewrite IH. reflexivity. Qed.
Lemma drop_other t : hd 0 t <> 32 -> drop_blanks t = t.
Proof. destruct t as [|c t]; [reflexivity|]. cbn. destruct (c =? 32) eqn:E; [lia|reflexivity]. Qed.
Lemma repeat_rev {A} (x : A) n : rev (repeat x n) = repeat x n.
Proof.
  induction n as [|n IH]; [reflexivity|]. cbn [repeat rev]. rewrite IH. clear IH. induction n as [|n IH]; [reflexivity|]. cbn [repeat app]. rewrite IH. reflexivity.
Qed.
Lemma last_hd t : last t 0 = hd 0 (rev t).
Proof. induction t as [|c t IH] using rev_ind; [reflexivity|]. rewrite last_last, rev_unit. reflexivity. Qed.
Lemma strip_ok a v b : hd 0 v <> 32 -> last v 0 <> 32 -> strip_blanks (repeat 32 a ++ v ++ repeat 32 b) = v.
Proof.
  intros H1 H2. unfold strip_blanks. rewrite drop_repeat. destruct v as [|c v].
  - cbn [app]. rewrite <- (app_nil_r (repeat 32 b)), drop_repeat. reflexivity.
  - rewrite (drop_other ((c :: v) ++ repeat 32 b)) by exact H1. rewrite rev_app_distr, repeat_rev, drop_repeat, drop_other by (rewrite <- last_hd; exact H2). apply rev_involutive.
Qed.
Lemma strip_id v : hd 0 v <> 32 -> last v 0 <> 32 -> strip_blanks v = v.
Proof. intros H1 H2. pose proof (strip_ok 0 v 0 H1 H2) as E. cbn [repeat app] in E. rewrite app_nil_r in E. exact E. Qed.
Lemma word_ends t : Forall (fun c => c <> 32) t -> hd 0 t <> 32 /\ last t 0 <> 32.
Proof.
  intros H. rewrite last_hd. assert (G : forall u, Forall (fun c => c <> 32) u -> hd 0 u <> 32) by (intros [|c u] Hu; [discriminate|inversion Hu; assumption]).
  split; [apply G; assumption|apply G; apply Forall_rev; assumption].
Qed.

(** ** Numbers. *)
Lemma digit_range c v : digit c v -> 48 <= c <= 122 /\ 0 <= v.
Proof. unfold digit. lia. Qed.
Lemma numeral_chars base t v : numeral base t v -> t <> [] /\ Forall (fun c => 48 <= c <= 122) t /\ (0 <= base -> 0 <= v).
Proof.
  induction 1 as [c v H L|s v c x H (IH1 & IH2 & IH3) D L].
  - split; [discriminate|]. pose proof (digit_range _ _ H). split; [repeat constructor; lia|lia].
  - pose proof (digit_range _ _ D). split; [destruct s; discriminate|]. split; [apply Forall_app; split; [assumption|repeat constructor; lia]|]. intros Hb. specialize (IH3 Hb). nia.
Qed.
Lemma numeral_plain base t v : numeral base t v -> plain t.
Proof. intros H. eapply Forall_impl; [|exact (proj1 (proj2 (numeral_chars _ _ _ H)))]. cbn. lia. Qed.
Lemma int_ok t v base ib : numeral base t v -> ~ has_prefix t -> (ib = None /\ base = 10 \/ ib = Some base) -> 2 <= base <= 36 -> v < 2 ^ 63 -> int_of t ib = Ok v.
Proof.
  intros H Hp Hb HB Hv. pose proof (numeral_plain _ _ _ H) as Hpl. unfold int_of. rewrite encode_plain by assumption.
  rewrite (C53_parse_partial t ib 1 base t v).
  - cbn [bindr]. pose proof (proj2 (proj2 (numeral_chars _ _ _ H))). rewrite Z.mul_1_l. destruct (_ && _) eqn:E; [reflexivity|]. change (2 ^ 63) with 9223372036854775808 in *. lia.
  - intros H0. unfold plain in Hpl. rewrite Forall_forall in Hpl. specialize (Hpl 0 H0). lia.
  - exists [], [], []. cbn [app]. split; [reflexivity|]. split; [constructor|]. split; [left; split; [left; reflexivity|reflexivity]|]. split; [assumption|]. split; [assumption|]. right. auto.
  - discriminate.
Qed.
Lemma numeral10 t v : numeral 10 t v -> Forall (fun c => 48 <= c <= 57) t.
Proof.
  induction 1 as [c v H L|s v c x H IH D L]; [repeat constructor; unfold digit in H; lia|]. apply Forall_app. split; [assumption|]. repeat constructor; unfold digit in D; lia.
Qed.
Lemma prefix10 t v : numeral 10 t v -> ~ has_prefix t.
Proof.
  intros H (p & r & b & E & (c & -> & G)). apply numeral10 in H. subst t. cbn [app] in H. inversion H as [|? ? _ H1]; subst. inversion H1; subst. lia.
Qed.
Lemma int10 t v : numeral 10 t v -> v < 2 ^ 63 -> int_of t None = Ok v.
Proof. intros H Hv. apply (int_ok t v 10); auto; [exact (prefix10 _ _ H)|lia]. Qed.
Lemma int16 t v : numeral 16 t v -> ~ has_prefix t -> v < 2 ^ 63 -> int_of t (Some 16) = Ok v.
Proof. intros H Hp Hv. apply (int_ok t v 16); auto; lia. Qed.

(** ** Dicts. *)
Lemma beq_refl a : bytes_eq a a = true.
Proof. apply beq_ok. reflexivity. Qed.
Lemma dget_dput h k v n : dget (dput h k v) n = if list_eq_dec Z.eq_dec k n then Some v else dget h n.
Proof.
  induction h as [|(k', v') h IH]; cbn [dput dget].
  - destruct (bytes_eq k n) eqn:E; destruct (list_eq_dec Z.eq_dec k n) as [E'|E']; try reflexivity; [apply beq_ok in E; congruence|subst; rewrite beq_refl in E; discriminate].
  - destruct (bytes_eq k' k) eqn:E.
    + apply beq_ok in E. subst k'. cbn [dget]. destruct (bytes_eq k n) eqn:E; destruct (list_eq_dec Z.eq_dec k n) as [E'|E']; try reflexivity; [apply beq_ok in E; congruence|subst; rewrite beq_refl in E; discriminate].
    + cbn [dget]. rewrite IH. destruct (bytes_eq k' n) eqn:E2; [|reflexivity]. destruct (list_eq_dec Z.eq_dec k n) as [E'|E']; [|reflexivity].
      apply beq_ok in E2. subst. rewrite beq_refl in E. discriminate.
Qed.

(** ** Header lines. *)
Lemma field_chars f : good_field f -> Forall (fun c => 32 <= c <= 126) (field_line f).
Proof.
  intros ((_ & H1) & (H2 & _)). unfold field_line. apply Forall_app. split; [eapply Forall_impl; [|exact H1]; cbn; lia|]. constructor; [lia|].
  apply Forall_app. split; [apply Forall_forall; intros c Hc; apply repeat_spec in Hc; lia|]. apply Forall_app. split; [assumption|].
  apply Forall_forall. intros c Hc. apply repeat_spec in Hc. lia.
Qed.
Lemma not_in_printable c t : Forall (fun c => 32 <= c <= 126) t -> (c < 32) -> ~ In c t.
Proof. intros H Hc Hi. rewrite Forall_forall in H. specialize (H c Hi). lia. Qed.
Section L.
Context (lower : list Z -> list Z) (Hlow : lower_ok lower).

Lemma headers_ok fs : Forall good_field fs -> Forall (fun f => bfits (field_line f)) fs -> forall h,
  exists h', parse_headers lower (map field_line fs) h = Ok (Some h') /\
    forall n, dget h' n = match value_of fs n with Some v => Some v | None => dget h n end.
Proof.
  induction 1 as [|f fs G _ IH]; intros F h; [exists h; split; [reflexivity|intros n; reflexivity]|].
  inversion F as [|? ? F1 F2]; subst. cbn [map parse_headers].
  pose proof (field_chars f G) as Hch. destruct G as ((Hn0 & Hn) & (Hv & Hh & Hl)).
  set (vp := repeat 32 (f_before f) ++ f_value f ++ repeat 32 (f_after f)).
  assert (El : field_line f = f_name f ++ [58] ++ vp) by reflexivity.
  rewrite (bsplit1 (field_line f) [58] (f_name f) vp ltac:(discriminate) F1 El).
  2:{ rewrite El. apply first_no. intros Hi. rewrite Forall_forall in Hn. specialize (Hn 58 Hi). lia. }
  cbn [bindr]. assert (Hnp : plain (f_name f)) by (eapply Forall_impl; [|exact Hn]; cbn; lia).
  rewrite (decode_plain _ Hnp).
  assert (Hvp : plain vp). { rewrite El in Hch. apply Forall_app in Hch as [_ Hch]. inversion Hch; subst. apply printable_plain. assumption. }
  rewrite (decode_plain _ Hvp). unfold vp. rewrite strip_ok by assumption.
  destruct (word_ends (f_name f)) as [W1 W2]; [eapply Forall_impl; [|exact Hn]; cbn; lia|]. rewrite strip_id by assumption.
  rewrite Hlow by (eapply Forall_impl; [|exact Hn]; cbn; lia).
  destruct (IH F2 (dput h (map small (f_name f)) (f_value f))) as (h' & E & Hg). exists h'. split; [exact E|].
  intros n. rewrite Hg, dget_dput. cbn [value_of]. destruct (value_of fs n); [reflexivity|]. destruct (list_eq_dec _ _ _); reflexivity.
Qed.
End L.

Lemma lines_joined start fs b :
  start ++ CRLF ++ concat (map (fun f => field_line f ++ CRLF) fs) ++ CRLF ++ b =
  joined [13; 10] (start :: map field_line fs) ++ [13; 10; 13; 10] ++ b.
Proof.
  revert start. induction fs as [|f fs IH]; intros start; [reflexivity|]. cbn [map concat]. rewrite <- !app_assoc, IH.
  change (joined [13; 10] (start :: field_line f :: map field_line fs)) with (start ++ [13; 10] ++ joined [13; 10] (field_line f :: map field_line fs)). rewrite <- !app_assoc. reflexivity.
Qed.

(** Before the end of a separator it does not occur. *)
Lemma absent_short {A} (p t X P R : list A) : p ++ t = X ++ P ++ R -> (forall m, occurs (X ++ P ++ R) P m -> zlen X <= m) -> zlen p < zlen X + zlen P -> absent p P.
Proof. intros E H L m Hm. pose proof (occurs_len _ _ _ Hm). apply (occurs_more _ t) in Hm. rewrite E in Hm. apply H in Hm. lia. Qed.

(** ** Chunks. *)
Lemma skipn_app_exact {A} (a b : list A) : skipn (llen a) (a ++ b) = b.
Proof. induction a; [reflexivity|assumption]. Qed.
Lemma firstn_app_exact {A} (a b : list A) : firstn (llen a) (a ++ b) = a.
Proof. induction a; [reflexivity|cbn; f_equal; assumption]. Qed.
Lemma skipn_clamp s n : 0 <= n <= zlen s -> bfits s -> from_ s n = Ok (skipn (Z.to_nat n) s).
Proof.
  intros H F. unfold from_. rewrite bslice_step1 by assumption. unfold window, clamp1. destruct (0 <=? n) eqn:E; [|lia]. f_equal. rewrite Z.min_l by lia.
  apply firstn_all2. rewrite skipn_length. unfold zlen in *. lia.
Qed.
Lemma firstn_clamp s n : 0 <= n <= zlen s -> bfits s -> upto_ s n = Ok (firstn (Z.to_nat n) s).
Proof. intros H F. unfold upto_. rewrite bslice_step1 by assumption. unfold window, clamp1. destruct (0 <=? n) eqn:E; [|lia]. f_equal. rewrite Z.min_l by lia. rewrite Z.sub_0_r. reflexivity. Qed.
Lemma strip_none z : Forall (fun c => 48 <= c <= 122) z -> bytes_strip z (Some [13; 10]) = Ok z.
Proof.
  intros H. destruct (bstrip_ok z (Some [13; 10])) as (D & K & E & Ez & HD & HE & _ & _ & ->). f_equal. subst z. apply Forall_app in H as [H1 H]. apply Forall_app in H as [H2 H3].
  assert (G : forall l, Forall (fun c => 48 <= c <= 122) l -> all_from (set_of (Some [13; 10])) l -> l = []).
  { intros [|c l] Hl Ha; [reflexivity|]. inversion Hl; subst. inversion Ha as [|? ? Hc]; subst. cbn in Hc. lia. }
  rewrite (G D H1 HD), (G E H3 HE), app_nil_r. reflexivity.
Qed.
Lemma chunk_step fuel z n c1 acc : numeral 16 z n -> ~ has_prefix z -> n < 2 ^ 63 -> bfits (z ++ [13; 10] ++ c1) ->
  chunks_loop (S fuel) (z ++ [13; 10] ++ c1) acc =
  if n <=? zlen c1 then
    let r := skipn (Z.to_nat n) c1 in
    if zlen r <? 2 then Ok None
    else if n =? 0 then Ok (Some (acc ++ firstn (Z.to_nat n) c1, skipn 2 r)) else chunks_loop fuel (skipn 2 r) (acc ++ firstn (Z.to_nat n) c1)
  else Ok None.
Proof.
  intros Hz Hp Hv F. destruct (numeral_chars _ _ _ Hz) as (Hz0 & Hzc & Hn0). specialize (Hn0 ltac:(lia)). cbn [chunks_loop].
  rewrite (bsplit1 _ [13; 10] z c1 ltac:(discriminate) F eq_refl).
  2:{ apply first_no. intros Hi. rewrite Forall_forall in Hzc. specialize (Hzc 13 Hi). lia. }
  cbn [bindr]. rewrite strip_none by assumption. cbn [bindr]. destruct (bytes_eq z []) eqn:E0; [apply beq_ok in E0; congruence|].
  rewrite (decode_plain _ (numeral_plain _ _ _ Hz)), (int16 _ _ Hz Hp Hv). destruct (n <=? zlen c1) eqn:E1; [|reflexivity].
  assert (F1 : bfits c1) by (unfold bfits in *; rewrite !zlen_app in F; pose proof (zlen_nn z); pose proof (zlen_nn [13; 10]); lia).
  rewrite firstn_clamp, skipn_clamp by (assumption || lia). cbn [bindr]. set (r := skipn (Z.to_nat n) c1). cbv zeta.
  assert (Fr : bfits r). { unfold bfits in *. unfold r. unfold zlen in *. rewrite skipn_length. lia. }
  rewrite bslice_step1 by assumption. cbn [bindr]. destruct (zlen r <? 2) eqn:E2.
  - assert (Hm : bytes_eq (window r (clamp1 (zlen r) 0) (clamp1 (zlen r) 2)) [13; 10] = false).
    { destruct (bytes_eq (window _ _ _) _) eqn:E3; [|reflexivity]. apply beq_ok in E3. assert (H := f_equal zlen E3). unfold window, zlen in H. rewrite firstn_length, skipn_length in H. unfold zlen in E2. cbn in H. lia. }
    rewrite Hm. reflexivity.
  - cbn [andb]. rewrite skipn_clamp by (assumption || lia). cbn [bindr]. reflexivity.
Qed.

Lemma chunked_ok body w : chunked body w -> forall rest acc fuel, bfits (w ++ rest) -> (llen (w ++ rest) < fuel)%nat ->
  chunks_loop fuel (w ++ rest) acc = Ok (Some (acc ++ body, rest)).
Proof.
  induction 1 as [z Hz Hp|z d body w Hz Hp Hd Hw IH]; intros rest acc fuel F Hf; (destruct fuel as [|fuel]; [lia|]).
  - unfold CRLF in *. rewrite <- !app_assoc in *. rewrite (chunk_step fuel z 0 ([13; 10] ++ rest)); [|assumption|assumption|lia|assumption].
    pose proof (zlen_nn ([13; 10] ++ rest)). destruct (0 <=? zlen _) eqn:E; [|lia]. cbn [Z.to_nat skipn firstn app]. cbv zeta. rewrite !zlen_cons. pose proof (zlen_nn rest). destruct (_ <? 2) eqn:E2; [lia|]. reflexivity.
  - unfold CRLF in *. rewrite <- !app_assoc in *. pose proof (zlen_nn d) as Hdn.
    assert (Hd31 : zlen d < 2 ^ 31). { unfold bfits in F. rewrite !zlen_app in F. pose proof (zlen_nn z). pose proof (zlen_nn w). pose proof (zlen_nn rest). rewrite !zlen_cons, zlen_nil in F. lia. }
    rewrite (chunk_step fuel z (zlen d) (d ++ [13; 10] ++ w ++ rest)); [|assumption|assumption|lia|assumption].
    rewrite zlen_app. pose proof (zlen_nn ([13; 10] ++ w ++ rest)). destruct (zlen d <=? _) eqn:E; [|lia].
    assert (Es : skipn (Z.to_nat (zlen d)) (d ++ [13; 10] ++ w ++ rest) = [13; 10] ++ w ++ rest) by (unfold zlen; rewrite Nat2Z.id; apply skipn_app_exact).
    assert (Ef : firstn (Z.to_nat (zlen d)) (d ++ [13; 10] ++ w ++ rest) = d) by (unfold zlen; rewrite Nat2Z.id; apply firstn_app_exact).
    rewrite Es, Ef. cbv zeta. cbn [app skipn]. rewrite !zlen_cons. pose proof (zlen_nn (w ++ rest)). destruct (_ <? 2) eqn:E2; [lia|]. pose proof (ne_len d Hd). destruct (zlen d =? 0) eqn:E3; [lia|].
    rewrite IH; [rewrite app_assoc; reflexivity| |].
    + unfold bfits in *. rewrite !zlen_app in *. pose proof (zlen_nn z). rewrite !zlen_cons, zlen_nil in F. lia.
    + rewrite !app_length in *. cbn in Hf. lia.
Qed.

(** Any bytes at all: the parsers end, and take away what they hand on. *)
From Coq Require Import String Ascii.
From Verif Require Import Base M_Slice M_Str S_Str M_Uri M_Bytes P_Base P_Bmh P_Str P_Str2 P_Bytes P_Bytes2 P_Bytes3 P_Http.
From Verif Require Import M_Bigint S_Bigint P_BigStr M_Http S_Http S_HttpRun S_Bytes P_Http2 P_Http3.
From Coq Require Import ZifyBool ZifyNat.
Local Notation llen := List.length.


Lemma iterate_shorter bs c r : iterate bs = Some (c, r) -> (llen r < llen bs)%nat.
Proof.
  unfold iterate. destruct bs as [|b bs]; [discriminate|]. intros H.
  repeat match type of H with
  | context [match ?x with _ => _ end] => destruct x eqn:?; try discriminate H
  | (if ?x then _ else _) = _ => destruct x eqn:?; try discriminate H
  end; injection H as <- <-; cbn; lia.
Qed.
Lemma decode_settled fuel : forall bs, (llen bs < fuel)%nat -> settled (decode fuel bs).
Proof.
  induction fuel as [|fuel IH]; intros bs L; [lia|]. cbn [decode]. destruct bs as [|b bs]; [left; eauto|]. destruct (b =? 0); [left; eauto|].
  destruct (iterate (b :: bs)) as [[c r]|] eqn:E; [|right; reflexivity]. apply iterate_shorter in E. destruct (IH r ltac:(cbn in *; lia)) as [(t & ->)| ->]; [left; cbn; eauto|right; reflexivity].
Qed.
Lemma bdecode_settled b : settled (bdecode b).
Proof. apply decode_settled. lia. Qed.
Lemma int_settled t base : settled (int_of t base).
Proof.
  unfold int_of, bigint_of_str. destruct (set_str_dec (cstr (encode t)) base) as [(sgn & b & ds & v & W)| ->]; [|right; reflexivity].
  destruct (written_read _ _ _ _ _ _ W) as (-> & F & N & B & _). rewrite (convert_ok sgn b ds B F N). cbn [bindr]. destruct (_ && _); [left; eauto|right; reflexivity].
Qed.

Lemma split1_any s P : P <> [] -> bfits s -> (bytes_split s P (Some 1) = Ok [s] /\ absent s P) \/ exists a b, s = a ++ P ++ b /\ bytes_split s P (Some 1) = Ok [a; b].
Proof.
  intros Hp F. destruct (bsplit_ok s P (Some 1) Hp F ltac:(discriminate)) as (l & Hl & E). change (limit (Some 1)) with (Some 1%nat) in Hl. inversion Hl as [|? ? Ha|? ? a b l' _ Hs _ Hr]; subst; [left; auto|].
  cbn [option_map pred] in Hr. right. exists a, b. split; [reflexivity|]. rewrite E. inversion Hr as [| |? ? ? ? ? C]; subst; [reflexivity|reflexivity|congruence].
Qed.
Lemma splits_small {A} (P : list A) k X l : splits P k X l -> Forall (fun x => (llen x <= llen X)%nat) l.
Proof.
  induction 1 as [X|k X _|k X a b l _ -> _ _ IH]; [constructor; [lia|constructor]..|]. constructor; [rewrite app_length; lia|]. eapply Forall_impl; [|exact IH]. cbn. intros x. rewrite !app_length. lia.
Qed.
Lemma window_len {A} (s : list A) a b : (llen (window s a b) <= llen s)%nat.
Proof. unfold window. rewrite firstn_length, skipn_length. lia. Qed.
Lemma slice_any s a b : bfits s -> exists r, bytes_getslice s (mkSlice a b None) = Ok r /\ (llen r <= llen s)%nat.
Proof. intros F. rewrite bslice_step1 by assumption. eexists. split; [reflexivity|]. apply window_len. Qed.
Lemma bfits_le (a b : list Z) : (llen a <= llen b)%nat -> bfits b -> bfits a.
Proof. unfold bfits, zlen. lia. Qed.

Section A.
Context (lower : list Z -> list Z).

Lemma headers_settled lines : Forall bfits lines -> forall h, exists o, parse_headers lower lines h = Ok o.
Proof.
  induction 1 as [|l lines Fl Fs IH]; intros h; cbn [parse_headers]; [eauto|].
  destruct (split1_any l [58] ltac:(discriminate) Fl) as [(E & _)|(a & b & _ & E)]; rewrite E; cbn [bindr]; [apply IH|].
  destruct (bdecode_settled a) as [(t & ->)| ->]; [|eauto]. destruct (bdecode_settled b) as [(u & ->)| ->]; [|eauto]. apply IH.
Qed.

Lemma chunks_settled fuel : forall rest body, bfits rest -> (llen rest < fuel)%nat ->
  chunks_loop fuel rest body = Ok None \/ exists body' rest', chunks_loop fuel rest body = Ok (Some (body', rest')) /\ (llen rest' <= llen rest)%nat.
Proof.
  induction fuel as [|fuel IH]; intros rest body F L; [lia|]. cbn [chunks_loop].
  destruct (split1_any rest [13; 10] ltac:(discriminate) F) as [(E & _)|(c0 & c1 & Er & E)]; rewrite E; cbn [bindr]; [auto|].
  assert (Lr : (llen c0 + 2 + llen c1 = llen rest)%nat) by (rewrite Er, !app_length; cbn; lia).
  destruct (bstrip_ok c0 (Some [13; 10])) as (D & K & E' & _ & _ & _ & _ & _ & ->). cbn [bindr]. destruct (bytes_eq K []); [auto|].
  destruct (bdecode_settled K) as [(t & ->)| ->]; [|auto]. assert (F1 : bfits c1) by (eapply bfits_le; [|exact F]; lia).
  destruct (int_settled t (Some 16)) as [(n & ->)| ->].
  - destruct (n <=? zlen c1); [|auto]. unfold upto_, from_. destruct (slice_any c1 None (Some n) F1) as (chunk & -> & _). cbn [bindr]. destruct (slice_any c1 (Some n) None F1) as (r & -> & Lr2). cbn [bindr].
    assert (F2 : bfits r) by (eapply bfits_le; eassumption). destruct (slice_any r (Some 0) (Some 2) F2) as (mark & -> & _). cbn [bindr]. destruct (_ && _); [auto|].
    destruct (slice_any r (Some 2) None F2) as (r2 & -> & Lr3). cbn [bindr]. destruct (n =? 0); [right; eexists _, r2; split; [reflexivity|lia]|].
    destruct (IH r2 (body ++ chunk)) as [Hn|(b' & r' & Hs' & Hl)]; [eapply bfits_le; eassumption|lia|auto|]. right. exists b', r'. split; [assumption|lia].
  - destruct (IH c1 body) as [Hn|(b' & r' & Hs' & Hl)]; [assumption|lia|auto|]. right. exists b', r'. split; [assumption|lia].
Qed.

Lemma body_settled i start h tail : bfits tail ->
  parse_body i start h tail = Ok (None, i) \/ parse_body i start h tail = Exn ValueError \/ exists m rest, parse_body i start h tail = Ok (Some m, rest) /\ (llen rest <= llen tail)%nat.
Proof.
  intros F. unfold parse_body. destruct (dget h (lit "content-length")) as [t|].
  - destruct (int_settled (strip_blanks t) None) as [(n & ->)| ->]; [|auto]. cbn [bindr]. destruct (n <=? zlen tail); [|auto]. unfold upto_, from_.
    destruct (slice_any tail None (Some n) F) as (b & -> & _). cbn [bindr]. destruct (slice_any tail (Some n) None F) as (r & -> & Lr). cbn [bindr]. right; right. eexists _, r. split; [reflexivity|assumption].
  - destruct (dget h (lit "transfer-encoding")) as [t|]; [|right; right; eexists _, tail; split; [reflexivity|lia]].
    destruct (existsb _ _); [|auto]. destruct (chunks_settled (S (llen tail)) tail [] F ltac:(lia)) as [->|(b & r & -> & L)]; cbn [bindr]; [auto|]. right; right. eexists _, r. split; [reflexivity|assumption].
Qed.
Lemma message_settled i : bfits i ->
  parse_message lower i = Ok (None, i) \/ parse_message lower i = Exn ValueError \/ exists m rest, parse_message lower i = Ok (Some m, rest) /\ (llen rest < llen i)%nat.
Proof.
  intros F. unfold parse_message. destruct (split1_any i [13; 10; 13; 10] ltac:(discriminate) F) as [(-> & _)|(hd_ & tail & Ei & ->)]; cbn [bindr]; [auto|].
  assert (Li : (llen hd_ + 4 + llen tail = llen i)%nat) by (rewrite Ei, !app_length; cbn; lia). assert (Fh : bfits hd_) by (eapply bfits_le; [|exact F]; lia).
  destruct (bsplit_ok hd_ [13; 10] None ltac:(discriminate) Fh ltac:(discriminate)) as (l & Hl & ->). cbn [bindr].
  pose proof (splits_small _ _ _ _ Hl) as Sm. destruct (brstrip_ok (hd [] l) (Some [13; 10])) as (K & D & _ & _ & _ & ->). cbn [bindr].
  destruct (headers_settled (tl l)) with (h := @nil (list Z * list Z)) as (o & ->).
  { destruct l as [|x l]; [constructor|]. inversion Sm as [|? ? _ S2]; subst. eapply Forall_impl; [|exact S2]. intros y Hy. exact (bfits_le _ _ Hy Fh). }
  cbn [bindr]. destruct o as [h|]; [|auto]. destruct (body_settled i K h tail) as [->|[->|(m & rest & -> & L)]]; [eapply bfits_le; [|exact F]; lia|auto|auto|].
  right; right. exists m, rest. split; [reflexivity|lia].
Qed.
(** The start line that comes out of it is no longer than the input. *)
Lemma message_start i m rest : bfits i -> parse_message lower i = Ok (Some m, rest) -> bfits (m_start m).
Proof.
  intros F. unfold parse_message. destruct (split1_any i [13; 10; 13; 10] ltac:(discriminate) F) as [(-> & _)|(hd_ & tail & Ei & ->)]; cbn [bindr]; [discriminate|].
  assert (Li : (llen hd_ + 4 + llen tail = llen i)%nat) by (rewrite Ei, !app_length; cbn; lia). assert (Fh : bfits hd_) by (eapply bfits_le; [|exact F]; lia).
  destruct (bsplit_ok hd_ [13; 10] None ltac:(discriminate) Fh ltac:(discriminate)) as (l & Hl & ->). cbn [bindr].
  pose proof (splits_small _ _ _ _ Hl) as Sm. destruct (brstrip_ok (hd [] l) (Some [13; 10])) as (K & D & EK & _ & _ & ->). cbn [bindr].
  destruct (parse_headers lower (tl l) []) as [[h|]| | |]; cbn [bindr]; try discriminate. intros H.
  assert (Es : m_start m = K).
  { unfold parse_body in H. destruct (dget h (lit "content-length")); [|destruct (dget h (lit "transfer-encoding"))].
    - destruct (int_of _ _); cbn [bindr] in H; try discriminate H. destruct (_ <=? _); [|discriminate H]. destruct (upto_ _ _); cbn [bindr] in H; try discriminate H. destruct (from_ _ _); cbn [bindr] in H; try discriminate H. injection H as <- _. reflexivity.
    - destruct (existsb _ _); [|discriminate H]. destruct (chunks_loop _ _ _) as [[[b r]|]| | |]; cbn [bindr] in H; try discriminate H. injection H as <- _. reflexivity.
    - injection H as <- _. reflexivity. }
  rewrite Es. eapply bfits_le; [|exact Fh]. assert (L : (llen (hd [] l) <= llen hd_)%nat) by (destruct Sm as [|y l' Hy Sm']; cbn [hd llen]; [lia|exact Hy]). rewrite EK, app_length in L. lia.
Qed.

Lemma request_settled i : bfits i -> parsed i (parse_request lower i).
Proof.
  intros F. unfold parse_request, parsed. pose proof (message_start i) as Hst. destruct (message_settled i F) as [->|[->|(m & rest & E & L)]]; cbn [bindr]; [auto|auto|].
  specialize (Hst m rest F E). rewrite E. cbn [bindr]. destruct (bsplit_ok (m_start m) [32] None ltac:(discriminate) Hst ltac:(discriminate)) as (l & Hl & ->). cbn [bindr].
  pose proof (splits_small _ _ _ _ Hl) as Sm. destruct l as [|a [|b [|c [|]]]]; auto. destruct (bdecode_settled a) as [(ta & ->)| ->]; [|auto]. destruct (bdecode_settled b) as [(tb & ->)| ->]; [|auto].
  assert (Fc : bfits c) by (inversion Sm as [|? ? _ S1]; inversion S1 as [|? ? _ S2]; inversion S2 as [|? ? S3 _]; subst; exact (bfits_le _ _ S3 Hst)).
  destruct (split1_any c [47] ltac:(discriminate) Fc) as [(-> & _)|(x & y & _ & ->)]; cbn [bindr]; [auto|]. destruct (supported y); [|auto]. right; right; right. eexists _, rest. split; [reflexivity|assumption].
Qed.
Lemma response_settled i : bfits i -> parsed i (parse_response lower i).
Proof.
  intros F. unfold parse_response, parsed. pose proof (message_start i) as Hst. destruct (message_settled i F) as [->|[->|(m & rest & E & L)]]; cbn [bindr]; [auto|auto|].
  specialize (Hst m rest F E). rewrite E. cbn [bindr]. destruct (bsplit_ok (m_start m) [32] None ltac:(discriminate) Hst ltac:(discriminate)) as (l & Hl & ->). cbn [bindr].
  pose proof (splits_small _ _ _ _ Hl) as Sm. destruct l as [|a [|b l]]; auto.
  assert (Fa : bfits a) by (inversion Sm as [|? ? S1 _]; subst; exact (bfits_le _ _ S1 Hst)).
  destruct (split1_any a [47] ltac:(discriminate) Fa) as [(-> & _)|(x & y & _ & ->)]; cbn [bindr]; [auto|]. destruct (supported y); [|auto].
  destruct (bdecode_settled b) as [(tb & ->)| ->]; cbn [bindr]; [|auto]. destruct (int_settled tb None) as [(n & ->)| ->]; [|auto]. right; right; right. eexists _, rest. split; [reflexivity|assumption].
Qed.
Lemma client_loop_settled fuel : forall buf out, bfits buf -> (llen buf < fuel)%nat -> settled (client_loop lower fuel (Client buf out)).
Proof.
  induction fuel as [|fuel IH]; intros buf out F L; [lia|]. cbn [client_loop c_buf c_out]. destruct (response_settled buf F) as [->|[->|[->|(m & rest & -> & L2)]]]; cbn [bindr]; [left; eauto|left; eauto|right; reflexivity|].
  destruct out as [|k out]; [left; eauto|]. destruct (IH rest out) as [((s & es) & ->)| ->]; [eapply bfits_le; [|exact F]; lia|lia|left; cbn; eauto|right; reflexivity].
Qed.
Lemma server_settled s d : bfits (s_buf s ++ d) -> settled (server_receive lower s d).
Proof.
  intros F. unfold server_receive. destruct (s_cb s); cbn [negb]; [|left; eauto]. destruct (request_settled _ F) as [->|[->|[->|(m & rest & -> & L2)]]]; cbn [bindr]; first [left; eauto; fail|right; reflexivity].
Qed.
End A.

(** ** Building. *)
Lemma digit_char n : 0 <= n < 10 -> digit (48 + n) n.
Proof. intros H. unfold digit. lia. Qed.
Lemma sprint_ok fuel : forall n, (0 < fuel)%nat -> 0 <= n < 10 ^ Z.of_nat fuel -> numeral 10 (sprint fuel n) n.
Proof.
  induction fuel as [|fuel IH]; intros n Hf H; [lia|]. cbn [sprint]. destruct (n <? 10) eqn:E; [apply num_one; [apply digit_char; lia|lia]|].
  rewrite (Z.div_mod n 10) at 3 by lia. rewrite (Z.mul_comm 10). pose proof (Z.mod_pos_bound n 10 ltac:(lia)). apply num_more; [|apply digit_char; lia|lia].
  rewrite Nat2Z.inj_succ, Z.pow_succ_r in H by lia. assert (0 < n / 10) by (apply Z.div_str_pos; lia). assert (n / 10 < 10 ^ Z.of_nat fuel) by (apply Z.div_lt_upper_bound; lia).
  apply IH; [destruct fuel; [cbn in *; lia|lia]|lia].
Qed.
Lemma str_nat_ok n : 0 <= n < 2 ^ 63 -> numeral 10 (str_nat n) n.
Proof. intros H. apply sprint_ok; [lia|]. change (10 ^ Z.of_nat 20) with 100000000000000000000. lia. Qed.

(** bytes: lines, slices, order, padding, classes, hexadecimal, tabs. *)
From Verif Require Import Base M_Slice S_Slice M_Str S_Str M_Bytes S_Bytes P_Base P_Bmh P_Str P_Str2 P_Str3 P_Str4 P_Slice P_Str5 P_Bytes P_Bytes2.
From Coq Require Import ZifyBool ZifyNat.
Ltac Zify.zify_post_hook ::= idtac.

(** ** Lines. *)
Lemma blines_loop_ok s keep fuel : forall L W A acc, no_eol L -> s = A ++ L ++ W -> (length W < fuel)%nat ->
  exists r, blines (L ++ W) r /\ blines_loop fuel s keep (zlen A + zlen L) (zlen A) acc = Ok (acc ++ map (bline_of keep) r).
Proof.
  induction fuel as [|fuel IH]; intros L W A acc Hn Hs Hf; [lia|]. cbn [blines_loop].
  assert (Hnb : zlen s = zlen A + zlen L + zlen W) by (rewrite Hs, !zlen_app; lia). rewrite Hnb.
  assert (Hb : bbuf s = A ++ L ++ W ++ [0]) by (unfold bbuf; rewrite Hs, <- !app_assoc; reflexivity).
  pose proof (zlen_nn L). destruct W as [|c W].
  - rewrite zlen_nil. destruct (_ <? _) eqn:E; [lia|]. clear E. rewrite !app_nil_r in *. destruct L as [|c L].
    + rewrite zlen_nil. destruct (_ <? _) eqn:E; [lia|]. exists []. split; [constructor|]. cbn. rewrite app_nil_r. reflexivity.
    + pose proof (ne_len (c :: L) ltac:(discriminate)). destruct (zlen A <? zlen A + zlen (c :: L)) eqn:E; [|lia].
      exists [(c :: L, [])]. split; [constructor; [discriminate|assumption]|]. rewrite Hb.
      replace (zlen A + zlen (c :: L) - zlen A) with (zlen (c :: L)) by lia. cbn [app]. change ([] ++ [0]) with [0]. rewrite (copy_mid A (c :: L) [0]) by reflexivity. cbn [bindr map].
      unfold bline_of. cbn [fst snd]. rewrite app_nil_r. destruct keep; reflexivity.
  - rewrite zlen_cons. pose proof (zlen_nn W). destruct (_ <? _) eqn:E; [|lia]. clear E.
    assert (Hb2 : bbuf s = (A ++ L) ++ c :: W ++ [0]) by (rewrite Hb, <- !app_assoc; reflexivity).
    replace (zlen A + zlen L) with (zlen (A ++ L)) by apply zlen_app.
    assert (Hrd : rd (bbuf s) (zlen (A ++ L)) = Ok c) by (rewrite Hb2; apply rd_at; reflexivity). rewrite Hrd. cbn [bindr].
    destruct (negb (c =? 10) && negb (c =? 13)) eqn:Ebr.
    + destruct (IH (L ++ [c]) W A acc) as (r & Hr & HE).
      { apply Forall_app. split; [assumption|constructor; [lia|constructor]]. }
      { rewrite Hs, <- !app_assoc. reflexivity. } { cbn in Hf. lia. }
      exists r. rewrite <- app_assoc in Hr. split; [exact Hr|]. rewrite !zlen_app in HE. change (zlen [c]) with 1 in HE. rewrite zlen_app.
      replace (zlen A + zlen L + 1) with (zlen A + (zlen L + 1)) by lia. exact HE.
    + set (crlf := (c =? 13) && (hd 0 W =? 10)).
      assert (Hd : exists d, (if c =? 13 then rd (bbuf s) (zlen (A ++ L) + 1) else Ok 0) = Ok d /\ (c =? 13) && (d =? 10) = crlf).
      { unfold crlf. destruct (c =? 13); [|exists 0; auto]. cbn [andb]. rewrite Hb2.
        replace ((A ++ L) ++ c :: W ++ [0]) with (((A ++ L) ++ [c]) ++ W ++ [0]) by (rewrite <- !app_assoc; reflexivity).
        destruct W as [|w W]; [exists 0|exists w]; (split; [apply rd_at; rewrite (zlen_app (A ++ L)); reflexivity|reflexivity]). }
      destruct Hd as (d & -> & Hcr). cbn [bindr]. rewrite Hcr.
      set (e := c :: (if crlf then [10] else [])). set (W' := if crlf then tl W else W).
      assert (EW : c :: W = e ++ W').
      { unfold e, W', crlf. destruct (c =? 13); [|reflexivity]. cbn [andb]. destruct W as [|w W]; [reflexivity|]. cbn [hd tl]. destruct (w =? 10) eqn:E10; [|reflexivity].
        assert (w = 10) by lia. subst w. reflexivity. }
      assert (Hle : eol e).
      { unfold e, eol. destruct crlf eqn:Ecr; [unfold crlf in Ecr; assert (c = 13) by lia; subst c; auto|]. assert (Hcc : c = 10 \/ c = 13) by lia. destruct Hcc; subst c; auto. }
      assert (Hcont : e = [13] -> hd 0 W' <> 10).
      { unfold e, W'. destruct crlf eqn:Ecr; [discriminate|]. intros [= ->]. unfold crlf in Ecr. lia. }
      assert (Hel : zlen e = 1 + (if crlf then 1 else 0)) by (unfold e; destruct crlf; reflexivity).
      destruct (IH [] W' (A ++ L ++ e) (acc ++ [bline_of keep (L, e)])) as (r & Hr & HE).
      { constructor. } { rewrite Hs, EW, <- !app_assoc. reflexivity. } { unfold W'. destruct crlf; cbn in Hf |- *; [destruct W; cbn in *; lia|lia]. }
      exists ((L, e) :: r). split; [rewrite EW; apply blines_cons; assumption|].
      assert (Hline : copy (bbuf s) (zlen A) (zlen (A ++ L) - zlen A + (if keep then 1 + (if crlf then 1 else 0) else 0)) = Ok (bline_of keep (L, e))).
      { unfold bbuf. rewrite Hs, EW. unfold bline_of. cbn [fst snd]. destruct keep.
        - replace ((A ++ L ++ e ++ W') ++ [0]) with (A ++ (L ++ e) ++ W' ++ [0]) by (rewrite <- !app_assoc; reflexivity). apply copy_mid. rewrite !zlen_app. lia.
        - replace ((A ++ L ++ e ++ W') ++ [0]) with (A ++ L ++ (e ++ W' ++ [0])) by (rewrite <- !app_assoc; reflexivity). apply copy_mid. rewrite zlen_app. lia. }
      rewrite Hline. cbn [bindr]. rewrite zlen_nil, Z.add_0_r in HE.
      replace (zlen (A ++ L) + 1 + (if crlf then 1 else 0)) with (zlen (A ++ L ++ e)) by (rewrite !zlen_app; lia).
      rewrite HE. cbn [map]. rewrite <- app_assoc. reflexivity.
Qed.
Lemma bsplitlines_ok s keep : exists r, blines s r /\ bytes_splitlines s keep = Ok (map (bline_of keep) r).
Proof.
  unfold bytes_splitlines. destruct (zlen s =? 0) eqn:E.
  - rewrite (len0 s) by lia. exists []. split; [constructor|reflexivity].
  - destruct (blines_loop_ok s keep (S (length s)) [] s [] []) as (r & Hr & HE); [constructor|reflexivity|lia|]. exists r. split; [exact Hr|exact HE].
Qed.
Lemma blines_concat s r : blines s r -> concat (map (bline_of true) r) = s.
Proof. induction 1; [reflexivity|cbn; rewrite app_nil_r, app_nil_r; reflexivity|]. cbn [map concat]. rewrite IHblines. unfold bline_of. cbn. rewrite <- app_assoc. reflexivity. Qed.

(** ** Elements and slices. *)
Lemma rd_in s i : 0 <= i < zlen s -> rd (bbuf s) i = Ok (nth (Z.to_nat i) s 0).
Proof.
  intros H. destruct (cut s i ltac:(lia)) as (A & B & E & HA). destruct B as [|c B]; [rewrite E, app_nil_r in H; lia|].
  unfold bbuf. rewrite E, <- app_assoc. cbn [app]. rewrite rd_at by lia. f_equal. rewrite <- HA. unfold zlen. rewrite Nat2Z.id, app_nth2, Nat.sub_diag by lia. reflexivity.
Qed.
Lemma bgetitem_ok s i : bytes_getitem s i =
  (if (- zlen s <=? i) && (i <? zlen s) then Ok (nth (Z.to_nat (if i <? 0 then i + zlen s else i)) s 0) else Exn IndexError).
Proof.
  unfold bytes_getitem. pose proof (zlen_nn s). set (j := if i <? 0 then zlen s + i else i).
  destruct ((- zlen s <=? i) && (i <? zlen s)) eqn:E.
  - destruct ((j <? 0) || (zlen s <=? j)) eqn:E2; [unfold j in E2; destruct (i <? 0) eqn:E3; lia|].
    rewrite rd_in by lia. do 2 f_equal. unfold j. destruct (i <? 0); lia.
  - destruct ((j <? 0) || (zlen s <=? j)) eqn:E2; [reflexivity|]. unfold j in E2. destruct (i <? 0) eqn:E3; lia.
Qed.
Lemma prog_S t step n : progression t step (S n) = t :: progression (t + step) step n.
Proof.
  unfold progression. cbn [seq map]. f_equal; [lia|]. rewrite <- seq_shift, map_map. apply map_ext. intros j. lia.
Qed.
Lemma bslice_loop_ok s step : bfits s -> forall n t, (forall j, 0 <= j < Z.of_nat n -> 0 <= t + j * step < zlen s) ->
  bslice_loop n (bbuf s) t step = Ok (at_positions s (progression t step n)).
Proof.
  intros F. induction n as [|n IH]; intros t H; [reflexivity|]. cbn [bslice_loop]. rewrite prog_S. cbn [at_positions].
  pose proof (H 0 ltac:(lia)) as H0. rewrite Z.mul_0_l, Z.add_0_r in H0. rewrite rd_in by assumption. cbn [bindr].
  assert (Hn : nth_error s (Z.to_nat t) = Some (nth (Z.to_nat t) s 0)) by (apply nth_error_nth'; unfold zlen in H0; lia). rewrite Hn.
  destruct n as [|n]; [reflexivity|].
  pose proof (H 1 ltac:(lia)) as H1. rewrite Z.mul_1_l in H1. unfold bfits in F.
  rewrite wrap32 by (unfold is_int; lia). rewrite IH; [reflexivity|]. intros j Hj. specialize (H (j + 1) ltac:(lia)). lia.
Qed.
Lemma bgetslice_ok s sl : bfits s -> slice_ok (length s) sl -> bytes_getslice s sl = py_slice s sl.
Proof.
  intros F Hok. unfold bytes_getslice, py_slice.
  destruct (Z.eq_dec (step_of sl) 0) as [E0|E0].
  { rewrite normalize_step0 by assumption. unfold select. change (match sl_step sl with None => 1 | Some k => k end) with (step_of sl). rewrite E0. reflexivity. }
  destruct (Z_lt_ge_dec 0 (step_of sl)) as [Hp|Hp].
  - destruct (normalize_forward (length s) sl Hp) as (start & stop & slen & Hn & Hsel & Hl & Hst & Hlast). fold (zlen s) in *. rewrite Hn, Hsel. cbn [bindr].
    apply bslice_loop_ok; [assumption|]. intros j Hj. specialize (Hlast ltac:(lia)). assert (0 <= j * step_of sl <= (slen - 1) * step_of sl) by nia. lia.
  - destruct Hok as [|(Hn0 & B1 & B2)]; [lia|].
    destruct (normalize_backward (length s) sl ltac:(lia) B1 B2 Hn0) as (start & stop & slen & Hn & Hsel & Hl & Hst & Hlast). fold (zlen s) in *. rewrite Hn, Hsel. cbn [bindr].
    apply bslice_loop_ok; [assumption|]. intros j Hj. specialize (Hlast ltac:(lia)). assert ((slen - 1) * step_of sl <= j * step_of sl <= 0) by nia. lia.
Qed.

(** ** Order. *)
Lemma beq_ok a : forall b, bytes_eq a b = true <-> a = b.
Proof.
  induction a as [|x a IH]; intros [|y b]; cbn [bytes_eq]; try (split; [discriminate|congruence]); [tauto|].
  rewrite andb_true_iff, IH. split; [intros [H ->]; f_equal; lia|intros [= -> ->]; split; [lia|reflexivity]].
Qed.
Lemma blt_ok a : forall b, bytes_lt a b = true <-> lex_lt a b.
Proof.
  induction a as [|x a IH]; intros [|y b]; cbn [bytes_lt].
  - split; [discriminate|inversion 1].
  - split; [intros _; constructor|reflexivity].
  - split; [discriminate|inversion 1].
  - destruct (x =? y) eqn:E.
    + assert (x = y) by lia. subst y. rewrite IH. split; [apply lex_tail|]. inversion 1; subst; [lia|assumption].
    + split; [intros H; apply lex_head; lia|]. inversion 1; subst; lia.
Qed.

(** ** Classes. *)
Lemma nonempty_ok s : nonempty s = true <-> s <> [].
Proof. destruct s; cbn; split; congruence. Qed.
Lemma class_ok (f : Z -> bool) (P : Z -> Prop) s : (forall c, f c = true <-> P c) -> nonempty s && forallb f s = true <-> s <> [] /\ Forall P s.
Proof. intros H. rewrite andb_true_iff, nonempty_ok, forallb_forall, Forall_forall. split; intros [H1 H2]; (split; [assumption|]); intros c Hc; apply H; auto. Qed.
Lemma islower_loop_ok s : forall h, islower_loop s h = true <-> Forall (fun c => ~ upper_letter c) s /\ (h = true \/ Exists lower_letter s).
Proof.
  unfold upper_letter, lower_letter. induction s as [|c s IH]; intros h; cbn [islower_loop].
  - split; [intros ->; split; [constructor|auto]|]. intros [_ [H|H]]; [assumption|inversion H].
  - unfold in_range at 1. destruct ((65 <=? c) && (c <=? 90)) eqn:E.
    + split; [discriminate|]. intros [H _]. apply Forall_inv in H. lia.
    + rewrite IH, Forall_cons_iff, Exists_cons, orb_true_iff. unfold in_range. split; intros [H1 H2]; split; try tauto; try (split; [lia|assumption]).
      * destruct H2 as [[H2|H2]|H2]; [auto|right; left; lia|auto].
      * destruct H2 as [H2|[H2|H2]]; [auto|left; right; lia|auto].
Qed.
Lemma isupper_never s : bytes_isupper s = false.
Proof.
  unfold bytes_isupper. induction s as [|c s IH]; [reflexivity|]. cbn [isupper_loop]. destruct (in_range c 97 122) eqn:E; [reflexivity|exact IH].
Qed.
Lemma tolower_ok c : small_of c (tolower c).
Proof. unfold small_of, tolower, upper_letter, in_range. destruct ((65 <=? c) && (c <=? 90)) eqn:E; [left|right]; lia. Qed.
Lemma toupper_ok c : capital_of c (toupper c).
Proof. unfold capital_of, toupper, lower_letter, in_range. destruct ((97 <=? c) && (c <=? 122)) eqn:E; [left|right]; lia. Qed.

(** ** Hexadecimal. *)
Lemma hex_digit_ok v c : hexdigit v c <-> hex_digit c = Some v.
Proof.
  unfold hexdigit, hex_digit, in_range. destruct ((48 <=? c) && (c <=? 57)) eqn:E1; [split; [intros; f_equal; lia|intros [= <-]; lia]|].
  destruct ((97 <=? c) && (c <=? 102)) eqn:E2; [split; [intros; f_equal; lia|intros [= <-]; lia]|].
  destruct ((65 <=? c) && (c <=? 70)) eqn:E3; [split; [intros; f_equal; lia|intros [= <-]; lia]|]. split; [lia|discriminate].
Qed.
Lemma hex_of_even s t : hex_of s t -> Nat.odd (length t) = false.
Proof. induction 1; [reflexivity|]. cbn. exact IHhex_of. Qed.
Lemma hex_pairs_ok s t : hex_of s t -> hex_pairs t = Ok s.
Proof.
  induction 1 as [|h l ch cl s t Hh Hl H IH]; [reflexivity|]. cbn [hex_pairs]. apply hex_digit_ok in Hh, Hl. rewrite Hh, Hl, IH. cbn [bindr]. do 2 f_equal. lia.
Qed.
Lemma hex_pairs_inv : forall n t s, (length t <= n)%nat -> Nat.odd (length t) = false -> hex_pairs t = Ok s -> hex_of s t.
Proof.
  induction n as [|n IH]; intros t s Hn Ho Hs.
  - destruct t; [|cbn in Hn; lia]. cbn in Hs. injection Hs as <-. constructor.
  - destruct t as [|ch [|cl t]]; [cbn in Hs; injection Hs as <-; constructor|discriminate|]. cbn [hex_pairs] in Hs.
    destruct (hex_digit ch) as [h|] eqn:Eh; [|discriminate]. destruct (hex_digit cl) as [l|] eqn:El; [|discriminate].
    destruct (hex_pairs t) as [r| | |] eqn:Er; try discriminate. cbn [bindr] in Hs. injection Hs as <-.
    replace (h * 16 + l) with (16 * h + l) by lia. constructor; [apply hex_digit_ok; assumption..|]. apply IH; [cbn in Hn; lia|cbn in Ho; exact Ho|assumption].
Qed.
Lemma hex_pairs_err : forall n t, (length t <= n)%nat -> hex_pairs t = Exn ValueError \/ exists s, hex_pairs t = Ok s.
Proof.
  induction n as [|n IH]; intros t Hn.
  - destruct t; [|cbn in Hn; lia]. right. exists []. reflexivity.
  - destruct t as [|ch [|cl t]]; [right; eexists; reflexivity..|]. cbn [hex_pairs].
    destruct (hex_digit ch); [|auto]. destruct (hex_digit cl); [|auto]. destruct (IH t ltac:(cbn in Hn; lia)) as [->|(s & ->)]; [auto|right; eexists; reflexivity].
Qed.
Lemma from_hex_ok t : (exists s, hex_of s t /\ bytes_from_hex t = Ok s) \/ ((forall s, ~ hex_of s t) /\ bytes_from_hex t = Exn ValueError).
Proof.
  unfold bytes_from_hex. destruct (Nat.odd (length t)) eqn:E.
  - right. split; [|reflexivity]. intros s H. apply hex_of_even in H. congruence.
  - destruct (hex_pairs_err (length t) t (le_n _)) as [H|(s & H)].
    + right. split; [|assumption]. intros s Hs. apply hex_pairs_ok in Hs. congruence.
    + left. exists s. split; [|assumption]. exact (hex_pairs_inv (length t) t s (le_n _) E H).
Qed.
Lemma hex_table v : 0 <= v < 16 -> hexdigit v (nth (Z.to_nat v) HEX 0).
Proof.
  intros H. assert (Hv : v = 0 \/ v = 1 \/ v = 2 \/ v = 3 \/ v = 4 \/ v = 5 \/ v = 6 \/ v = 7 \/ v = 8 \/ v = 9 \/ v = 10 \/ v = 11 \/ v = 12 \/ v = 13 \/ v = 14 \/ v = 15) by lia.
  clear H. repeat (destruct Hv as [-> | Hv]; [(left; split; [lia|reflexivity]) || (right; split; [lia|left; reflexivity])|]). subst v. right. split; [lia|left; reflexivity].
Qed.
Lemma hex_buffer_ok s : bytes_of s -> hex_of s (hex_buffer s).
Proof.
  induction 1 as [|c s Hc H IH]; [constructor|]. unfold hex_buffer. cbn [flat_map app]. unfold byte in Hc.
  replace c with (16 * (c / 16) + c mod 16) at 1 by (rewrite <- Z_div_mod_eq_full; reflexivity).
  constructor; [apply hex_table|apply hex_table|exact IH].
  - split; [apply Z.div_pos; lia|apply Z.div_lt_upper_bound; lia].
  - apply Z.mod_pos_bound. lia.
Qed.
Lemma hexdigit_nz v c : hexdigit v c -> c <> 0.
Proof. unfold hexdigit. lia. Qed.
(** hex never comes to an end inside its buffer. *)
Lemma read_past b : forall n A, Forall (fun c => c <> 0) b -> (length b < n)%nat -> read_string n (A ++ b) (zlen A) = UB.
Proof.
  induction b as [|c b IH]; intros n A H Hn; (destruct n as [|n]; [lia|]); cbn [read_string].
  - rewrite app_nil_r. unfold rd. rewrite zget_nat by apply zlen_nn. unfold zlen. rewrite Nat2Z.id, (proj2 (nth_error_None A (length A))) by lia. reflexivity.
  - rewrite rd_at by reflexivity. cbn [bindr]. apply Forall_cons_iff in H. destruct H as [Hc H]. destruct (c =? 0) eqn:E; [lia|].
    replace (A ++ c :: b) with ((A ++ [c]) ++ b) by (rewrite <- app_assoc; reflexivity). replace (zlen A + 1) with (zlen (A ++ [c])) by (rewrite zlen_app; reflexivity).
    rewrite IH; [reflexivity|assumption|cbn in Hn; lia].
Qed.

(** ** Tabs. *)
Lemma btabs_loop_ok tab W : forall A pos ex out, Forall (fun c => 0 <= c < 128) W -> 0 < tab -> 0 <= pos ->
  exists ex', btabs_loop (length W) (A ++ W ++ [0]) (zlen A) pos ex tab out = Ok (ex', out ++ bexpanded tab pos W) /\
    ex' = ex + (zlen (bexpanded tab pos W) - zlen W) /\ zlen (bexpanded tab pos W) <= tab * zlen W.
Proof.
  induction W as [|x W IH]; intros A pos ex out H Ht Hp; cbn [length btabs_loop bexpanded].
  - exists ex. rewrite app_nil_r, !zlen_nil. repeat split; lia.
  - apply Forall_cons_iff in H. destruct H as [Hx HW]. cbn [app]. rewrite rd_at by reflexivity. cbn [bindr].
    replace (A ++ x :: W ++ [0]) with ((A ++ [x]) ++ W ++ [0]) by (rewrite <- app_assoc; reflexivity).
    replace (zlen A + 1) with (zlen (A ++ [x])) by (rewrite zlen_app; reflexivity). rewrite zlen_cons.
    destruct (x =? 9) eqn:E9.
    + rewrite Z.rem_mod_nonneg by lia. set (k := tab - pos mod tab).
      assert (Hk : 1 <= k <= tab) by (unfold k; pose proof (Z.mod_pos_bound pos tab Ht); lia).
      destruct (IH (A ++ [x]) (pos + k) (ex + (k - 1)) (out ++ repeat 32 (Z.to_nat k)) HW Ht ltac:(lia)) as (ex' & -> & He & Hl).
      exists ex'. rewrite zlen_app, zlen_rep, <- app_assoc. split; [reflexivity|]. split; [lia|nia].
    + rewrite zlen_cons. destruct ((x =? 10) || (x =? 13)) eqn:Enl.
      * destruct (IH (A ++ [x]) 0 ex (out ++ [x]) HW Ht ltac:(lia)) as (ex' & -> & He & Hl).
        exists ex'. rewrite <- app_assoc. split; [reflexivity|]. split; [lia|nia].
      * assert (Htc : btab_chars 5 ((A ++ [x]) ++ W ++ [0]) (zlen A) 0 pos out = Ok (zlen (A ++ [x]), pos + 1, out ++ [x])).
        { assert (B1 : forall y, 0 <= y < 128 -> byte_length2 y = 1) by (intros y Hy; unfold byte_length2; destruct (y <? 128) eqn:E; lia).
          cbn [btab_chars]. rewrite <- app_assoc at 1. cbn [app]. rewrite rd_at by reflexivity. cbn [bindr]. rewrite (B1 x Hx). cbn [Z.ltb Z.compare].
          replace (zlen A + 1) with (zlen (A ++ [x])) by (rewrite zlen_app; reflexivity).
          assert (Hn : exists y, rd ((A ++ [x]) ++ W ++ [0]) (zlen (A ++ [x])) = Ok y /\ byte_length2 y = 1).
          { destruct W as [|y W]; [exists 0; split; [apply rd_at; reflexivity|reflexivity]|]. apply Forall_inv in HW.
            exists y. split; [apply rd_at; reflexivity|apply B1; assumption]. }
          destruct Hn as (y & -> & Hy). cbn [bindr]. rewrite Hy. reflexivity. }
        rewrite Htc. cbn [bindr]. destruct (IH (A ++ [x]) (pos + 1) ex (out ++ [x]) HW Ht ltac:(lia)) as (ex' & -> & He & Hl).
        exists ex'. rewrite <- app_assoc. split; [reflexivity|]. split; [lia|nia].
Qed.
Lemma bexpandtabs_ok s t : Forall (fun c => 0 <= c < 128) s -> is_int t ->
  bytes_expandtabs s t = Ok (bexpanded (if t <=? 0 then 1 else t) 0 s).
Proof.
  intros H Ht. unfold bytes_expandtabs. destruct s as [|c s]; [reflexivity|]. set (s' := c :: s) in *. rewrite wrap32 by assumption.
  set (tab := if t <=? 0 then 1 else t). assert (Hp : 0 < tab) by (unfold tab; destruct (t <=? 0) eqn:E; lia).
  destruct (btabs_loop_ok tab s' [] 0 0 [] H Hp ltac:(lia)) as (ex & HL & He & Hl). cbn [app] in HL. change (zlen (@nil Z)) with 0 in HL. unfold bbuf.
  rewrite HL. cbn [bindr]. destruct (_ <? _) eqn:E; [lia|]. pose proof (copy_mid [] (bexpanded tab 0 s') [] (zlen s' + ex)) as C1. rewrite app_nil_r in C1. apply C1. lia.
Qed.

(** ** Padding. *)
Lemma bcenter_ok s w o c : is_int w -> bfill o = [c] ->
  bytes_center s w o = Ok (repeat c (Z.to_nat ((w - zlen s) / 2)) ++ s ++ repeat c (Z.to_nat (w - zlen s - (w - zlen s) / 2))).
Proof.
  intros Hw Ho. unfold bytes_center. rewrite Ho, wrap32 by assumption. destruct (w <=? zlen s) eqn:E.
  - assert (Hd : (w - zlen s) / 2 <= 0) by (apply Z.div_le_upper_bound; lia). assert (Hd2 : w - zlen s <= (w - zlen s) / 2 * 2 + 1 <= w - zlen s + 1).
    { pose proof (Z_div_mod_eq_full (w - zlen s) 2). pose proof (Z.mod_pos_bound (w - zlen s) 2). lia. }
    replace (Z.to_nat ((w - zlen s) / 2)) with O by lia. replace (Z.to_nat (w - zlen s - (w - zlen s) / 2)) with O by lia. cbn. rewrite app_nil_r. reflexivity.
  - rewrite Z.quot_div_nonneg by lia. reflexivity.
Qed.
Lemma bljust_ok s w o c : is_int w -> bfill o = [c] -> bytes_ljust s w o = Ok (s ++ repeat c (Z.to_nat (w - zlen s))).
Proof.
  intros Hw Ho. unfold bytes_ljust. rewrite Ho, wrap32 by assumption. destruct (w <=? zlen s) eqn:E; [|reflexivity].
  replace (Z.to_nat (w - zlen s)) with O by lia. cbn. rewrite app_nil_r. reflexivity.
Qed.
Lemma brjust_ok s w o c : is_int w -> bfill o = [c] -> bytes_rjust s w o = Ok (repeat c (Z.to_nat (w - zlen s)) ++ s).
Proof.
  intros Hw Ho. unfold bytes_rjust. rewrite Ho, wrap32 by assumption. destruct (w <=? zlen s) eqn:E; [|reflexivity].
  replace (Z.to_nat (w - zlen s)) with O by lia. reflexivity.
Qed.
Lemma bzfill_ok s w : is_int w -> exists sign rest, s = sign ++ rest /\
  (if (hd 0 s =? 43) || (hd 0 s =? 45) then zlen sign = 1 else sign = []) /\
  bytes_zfill s w = Ok (sign ++ repeat 48 (Z.to_nat (w - zlen s)) ++ rest).
Proof.
  intros Hw. unfold bytes_zfill. rewrite wrap32 by assumption. destruct s as [|c s].
  - exists [], []. split; [reflexivity|]. split; [reflexivity|]. destruct (w - zlen [] <? 0) eqn:E; [replace (Z.to_nat (w - zlen (@nil Z))) with O by lia; reflexivity|].
    change (rd (bbuf []) 0) with (@Ok Z 0). cbn [bindr Z.eqb orb]. change (copy (bbuf []) 0 0) with (@Ok (list Z) []). change (copy (bbuf []) 0 (zlen (@nil Z) - 0)) with (@Ok (list Z) []). reflexivity.
  - cbn [hd]. destruct ((c =? 43) || (c =? 45)) eqn:Es.
    + exists [c], s. split; [reflexivity|]. split; [reflexivity|]. destruct (w - zlen (c :: s) <? 0) eqn:E; [replace (Z.to_nat (w - zlen (c :: s))) with O by lia; reflexivity|].
      change (rd (bbuf (c :: s)) 0) with (@Ok Z c). cbn [bindr]. rewrite Es.
      rewrite (copy_mid' [] [c] (s ++ [0]) 0 1 eq_refl eq_refl : copy (bbuf (c :: s)) 0 1 = Ok [c]). cbn [bindr].
      rewrite (copy_mid' [c] s [0] 1 (zlen (c :: s) - 1) eq_refl ltac:(rewrite zlen_cons; lia) : copy (bbuf (c :: s)) 1 _ = Ok s). reflexivity.
    + exists [], (c :: s). split; [reflexivity|]. split; [reflexivity|]. destruct (w - zlen (c :: s) <? 0) eqn:E; [replace (Z.to_nat (w - zlen (c :: s))) with O by lia; reflexivity|].
      change (rd (bbuf (c :: s)) 0) with (@Ok Z c). cbn [bindr]. rewrite Es.
      rewrite (copy_mid' [] [] (bbuf (c :: s)) 0 0 eq_refl eq_refl : copy (bbuf (c :: s)) 0 0 = Ok []). cbn [bindr].
      rewrite (copy_mid' [] (c :: s) [0] 0 (zlen (c :: s) - 0) eq_refl ltac:(lia) : copy (bbuf (c :: s)) 0 _ = _). reflexivity.
Qed.
Lemma binit_ok l : Forall is_int l ->
  bytes_init l = (if forallb (fun x => (0 <=? x) && (x <=? 255)) l then Ok l else Exn ValueError).
Proof.
  induction 1 as [|x l Hx H IH]; [reflexivity|]. cbn [bytes_init forallb]. rewrite wrap32 by assumption. destruct ((0 <=? x) && (x <=? 255)) eqn:E; [|reflexivity].
  rewrite IH. cbn [andb]. destruct (forallb _ l); reflexivity.
Qed.

(** Lines, concatenation, padding, comparison, tabs. *)
From Verif Require Import Base M_Slice S_Slice M_Str S_Str P_Base P_Bmh P_Str P_Str2 P_Str3.
From Coq Require Import ZifyBool ZifyNat.

(** ** Lines. *)

Lemma break_char c : uchar c -> islinebreak (hd 0 c) = true ->
  exists x, c = [x] /\ line_end [[x]] /\ islinebreak x = true.
Proof.
  intros Hc Hb. destruct c as [|x t]; [destruct (uchar_ne _ Hc eq_refl)|]. cbn [hd] in Hb.
  pose proof (bl2 _ Hc) as Hl. cbn [hd] in Hl. unfold byte_length2 in Hl. unfold islinebreak in Hb.
  destruct (x <? 128) eqn:E; [|lia]. assert (t = []) by (destruct t; [reflexivity|rewrite !zlen_cons in Hl; pose proof (zlen_nn t); lia]).
  subst t. exists x. split; [reflexivity|]. split; [|unfold islinebreak; lia].
  assert (H : x = 10 \/ x = 11 \/ x = 12 \/ x = 13 \/ x = 28 \/ x = 29 \/ x = 30) by lia.
  unfold line_end. decompose [or] H; subst x; tauto.
Qed.
Lemma nobreak_char c : uchar c -> islinebreak (hd 0 c) = false -> no_break [c].
Proof.
  intros Hc Hb. constructor; [|constructor]. repeat split; intros ->; cbn in Hb; discriminate.
Qed.
Lemma text_line_end e : line_end e -> text e.
Proof. unfold line_end. intros H. decompose [or] H; subst e; repeat constructor; cbn; lia. Qed.

Lemma lines_loop_ok s keep fuel : forall L W A acc, text L -> text W -> fits (L ++ W) -> no_break L ->
  buf s = A ++ concat L ++ concat W ++ [0] -> (length W < fuel)%nat ->
  exists r, lines (L ++ W) r /\
    lines_loop fuel s keep (zlen A + zlen (concat L)) (zlen A) (zlen L) acc = Ok (acc ++ map (line_of keep) r).
Proof.
  induction fuel as [|fuel IH]; intros L W A acc HL HW F Hn Hb Hf; [lia|]. cbn [lines_loop].
  assert (Hnb : nbytes s = zlen A + zlen (concat L) + zlen (concat W)).
  { unfold nbytes. pose proof (f_equal zlen Hb) as El. unfold buf in El. rewrite !zlen_app in El. lia. }
  rewrite Hnb. pose proof (zlen_concat W HW). pose proof (zlen_concat L HL). destruct W as [|c W].
  - cbn [concat]. rewrite zlen_nil. destruct (_ <? _) eqn:E; [lia|]. clear E. rewrite !app_nil_r in *.
    destruct L as [|c L].
    + cbn [concat]. rewrite zlen_nil. destruct (_ <? _) eqn:E; [lia|]. exists []. split; [constructor|]. cbn. rewrite app_nil_r. reflexivity.
    + rewrite zlen_cons in *. pose proof (zlen_nn L). destruct (zlen A <? zlen A + zlen (concat (c :: L))) eqn:E; [|lia].
      exists [(c :: L, [])]. split; [constructor; [discriminate|assumption]|]. rewrite Hb.
      replace (zlen A + zlen (concat (c :: L)) - zlen A) with (zlen (concat (c :: L))) by lia. rewrite copy_mid by reflexivity. cbn [bindr].
      rewrite new_ok; [|assumption|exact F|rewrite zlen_cons; lia]. cbn. unfold line_of. cbn [fst snd]. rewrite app_nil_r. destruct keep; reflexivity.
  - apply text_cons in HW. destruct HW as [Hc HW]. rewrite zlen_cons in *. pose proof (zlen_nn W).
    destruct (_ <? _) eqn:E; [|lia]. clear E. cbn [concat] in Hb |- *.
    assert (Hb2 : buf s = (A ++ concat L) ++ c ++ concat W ++ [0]) by (rewrite Hb, <- !app_assoc; reflexivity).
    rewrite Hb2. replace (zlen A + zlen (concat L)) with (zlen (A ++ concat L)) by apply zlen_app.
    rewrite rd_char by assumption. cbn [bindr].
    destruct (islinebreak (hd 0 c)) eqn:Ebr; cbn [negb].
    + destruct (break_char c Hc Ebr) as (x & -> & Hle & Hx). cbn [hd].
      (* the next byte *)
      set (crlf := (x =? 13) && match W with [10] :: _ => true | _ => false end).
      assert (Hd : exists d, (if x =? 13 then rd ((A ++ concat L) ++ [x] ++ concat W ++ [0]) (zlen (A ++ concat L) + 1) else Ok 0) = Ok d /\ (x =? 13) && (d =? 10) = crlf).
      { unfold crlf. destruct (x =? 13); [|exists 0; auto]. cbn [andb]. rewrite app_assoc.
        replace (zlen (A ++ concat L) + 1) with (zlen ((A ++ concat L) ++ [x])) by (rewrite (zlen_app (A ++ concat L)); reflexivity).
        destruct W as [|c W]; [exists 0; split; [apply rd_at; reflexivity|reflexivity]|]. apply text_cons in HW. destruct HW as [Hc2 HW].
        cbn [concat]. exists (hd 0 c). split; [rewrite <- (app_assoc c); apply rd_char; assumption|].
        destruct (hd 0 c =? 10) eqn:E10.
        - assert (Hbr : islinebreak (hd 0 c) = true) by (unfold islinebreak; lia). destruct (break_char c Hc2 Hbr) as (y & -> & _).
          cbn in E10. assert (y = 10) by lia. subst y. reflexivity.
        - destruct c as [|y [|z t]]; try reflexivity; cbn in E10; destruct y as [|y|y]; try reflexivity;
          repeat (destruct y as [y|y|]; try reflexivity; try discriminate). }
      destruct Hd as (d & Hd & Hcr). cbn [app] in Hd |- *. rewrite Hd. cbn [bindr]. rewrite Hcr.
      set (e := @cons char [x] (if crlf then [[10]] else [])). set (W' := if crlf then tl W else W).
      assert (EW : @cons char [x] W = @app char e W').
      { unfold e, W', crlf. destruct (x =? 13); [|reflexivity]. cbn [andb]. destruct W as [|c W]; [reflexivity|].
        destruct c as [|y [|z t]]; try reflexivity; destruct y as [|y|y]; try reflexivity; repeat (destruct y as [y|y|]; try reflexivity). }
      assert (Hle2 : line_end e).
      { unfold e. destruct crlf eqn:Ecr; [|assumption]. unfold crlf in Ecr. assert (x = 13) by lia. subst x. unfold line_end. tauto. }
      assert (Hcont : e = [[13]] -> match W' with [10] :: _ => False | _ => True end).
      { unfold e, W'. destruct crlf eqn:Ecr; [discriminate|]. intros [= ->]. unfold crlf in Ecr. cbn [Z.eqb Pos.eqb andb] in Ecr.
        destruct W as [|c W]; [exact I|]. destruct c as [|y [|z t]]; try exact I; destruct y as [|y|y]; try exact I; repeat (destruct y as [y|y|]; try exact I; try discriminate). }
      assert (HWl : zlen (concat e) = 1 + (if crlf then 1 else 0) /\ zlen e = 1 + (if crlf then 1 else 0)) by (unfold e; destruct crlf; split; reflexivity).
      assert (HTW : text W') by (unfold W'; destruct crlf; [destruct W; [assumption|apply text_cons in HW; tauto]|assumption]).
      assert (Eb3 : buf s = A ++ concat L ++ concat e ++ concat W' ++ [0]).
      { rewrite Hb. f_equal. f_equal. change ([x] ++ concat W) with (concat (@cons char [x] W)). rewrite EW, concat_app, <- app_assoc. reflexivity. }
      assert (FF : fits (L ++ e) /\ fits W').
      { rewrite EW, app_assoc in F. apply fits_app in F. tauto. }
      destruct (IH [] W' (A ++ concat L ++ concat e) (acc ++ [line_of keep (L, e)])) as (r & Hr & HE).
      { constructor. } { assumption. } { apply FF. } { constructor. }
      { rewrite Eb3. cbn [concat app]. rewrite <- !app_assoc. reflexivity. }
      { unfold W'. destruct crlf; cbn in Hf |- *; [destruct W; cbn in *; lia|lia]. }
      exists ((L, e) :: r). split; [rewrite EW; apply lines_cons; assumption|].
      set (ex := if keep then 1 + (if crlf then 1 else 0) else 0).
      assert (Hline : (do bs <- copy (buf s) (zlen A) (zlen (A ++ concat L) - zlen A + ex); new_str (zlen L + ex) bs) = Ok (line_of keep (L, e))).
      { rewrite Eb3. unfold ex, line_of. cbn [fst snd]. destruct keep.
        - replace (zlen (A ++ concat L) - zlen A + (1 + (if crlf then 1 else 0))) with (zlen (concat (L ++ e))) by (rewrite concat_app, !zlen_app; lia).
          replace (A ++ concat L ++ concat e ++ concat W' ++ [0]) with (A ++ concat (L ++ e) ++ concat W' ++ [0]) by (rewrite concat_app, <- !app_assoc; reflexivity).
          rewrite copy_mid by reflexivity. cbn [bindr]. apply new_ok; [apply text_app; split; [assumption|apply text_line_end; assumption]|apply FF|rewrite zlen_app; lia].
        - replace (zlen (A ++ concat L) - zlen A + 0) with (zlen (concat L)) by (rewrite zlen_app; lia). rewrite copy_mid by reflexivity. cbn [bindr].
          apply new_ok; [assumption| |lia]. destruct FF as [FF _]. apply fits_app in FF. apply FF. }
      rewrite Hb2 in Hline. cbn [app] in Hline. destruct (copy _ _ _) as [bs| | |] eqn:Ecp; try discriminate. cbn [bindr] in Hline |- *.
      rewrite Hline. cbn [bindr]. cbn [concat] in HE. rewrite zlen_nil, Z.add_0_r in HE. change (zlen (@nil char)) with 0 in HE.
      replace (zlen (A ++ concat L) + 1 + (if crlf then 1 else 0)) with (zlen (A ++ concat L ++ concat e)) by (rewrite !zlen_app; lia).
      rewrite HE. cbn [map]. rewrite <- app_assoc. reflexivity.
    + rewrite bl2 by assumption.
      destruct (IH (L ++ [c]) W A acc) as (r & Hr & HE).
      { apply text_app. split; [assumption|constructor; [assumption|constructor]]. } { assumption. } { rewrite <- app_assoc. exact F. }
      { apply Forall_app. split; [assumption|apply nobreak_char; assumption]. }
      { rewrite Hb, concat_app. cbn [concat]. rewrite app_nil_r, <- !app_assoc. reflexivity. }
      { cbn in Hf. lia. }
      exists r. rewrite <- app_assoc in Hr. split; [exact Hr|]. rewrite concat_app in HE. cbn [concat] in HE. rewrite app_nil_r in HE.
      rewrite zlen_app. rewrite !zlen_app in HE. change (zlen [c]) with 1 in HE. replace (zlen A + zlen (concat L) + zlen c) with (zlen A + (zlen (concat L) + zlen c)) by lia.
      exact HE.
Qed.
Lemma splitlines_ok cs keep : text cs -> fits cs ->
  exists r, lines cs r /\ str_splitlines (ustr cs) keep = Ok (map (line_of keep) r).
Proof.
  intros H F. unfold str_splitlines. change (nbytes (ustr cs)) with (zlen (concat cs)). destruct (zlen (concat cs) =? 0) eqn:E.
  - assert (cs = []). { apply concat_nil; [assumption|]. destruct (concat cs); [reflexivity|]. rewrite zlen_cons in E. pose proof (zlen_nn l). lia. }
    subst cs. exists []. split; [constructor|reflexivity].
  - destruct (lines_loop_ok (ustr cs) keep (S (Z.to_nat (zlen (concat cs)))) [] cs [] []) as (r & Hr & HE).
    { constructor. } { assumption. } { exact F. } { constructor. } { reflexivity. } { pose proof (zlen_concat cs H). unfold zlen in *. lia. }
    exists r. split; [exact Hr|]. exact HE.
Qed.

(** ** Concatenation. *)
Lemma add_ok a b : text a -> text b -> fits (a ++ b) -> str_add (ustr a) (ustr b) = Ok (ustr (a ++ b)).
Proof.
  intros Ha Hb F. unfold str_add. cbn [nchars sbytes ustr]. rewrite <- concat_app, <- zlen_app. apply new_ok; [apply text_app; auto|exact F|reflexivity].
Qed.
Lemma concat_repeat (a : list char) n : concat (repeat (concat a) n) = concat (concat (repeat a n)).
Proof. induction n as [|n IH]; [reflexivity|]. cbn. rewrite IH, concat_app. reflexivity. Qed.
Lemma zlen_repeat {A} (a : list A) n : zlen (concat (repeat a n)) = Z.of_nat n * zlen a.
Proof. induction n as [|n IH]; [reflexivity|]. cbn [repeat concat]. rewrite zlen_app, IH. lia. Qed.
Lemma text_repeat a n : text a -> text (concat (repeat a n)).
Proof. intros H. induction n as [|n IH]; [constructor|]. cbn. apply text_app. auto. Qed.
Lemma mul_ok a n : text a -> fits (concat (repeat a (Z.to_nat n))) -> str_mul (ustr a) n = Ok (ustr (concat (repeat a (Z.to_nat n)))).
Proof.
  intros H F. unfold str_mul. destruct (n <=? 0) eqn:E.
  - replace (Z.to_nat n) with O by lia. reflexivity.
  - cbn [nchars sbytes ustr]. rewrite concat_repeat. apply new_ok; [apply text_repeat; assumption|exact F|]. rewrite zlen_repeat. lia.
Qed.

(** ** Padding. *)
Lemma pad_ok c n : pad_bytes (ustr [c]) n = concat (repeat c (Z.to_nat n)).
Proof. unfold pad_bytes. cbn [sbytes ustr concat]. rewrite app_nil_r. reflexivity. Qed.
Lemma zlen_rep {A} (x : A) n : zlen (repeat x n) = Z.of_nat n.
Proof. unfold zlen. rewrite repeat_length. reflexivity. Qed.
Lemma text_rep c n : uchar c -> text (repeat c n).
Proof. intros H. induction n; constructor; assumption. Qed.
Lemma fill_ok o : fill_char (option_map (fun c => ustr [c]) o) = ustr [fill_of o].
Proof. destruct o; reflexivity. Qed.

Lemma ljust_ok cs w o : text cs -> is_int w -> uchar (fill_of o) ->
  let r := cs ++ repeat (fill_of o) (Z.to_nat (w - zlen cs)) in
  fits r -> str_ljust (ustr cs) w (option_map (fun c => ustr [c]) o) = Ok (ustr r).
Proof.
  intros H Hw Hf r F. unfold str_ljust. rewrite fill_ok, wrap32 by assumption. cbn [nchars ustr]. change (negb (zlen [fill_of o] =? 1)) with false. cbv iota.
  destruct (w <=? zlen cs) eqn:E.
  - unfold r. replace (Z.to_nat (w - zlen cs)) with O by lia. cbn [repeat]. rewrite app_nil_r. reflexivity.
  - fold (ustr [fill_of o]). rewrite pad_ok. change (sbytes (ustr cs)) with (concat cs). 
  rewrite <- concat_app. apply new_ok; [apply text_app; split; [assumption|apply text_rep; assumption]|exact F|].
    unfold r. rewrite zlen_app, zlen_rep. lia.
Qed.
Lemma rjust_ok cs w o : text cs -> is_int w -> uchar (fill_of o) ->
  let r := repeat (fill_of o) (Z.to_nat (w - zlen cs)) ++ cs in
  fits r -> str_rjust (ustr cs) w (option_map (fun c => ustr [c]) o) = Ok (ustr r).
Proof.
  intros H Hw Hf r F. unfold str_rjust. rewrite fill_ok, wrap32 by assumption. cbn [nchars ustr]. change (negb (zlen [fill_of o] =? 1)) with false. cbv iota.
  destruct (w <=? zlen cs) eqn:E.
  - unfold r. replace (Z.to_nat (w - zlen cs)) with O by lia. reflexivity.
  - fold (ustr [fill_of o]). rewrite pad_ok. change (sbytes (ustr cs)) with (concat cs). rewrite <- concat_app. apply new_ok; [apply text_app; split; [apply text_rep; assumption|assumption]|exact F|].
    unfold r. rewrite zlen_app, zlen_rep. lia.
Qed.
Lemma center_ok cs w o : text cs -> is_int w -> uchar (fill_of o) ->
  let pad := Z.max 0 (w - zlen cs) in
  let r := repeat (fill_of o) (Z.to_nat (pad / 2)) ++ cs ++ repeat (fill_of o) (Z.to_nat (pad - pad / 2)) in
  fits r -> str_center (ustr cs) w (option_map (fun c => ustr [c]) o) = Ok (ustr r).
Proof.
  intros H Hw Hf pad r F. unfold str_center. rewrite fill_ok, wrap32 by assumption. cbn [nchars ustr]. change (negb (zlen [fill_of o] =? 1)) with false. cbv iota.
  destruct (w <=? zlen cs) eqn:E.
  - unfold r, pad. replace (Z.max 0 (w - zlen cs)) with 0 by lia. cbn. rewrite app_nil_r. reflexivity.
  - fold (ustr [fill_of o]). rewrite !pad_ok. change (sbytes (ustr cs)) with (concat cs).
    assert (Hp : pad = w - zlen cs) by lia. rewrite <- Hp. rewrite Z.quot_div_nonneg by lia.
    rewrite <- concat_app3. apply new_ok; [|exact F|].
    + apply text_app; split; [apply text_rep; assumption|]. apply text_app; split; [assumption|apply text_rep; assumption].
    + unfold r; rewrite !zlen_app, !zlen_rep. assert (0 <= pad / 2 <= pad) by (split; [apply Z.div_pos; lia|apply Z.div_le_upper_bound; lia]). lia.
Qed.
Lemma concat_zeros n : concat (repeat [48] n) = repeat 48 n.
Proof. induction n as [|n IH]; [reflexivity|]. cbn. rewrite IH. reflexivity. Qed.
Lemma zfill_ok cs w : text cs -> is_int w ->
  let zs : list char := repeat [48] (Z.to_nat (w - zlen cs)) in
  let r := match cs with
           | [43] :: t => [43] :: zs ++ t
           | [45] :: t => [45] :: zs ++ t
           | _ => zs ++ cs
           end in
  fits r -> str_zfill (ustr cs) w = Ok (ustr r).
Proof.
  intros H Hw zs r F. unfold str_zfill. rewrite wrap32 by assumption. cbn [nchars ustr]. pose proof (zlen_nn cs).
  destruct (w - zlen cs <? 0) eqn:E.
  { unfold r, zs. replace (Z.to_nat (w - zlen cs)) with O by lia. cbn [repeat app].
    fold (ustr cs). f_equal. f_equal. destruct cs as [|c t]; [reflexivity|]. destruct c as [|x [|y u]]; try reflexivity; destruct x as [|x|x]; try reflexivity; repeat (destruct x as [x|x|]; try reflexivity). }
  fold (ustr cs). assert (Hz : text zs) by (apply text_rep; cbn; lia). assert (Lz : zlen zs = w - zlen cs) by (unfold zs; rewrite zlen_rep; lia).
  assert (Cz : concat zs = repeat 48 (Z.to_nat (w - zlen cs))) by apply concat_zeros.
  rewrite buf_ustr. destruct cs as [|c t].
  - change (rd (concat [] ++ [0]) 0) with (Ok 0). cbn [bindr Z.eqb orb]. change (sbytes (ustr [])) with (@nil Z). rewrite <- Cz, app_nil_r.
    assert (Er : r = zs) by apply app_nil_r. clearbody r. subst r. apply new_ok; [assumption|exact F|]. 
    rewrite Lz. change (zlen (@nil char)) with 0. lia.
  - apply text_cons in H. destruct H as [Hc H]. cbn [concat]. rewrite <- app_assoc. pose proof (rd_char [] c (concat t ++ [0]) Hc) as Hr. cbn [app] in Hr. change (zlen (@nil Z)) with 0 in Hr.
    rewrite Hr. cbn [bindr]. destruct ((hd 0 c =? 43) || (hd 0 c =? 45)) eqn:E2.
    + assert (Ec : exists x, c = [x] /\ (x = 43 \/ x = 45)).
      { destruct c as [|x u]; [destruct (uchar_ne _ Hc eq_refl)|]. exists x. cbn [hd] in E2. pose proof (bl2 _ Hc) as Hb. cbn [hd] in Hb. unfold byte_length2 in Hb.
        destruct (x <? 128) eqn:E3; [|lia]. rewrite zlen_cons in Hb. destruct u; [split; [reflexivity|lia]|rewrite zlen_cons in Hb; pose proof (zlen_nn u); lia]. }
      destruct Ec as (x & -> & Hx).
      assert (Er : r = [x] :: zs ++ t) by (unfold r; destruct Hx; subst x; reflexivity).
      change (nbytes (ustr ([x] :: t))) with (zlen (concat ([x] :: t))). cbn [concat]. rewrite (zlen_app [x]). change (zlen [x]) with 1.
      rewrite (copy_mid' [x] (concat t)) by (reflexivity || lia). cbn [bindr hd]. rewrite <- Cz.
      replace (x :: concat zs ++ concat t) with (concat ([x] :: zs ++ t)) by (cbn [concat app]; rewrite concat_app; reflexivity).
      rewrite Er. apply new_ok; [apply text_cons; split; [assumption|apply text_app; auto]|rewrite Er in F; exact F|]. rewrite zlen_cons, zlen_app in *. lia.
    + assert (Er : r = zs ++ c :: t).
      { unfold r. destruct c as [|x [|y u]]; try reflexivity; destruct x as [|x|x]; try reflexivity; repeat (destruct x as [x|x|]; try reflexivity; try discriminate). }
      rewrite <- Cz. cbn [sbytes ustr]. rewrite <- concat_app. rewrite Er. apply new_ok; [apply text_app; split; [assumption|apply text_cons; auto]|rewrite Er in F; exact F|].
      rewrite zlen_app. lia.
Qed.

(** ** Comparison. *)
Lemma strcmp_ok x : forall fuel y A i, ~ In 0 x -> ~ In 0 y -> Forall (fun b => 0 <= b) x -> Forall (fun b => 0 <= b) y -> i = zlen A -> (length x < fuel)%nat ->
  exists c, strcmp fuel (A ++ x ++ [0]) (A ++ y ++ [0]) i = Ok c /\
    ((c = 0 /\ x = y) \/ (c = -1 /\ lex_lt x y) \/ (c = 1 /\ lex_lt y x)).
Proof.
  induction x as [|a x IH]; intros fuel y A i Hx Hy Px Py Hi Hf; (destruct fuel as [|fuel]; [cbn in Hf; lia|]); cbn [strcmp app].
  - rewrite rd_at by assumption. cbn [bindr]. destruct y as [|b y]; cbn [app]; rewrite rd_at by assumption; cbn [bindr].
    + exists 0. split; [reflexivity|]. left. auto.
    + assert (b <> 0) by (intros ->; apply Hy; left; reflexivity). apply Forall_inv in Py. exists (-1).
      destruct (0 <? b) eqn:E; [|lia]. split; [reflexivity|]. right. left. split; [reflexivity|constructor].
  - rewrite rd_at by assumption. cbn [bindr]. assert (a <> 0) by (intros ->; apply Hx; left; reflexivity).
    pose proof (Forall_inv Px) as Pa. cbn in Pa. destruct y as [|b y]; cbn [app]; rewrite rd_at by assumption; cbn [bindr].
    + exists 1. destruct (a <? 0) eqn:E; [lia|]. destruct (0 <? a) eqn:E2; [|lia]. split; [reflexivity|]. right. right. split; [reflexivity|constructor].
    + destruct (a <? b) eqn:E; [exists (-1); split; [reflexivity|]; right; left; split; [reflexivity|apply lex_head; lia]|].
      destruct (b <? a) eqn:E2; [exists 1; split; [reflexivity|]; right; right; split; [reflexivity|apply lex_head; lia]|].
      assert (a = b) by lia. subst b. destruct (a =? 0) eqn:E3; [lia|].
      replace (A ++ a :: x ++ [0]) with ((A ++ [a]) ++ x ++ [0]) by (rewrite <- app_assoc; reflexivity).
      replace (A ++ a :: y ++ [0]) with ((A ++ [a]) ++ y ++ [0]) by (rewrite <- app_assoc; reflexivity).
      destruct (IH fuel y (A ++ [a]) (i + 1)) as (c & -> & Hc).
      * intros ?; apply Hx; right; assumption.
      * intros ?; apply Hy; right; assumption.
      * apply Forall_inv_tail in Px. assumption.
      * apply Forall_inv_tail in Py. assumption.
      * rewrite zlen_app. cbn. lia.
      * cbn in Hf. lia.
      * exists c. split; [reflexivity|]. destruct Hc as [[-> ->]|[[-> Hc]|[-> Hc]]]; [left; auto|right; left; split; [reflexivity|apply lex_tail; assumption]|right; right; split; [reflexivity|apply lex_tail; assumption]].
Qed.
Lemma text_nn cs : text cs -> Forall (fun b => 0 <= b) (concat cs).
Proof.
  intros H. apply Forall_concat. eapply Forall_impl; [|exact H]. intros c Hc. destruct (uchar_cases c Hc) as (x & t & -> & _ & Hx & Ht & _).
  constructor; [lia|]. eapply Forall_impl; [|exact Ht]. intros b Hb. unfold cont in Hb. lia.
Qed.
Lemma cmp_bytes a b : text a -> text b -> nulfree a -> nulfree b ->
  exists c, str_cmp (ustr a) (ustr b) = Ok c /\
    ((c = 0 /\ concat a = concat b) \/ (c = -1 /\ lex_lt (concat a) (concat b)) \/ (c = 1 /\ lex_lt (concat b) (concat a))).
Proof.
  intros Ha Hb Na Nb. unfold str_cmp. rewrite !buf_ustr. cbn [sbytes ustr].
  apply (strcmp_ok (concat a) (S (length (concat a))) (concat b) [] 0); try (apply nulfree_bytes; assumption); try (apply text_nn; assumption); [reflexivity|lia].
Qed.
Lemma concat_inj a b : text a -> text b -> concat a = concat b -> a = b.
Proof.
  intros Ha Hb E. rewrite <- (app_nil_r (concat b)) in E. destruct (prefix_chars b a [] Ha Hb E) as (B & -> & HB).
  apply text_app in Ha. rewrite (concat_nil B) by tauto. apply app_nil_r.
Qed.

(** The order of the bytes is the order of the code points. *)
Lemma lex_app c x y : lex_lt (c ++ x) (c ++ y) <-> lex_lt x y.
Proof.
  induction c as [|a c IH]; [reflexivity|]. cbn [app]. split.
  - intros H. inversion H; subst; [lia|apply IH; assumption].
  - intros H. apply lex_tail, IH, H.
Qed.
Lemma lex_irrefl x : ~ lex_lt x x.
Proof. induction x as [|a x IH]; intros H; inversion H; subst; [lia|contradiction]. Qed.
Lemma lex_asym x : forall y, lex_lt x y -> ~ lex_lt y x.
Proof. induction x as [|a x IH]; intros y H H'; inversion H; subst; inversion H'; subst; try lia. eapply IH; eassumption. Qed.

Local Ltac lexstep := first [apply lex_head; lia | match goal with |- lex_lt (?a :: _) (?b :: _) => replace a with b by lia; apply lex_tail end].
Lemma char_order c d x y : canonical c -> canonical d -> codepoint c < codepoint d -> lex_lt (c ++ x) (d ++ y).
Proof.
  intros (Hc & C3 & C4) (Hd & D3 & D4) Hlt. unfold uchar, cont in *.
  destruct c as [|c1 [|c2 [|c3 [|c4 [|c5 c]]]]]; try contradiction;
  destruct d as [|d1 [|d2 [|d3 [|d4 [|d5 d]]]]]; try contradiction;
  cbn [length] in *; try specialize (C3 eq_refl); try specialize (C4 eq_refl); try specialize (D3 eq_refl); try specialize (D4 eq_refl);
  unfold codepoint in *; cbn [app]; try (apply lex_head; lia).
  - destruct (Z_lt_ge_dec c1 d1); [apply lex_head; lia|]. assert (c1 = d1) by lia. subst. apply lex_tail, lex_head. lia.
  - destruct (Z_lt_ge_dec c1 d1); [apply lex_head; lia|]. assert (c1 = d1) by lia. subst. apply lex_tail.
    destruct (Z_lt_ge_dec c2 d2); [apply lex_head; lia|]. assert (c2 = d2) by lia. subst. apply lex_tail, lex_head. lia.
  - destruct (Z_lt_ge_dec c1 d1); [apply lex_head; lia|]. assert (c1 = d1) by lia. subst. apply lex_tail.
    destruct (Z_lt_ge_dec c2 d2); [apply lex_head; lia|]. assert (c2 = d2) by lia. subst. apply lex_tail.
    destruct (Z_lt_ge_dec c3 d3); [apply lex_head; lia|]. assert (c3 = d3) by lia. subst. apply lex_tail, lex_head. lia.
Qed.
Lemma codepoint_nn c : canonical c -> 0 <= codepoint c.
Proof. intros (H & _). unfold uchar, cont in H. destruct c as [|c1 [|c2 [|c3 [|c4 [|c5 c]]]]]; try contradiction; unfold codepoint; lia. Qed.
Lemma codepoint_inj c d : canonical c -> canonical d -> codepoint c = codepoint d -> c = d.
Proof.
  intros (Hc & C3 & C4) (Hd & D3 & D4) E. unfold uchar, cont in *.
  destruct c as [|c1 [|c2 [|c3 [|c4 [|c5 c]]]]]; try contradiction;
  destruct d as [|d1 [|d2 [|d3 [|d4 [|d5 d]]]]]; try contradiction;
  cbn [length] in *; try specialize (C3 eq_refl); try specialize (C4 eq_refl); try specialize (D3 eq_refl); try specialize (D4 eq_refl);
  unfold codepoint in *; try lia; repeat f_equal; lia.
Qed.
Lemma points_order a : forall b, Forall canonical a -> Forall canonical b ->
  lex_lt (map codepoint a) (map codepoint b) -> lex_lt (concat a) (concat b).
Proof.
  induction a as [|c a IH]; intros [|d b] Ha Hb H; cbn [map concat] in *.
  - inversion H.
  - apply Forall_inv in Hb. destruct Hb as [Hd _]. destruct d as [|x t]; [destruct (uchar_ne _ Hd eq_refl)|]. constructor.
  - inversion H.
  - pose proof (Forall_inv Ha) as Hc. pose proof (Forall_inv Hb) as Hd. remember (codepoint c) as pc eqn:Ec. remember (codepoint d) as pd eqn:Ed. inversion H as [|x y a' b' Hlt E1 E2|x a' b' Hlt E1 E2].
    + apply char_order; [assumption|assumption|lia].
    + assert (E3 : codepoint c = codepoint d) by lia. pose proof (codepoint_inj c d Hc Hd E3). subst d. apply lex_app. apply IH; [apply Forall_inv_tail in Ha; assumption|apply Forall_inv_tail in Hb; assumption|assumption].
Qed.
Lemma lex_total x : forall y, lex_lt x y \/ x = y \/ lex_lt y x.
Proof.
  induction x as [|a x IH]; intros [|b y].
  - auto.
  - left. constructor.
  - right. right. constructor.
  - destruct (Z.lt_trichotomy a b) as [H|[->|H]].
    + left. apply lex_head. assumption.
    + destruct (IH y) as [H|[->|H]]; [left; apply lex_tail; assumption|auto|right; right; apply lex_tail; assumption].
    + right. right. apply lex_head. assumption.
Qed.
Lemma order_points a b : Forall canonical a -> Forall canonical b ->
  (lex_lt (concat a) (concat b) <-> lex_lt (map codepoint a) (map codepoint b)).
Proof.
  intros Ha Hb. split; [|apply points_order; assumption]. intros H.
  destruct (lex_total (map codepoint a) (map codepoint b)) as [?|[E|Hgt]]; [assumption| |].
  - exfalso. assert (a = b).
    { clear H. revert b Hb E. induction a as [|c a IH]; intros [|d b] Hb E; try discriminate; [reflexivity|]. injection E as E1 E2.
      rewrite (codepoint_inj c d); [|exact (Forall_inv Ha)|exact (Forall_inv Hb)|assumption]. f_equal. apply IH; [exact (Forall_inv_tail Ha)|exact (Forall_inv_tail Hb)|assumption]. }
    subst b. exact (lex_irrefl _ H).
  - exfalso. apply (lex_asym _ _ H). apply points_order; assumption.
Qed.
Lemma canonical_text a : Forall canonical a -> text a.
Proof. intros H. eapply Forall_impl; [|exact H]. intros c (Hc & _). exact Hc. Qed.

Lemma c_string_id x : ~ In 0 x -> c_string x = x.
Proof.
  induction x as [|a x IH]; intros H; [reflexivity|]. cbn. destruct (a =? 0) eqn:E; [exfalso; apply H; left; lia|].
  f_equal. apply IH. intros ?. apply H. right. assumption.
Qed.

(** ** Tabs, in ASCII texts. *)
Lemma tabs_loop_ok tab W : forall A pos ex out, ascii W -> 0 < tab -> 0 <= pos ->
  exists ex', tabs_loop (length W) (A ++ concat W ++ [0]) (zlen A) pos ex tab out = Ok (ex', out ++ concat (expanded tab pos W)) /\
    ex' = ex + (zlen (expanded tab pos W) - zlen W) /\ ascii (expanded tab pos W) /\ zlen (expanded tab pos W) <= tab * zlen W.
Proof.
  induction W as [|c W IH]; intros A pos ex out H Ht Hp; cbn [length tabs_loop].
  - exists ex. cbn. rewrite app_nil_r. repeat split; [lia|constructor|lia].
  - pose proof (Forall_inv_tail H) as HW. destruct (Forall_inv H) as (x & -> & Hx). cbn [concat app]. rewrite rd_at by reflexivity. cbn [bindr].
    replace (A ++ x :: concat W ++ [0]) with ((A ++ [x]) ++ concat W ++ [0]) by (rewrite <- app_assoc; reflexivity).
    replace (zlen A + 1) with (zlen (A ++ [x])) by (rewrite zlen_app; reflexivity). rewrite zlen_cons.
    destruct (x =? 9) eqn:E9.
    + assert (x = 9) by lia. subst x. rewrite Z.rem_mod_nonneg by lia. cbn [expanded]. set (k := tab - pos mod tab).
      assert (Hk : 1 <= k <= tab) by (unfold k; pose proof (Z.mod_pos_bound pos tab Ht); lia).
      destruct (IH (A ++ [9]) (pos + k) (ex + (k - 1)) (out ++ repeat 32 (Z.to_nat k)) HW Ht ltac:(lia)) as (ex' & -> & He & Ha & Hl).
      exists ex'. rewrite concat_app, zlen_app, zlen_rep, <- app_assoc. split; [f_equal; f_equal; f_equal; f_equal|].
      * clear. induction (Z.to_nat k) as [|n IH]; [reflexivity|]. cbn. rewrite <- IH. reflexivity.
      * split; [lia|]. split; [|nia]. apply Forall_app. split; [|assumption]. clear. induction (Z.to_nat k); constructor; [exists 32; split; [reflexivity|lia]|assumption].
    + assert (Hexp : expanded tab pos (@cons char [x] W) = @cons char [x] (expanded tab (if (x =? 10) || (x =? 13) then 0 else pos + 1) W)).
      { cbn [expanded hd]. destruct x as [|x|x]; try reflexivity; repeat (destruct x as [x|x|]; try reflexivity; try discriminate). }
      rewrite Hexp. cbn [concat]. rewrite zlen_cons.
      destruct ((x =? 10) || (x =? 13)) eqn:Enl.
      * destruct (IH (A ++ [x]) 0 ex (out ++ [x]) HW Ht ltac:(lia)) as (ex' & -> & He & Ha & Hl).
        exists ex'. rewrite <- app_assoc. split; [reflexivity|]. split; [lia|]. split; [constructor; [exists x; auto|assumption]|nia].
      * (* tab_chars copies one byte *)
        assert (Htc : tab_chars (S (length ((A ++ [x]) ++ concat W ++ [0]))) ((A ++ [x]) ++ concat W ++ [0]) (zlen A) 0 out = Ok (zlen (A ++ [x]), 1, out ++ [x])).
        { set (b := (A ++ [x]) ++ concat W ++ [0]). assert (Eb : b = A ++ x :: concat W ++ [0]) by (unfold b; rewrite <- app_assoc; reflexivity).
          cbn [tab_chars]. rewrite Eb at 1. rewrite rd_at by reflexivity. cbn [bindr]. assert (B1 : byte_length2 x = 1) by (unfold byte_length2; destruct (x <? 128) eqn:E; lia).
          rewrite B1. cbn [Z.ltb Z.compare].
          assert (Hl : exists n, length b = S n) by (rewrite Eb, app_length; cbn; exists (length A + length (concat W ++ [0%Z]))%nat; lia). destruct Hl as (n & ->). cbn [tab_chars].
          replace (zlen A + 1) with (zlen (A ++ [x])) by (rewrite zlen_app; reflexivity).
          assert (Hn : exists y, rd b (zlen (A ++ [x])) = Ok y /\ byte_length2 y = 1).
          { unfold b. destruct W as [|c W]; [exists 0; split; [apply rd_at; reflexivity|reflexivity]|].
            destruct (Forall_inv HW) as (y & -> & Hy). cbn [concat app]. exists y. split; [apply rd_at; reflexivity|unfold byte_length2; destruct (y <? 128) eqn:E; lia]. }
          destruct Hn as (y & -> & Hy). cbn [bindr]. rewrite Hy. reflexivity. }
        rewrite Htc. cbn [bindr].
        destruct (IH (A ++ [x]) (pos + 1) ex (out ++ [x]) HW Ht ltac:(lia)) as (ex' & -> & He & Ha & Hl).
        exists ex'. rewrite <- app_assoc. split; [reflexivity|]. split; [lia|]. split; [constructor; [exists x; auto|assumption]|nia].
Qed.
Lemma expandtabs_ok cs o : ascii cs -> (forall t, o = Some t -> is_int t) ->
  let tab := match o with None => 8 | Some t => if t <=? 0 then 1 else t end in
  tab * zlen cs < 2 ^ 31 ->
  str_expandtabs (ustr cs) o = Ok (ustr (expanded tab 0 cs)).
Proof.
  intros H Ho tab F. unfold str_expandtabs. cbn [nchars ustr]. destruct (zlen cs =? 0) eqn:E.
  - assert (cs = []) by (destruct cs; [reflexivity|rewrite zlen_cons in E; pose proof (zlen_nn cs); lia]). subst cs. reflexivity.
  - fold (ustr cs).
    assert (Et : (if (match o with None => 8 | Some t => wrapS 32 t end) <=? 0 then 1 else match o with None => 8 | Some t => wrapS 32 t end) = tab).
    { unfold tab. destruct o as [t|]; [|reflexivity]. rewrite wrap32 by (apply Ho; reflexivity). reflexivity. }
    rewrite Et. assert (Ht : 0 < tab) by (unfold tab; destruct o as [t|]; [destruct (t <=? 0) eqn:E2; lia|lia]). clearbody tab.
    unfold zlen at 1. rewrite Nat2Z.id. destruct (tabs_loop_ok tab cs [] 0 0 [] H Ht ltac:(lia)) as (ex & HL & He & Ha & Hl).
    cbn [app] in HL. change (zlen (@nil Z)) with 0 in HL. rewrite <- buf_ustr in HL. rewrite HL. cbn [bindr].
    rewrite ascii_len by assumption. destruct (_ || _) eqn:E2; [lia|]. clear E2.
    change (nbytes (ustr cs)) with (zlen (concat cs)). rewrite (ascii_len cs) by assumption.
    pose proof (copy_mid [] (concat (expanded tab 0 cs)) [] (zlen cs + ex)) as C1. rewrite app_nil_r in C1. cbn [app] in C1.
    change (zlen (@nil Z)) with 0 in C1. rewrite C1 by (rewrite ascii_len by assumption; lia). cbn [bindr]. apply new_ok; [apply ascii_text; assumption|rewrite ascii_len by assumption; lia|lia].
Qed.

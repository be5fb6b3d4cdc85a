(** Slices of strings. *)
From Verif Require Import Base M_Slice S_Slice M_Str S_Str P_Base P_Bmh P_Str P_Str2 P_Str3 P_Slice P_List.
From Coq Require Import ZifyBool ZifyNat.
Local Ltac Zify.zify_post_hook ::= idtac.

Definition bytes_before (cs : list char) (t : Z) : Z := zlen (concat (firstn (Z.to_nat t) cs)).

Lemma bb_app A B t : t = zlen A -> bytes_before (A ++ B) t = zlen (concat A).
Proof. intros ->. unfold bytes_before, zlen at 2. rewrite Nat2Z.id, firstn_app, Nat.sub_diag, firstn_all. cbn. rewrite app_nil_r. reflexivity. Qed.
Lemma bb_mono cs s t : 0 <= s <= t -> bytes_before cs s <= bytes_before cs t.
Proof.
  intros H. unfold bytes_before. replace (Z.to_nat s) with (Nat.min (Z.to_nat s) (Z.to_nat t)) by lia. rewrite <- firstn_firstn.
  rewrite <- (firstn_skipn (Z.to_nat s) (firstn (Z.to_nat t) cs)) at 2. rewrite concat_app, zlen_app. pose proof (zlen_nn (concat (skipn (Z.to_nat s) (firstn (Z.to_nat t) cs)))). lia.
Qed.
Lemma bb_le cs t : bytes_before cs t <= zlen (concat cs).
Proof.
  unfold bytes_before. rewrite <- (firstn_skipn (Z.to_nat t) cs) at 2. rewrite concat_app, zlen_app. pose proof (zlen_nn (concat (skipn (Z.to_nat t) cs))). lia.
Qed.
Lemma bb_nn cs t : 0 <= bytes_before cs t.
Proof. apply zlen_nn. Qed.
Lemma bb_skip cs t u : text cs -> 0 <= t <= zlen cs -> 0 <= u <= zlen cs ->
  skip_chars (buf (ustr cs)) (bytes_before cs t) (u - t) (isascii (ustr cs)) = Ok (bytes_before cs u).
Proof.
  intros H Ht Hu. destruct (Z_le_gt_dec t u) as [Hle|Hgt].
  - destruct (cut cs u Hu) as (A & B & -> & HA). destruct (cut A t ltac:(lia)) as (A1 & A2 & -> & HA1).
    rewrite zlen_app in HA. rewrite (skip_chars_fwd A1 A2 B); [|rewrite <- app_assoc; reflexivity|assumption|rewrite <- app_assoc; apply bb_app; lia|lia].
    rewrite bb_app by (rewrite zlen_app; lia). rewrite concat_app, zlen_app. reflexivity.
  - destruct (cut cs t Ht) as (A & B & -> & HA). destruct (cut A u ltac:(lia)) as (A1 & A2 & -> & HA1).
    rewrite zlen_app in HA. rewrite (skip_chars_back A1 A2 B); [|rewrite <- app_assoc; reflexivity|assumption| |lia].
    + rewrite <- app_assoc, bb_app by lia. reflexivity.
    + rewrite bb_app by (rewrite zlen_app; lia). rewrite concat_app, zlen_app. reflexivity.
Qed.
Lemma bb_char cs t : text cs -> 0 <= t < zlen cs ->
  exists c, nth_error cs (Z.to_nat t) = Some c /\ rd (buf (ustr cs)) (bytes_before cs t) = Ok (hd 0 c) /\
    copy (buf (ustr cs)) (bytes_before cs t) (byte_length2 (hd 0 c)) = Ok c /\
    bytes_before cs t + byte_length2 (hd 0 c) = bytes_before cs (t + 1) /\ zlen c = bytes_before cs (t + 1) - bytes_before cs t.
Proof.
  intros H Ht. destruct (cut cs t ltac:(lia)) as (A & B & -> & HA). destruct B as [|c B]; [rewrite app_nil_r in Ht; lia|].
  apply text_app in H. destruct H as [HAt H]. apply text_cons in H. destruct H as [Hc HB].
  exists c. rewrite bb_app by lia. rewrite buf2. cbn [concat]. rewrite <- app_assoc, rd_char, bl2, copy_mid by (assumption || reflexivity).
  replace (A ++ c :: B) with ((A ++ [c]) ++ B) by (rewrite <- app_assoc; reflexivity).
  rewrite (bb_app (A ++ [c]) B) by (rewrite zlen_app; cbn; lia). rewrite concat_app. cbn [concat]. rewrite app_nil_r, zlen_app.
  repeat split; try lia. rewrite <- HA. unfold zlen. rewrite Nat2Z.id, <- app_assoc, nth_error_app2, Nat.sub_diag by lia. reflexivity.
Qed.

Definition inside (cs : list char) (t step : Z) (n : nat) : Prop := forall j, 0 <= j < Z.of_nat n -> 0 <= t + j * step < zlen cs.
Lemma inside_tail cs t step n : inside cs t step (S n) -> inside cs (t + step) step n.
Proof. intros H j Hj. specialize (H (j + 1) ltac:(lia)). lia. Qed.
Lemma bb_ascii cs t : ascii cs -> 0 <= t <= zlen cs -> bytes_before cs t = t.
Proof.
  intros H Ht. unfold bytes_before. rewrite ascii_len; [unfold zlen in *; rewrite firstn_length; lia|].
  rewrite <- (firstn_skipn (Z.to_nat t) cs) in H. apply Forall_app in H. tauto.
Qed.
Lemma isascii_ascii cs : ascii cs -> isascii (ustr cs) = true.
Proof. intros H. unfold isascii, nbytes. cbn [sbytes nchars ustr]. rewrite ascii_len by assumption. lia. Qed.

Lemma slice_loop_ok cs step n : text cs -> forall t, inside cs t step n ->
  (ascii cs \/ (n <> O -> 0 <= t + Z.of_nat n * step <= zlen cs)) ->
  forall p, (0 <= t <= zlen cs -> p = bytes_before cs t) ->
  slice_loop n (buf (ustr cs)) p step (isascii (ustr cs)) = Ok (concat (at_positions cs (progression t step n))).
Proof.
  intros H. induction n as [|n IH]; intros t Hin Hs p Hp; [reflexivity|]. cbn [slice_loop]. rewrite progression_S. cbn [at_positions].
  pose proof (Hin 0 ltac:(lia)) as Ht0. rewrite Z.mul_0_l, Z.add_0_r in Ht0. rewrite (Hp ltac:(lia)). clear p Hp.
  destruct (bb_char cs t H Ht0) as (c & -> & -> & Hcopy & Hnext & _). cbn [bindr]. rewrite Hcopy. cbn [bindr]. rewrite Hnext.
  assert (Hin' := inside_tail cs t step n Hin).
  assert (Hk : exists q, skip_chars (buf (ustr cs)) (bytes_before cs (t + 1)) (step - 1) (isascii (ustr cs)) = Ok q /\ (0 <= t + step <= zlen cs -> q = bytes_before cs (t + step))).
  { destruct (Z_le_dec 0 (t + step)) as [H0|H0]; [destruct (Z_le_dec (t + step) (zlen cs)) as [H1|H1]|].
    - exists (bytes_before cs (t + step)). split; [|auto]. replace (step - 1) with (t + step - (t + 1)) by lia. apply bb_skip; [assumption|lia|lia].
    - destruct Hs as [Ha|Hs]; [|exfalso; destruct n as [|n]; [specialize (Hs ltac:(discriminate)); lia|specialize (Hin' 0 ltac:(lia)); lia]].
      rewrite isascii_ascii by assumption. eexists. split; [reflexivity|]. lia.
    - destruct Hs as [Ha|Hs]; [|exfalso; destruct n as [|n]; [specialize (Hs ltac:(discriminate)); lia|specialize (Hin' 0 ltac:(lia)); lia]].
      rewrite isascii_ascii by assumption. eexists. split; [reflexivity|]. lia. }
  destruct Hk as (q & -> & Hq). cbn [bindr]. rewrite (IH (t + step) Hin'); [|destruct Hs as [Ha|Hs]; [auto|right; intros; specialize (Hs ltac:(discriminate)); lia]|assumption].
  reflexivity.
Qed.
Lemma at_len cs step n : forall t, inside cs t step n -> zlen (at_positions cs (progression t step n)) = Z.of_nat n.
Proof.
  induction n as [|n IH]; intros t Hin; [reflexivity|]. rewrite progression_S. cbn [at_positions]. pose proof (Hin 0 ltac:(lia)).
  destruct (nth_error cs (Z.to_nat t)) eqn:E; [|apply nth_error_None in E; unfold zlen in *; lia]. rewrite zlen_cons, IH by (apply inside_tail; assumption). lia.
Qed.
Lemma text_nth cs i c : text cs -> nth_error cs i = Some c -> uchar c.
Proof. intros H E. apply nth_error_In in E. exact (proj1 (Forall_forall _ _) H c E). Qed.
Lemma text_at cs ps : text cs -> text (at_positions cs ps).
Proof.
  intros H. induction ps as [|p ps IH]; [constructor|]. cbn [at_positions]. destruct (nth_error cs (Z.to_nat p)) eqn:E; [|assumption].
  apply text_cons. split; [exact (text_nth _ _ _ H E)|assumption].
Qed.
Lemma at_bytes_fwd cs step n : text cs -> 0 < step -> forall t, 0 <= t -> inside cs t step n ->
  zlen (concat (at_positions cs (progression t step n))) <= zlen (concat cs) - bytes_before cs t.
Proof.
  intros H Hs. induction n as [|n IH]; intros t Ht Hin; [cbn; pose proof (bb_le cs t); lia|].
  pose proof (Hin 0 ltac:(lia)) as H0. rewrite Z.mul_0_l, Z.add_0_r in H0. rewrite progression_S. cbn [at_positions].
  destruct (bb_char cs t H H0) as (c & -> & _ & _ & _ & Hc). cbn [concat]. rewrite zlen_app.
  specialize (IH (t + step) ltac:(lia) (inside_tail _ _ _ _ Hin)). pose proof (bb_mono cs (t + 1) (t + step) ltac:(lia)). lia.
Qed.
Lemma at_bytes_back cs step n : text cs -> step < 0 -> forall t, -1 <= t + 1 -> inside cs t step n ->
  zlen (concat (at_positions cs (progression t step n))) <= bytes_before cs (Z.max 0 (t + 1)).
Proof.
  intros H Hs. induction n as [|n IH]; intros t Ht Hin; [apply zlen_nn|].
  pose proof (Hin 0 ltac:(lia)) as H0. rewrite Z.mul_0_l, Z.add_0_r in H0. rewrite progression_S. cbn [at_positions].
  destruct (bb_char cs t H H0) as (c & -> & _ & _ & _ & Hc). cbn [concat]. rewrite zlen_app. replace (Z.max 0 (t + 1)) with (t + 1) by lia.
  destruct n as [|n]; [cbn -[bytes_before]; change (zlen (@nil Z)) with 0; pose proof (bb_nn cs t); lia|].
  pose proof (inside_tail _ _ _ _ Hin 0 ltac:(lia)).
  specialize (IH (t + step) ltac:(lia) (inside_tail _ _ _ _ Hin)). pose proof (bb_mono cs (Z.max 0 (t + step + 1)) t ltac:(lia)). lia.
Qed.

Lemma getslice_ok cs s : text cs -> fits cs -> slice_ok (length cs) s ->
  (ascii cs \/ forall ps p, select (length cs) s = Some (ps ++ [p]) -> 0 <= p + step_of s <= zlen cs) ->
  str_getslice (ustr cs) s = mapr ustr (py_slice cs s).
Proof.
  intros H F Hok Hsafe. unfold str_getslice, py_slice. cbn [nchars ustr]. fold (ustr cs).
  assert (G : forall start stop slen, normalize_slice s (zlen cs) = Ok (start, stop, step_of s, slen) ->
    select (length cs) s = Some (progression start (step_of s) (Z.to_nat slen)) -> 0 <= slen -> 0 <= start <= zlen cs ->
    inside cs start (step_of s) (Z.to_nat slen) -> step_of s <> 0 ->
    (do q <- normalize_slice s (zlen cs); let '(start, stop, step, slen) := q in
     if slen =? 0 then Ok null_str else do t <- skip_chars (buf (ustr cs)) 0 start (isascii (ustr cs));
       do bs <- slice_loop (Z.to_nat slen) (buf (ustr cs)) t step (isascii (ustr cs)); new_str slen bs) =
    mapr ustr (match select (length cs) s with Some ps => Ok (at_positions cs ps) | None => Exn ValueError end)).
  { intros start stop slen -> Hsel Hl Hst Hin Hnz. cbn [bindr]. rewrite Hsel. cbn [mapr]. destruct (slen =? 0) eqn:E.
    { replace (Z.to_nat slen) with O by lia. reflexivity. }
    pose proof (bb_skip cs 0 start H ltac:(pose proof (zlen_nn cs); lia) Hst) as Hsk. rewrite Z.sub_0_r in Hsk. change (bytes_before cs 0) with 0 in Hsk. rewrite Hsk. cbn [bindr].
    rewrite (slice_loop_ok cs (step_of s) (Z.to_nat slen) H start Hin); [| |auto].
    - cbn [bindr]. apply new_ok; [apply text_at; assumption| |rewrite at_len by assumption; lia].
      unfold fits in F. destruct (Z_lt_ge_dec 0 (step_of s)).
      + pose proof (at_bytes_fwd cs (step_of s) (Z.to_nat slen) H ltac:(lia) start ltac:(lia) Hin). pose proof (bb_nn cs start). lia.
      + pose proof (at_bytes_back cs (step_of s) (Z.to_nat slen) H ltac:(lia) start ltac:(lia) Hin). pose proof (bb_le cs (Z.max 0 (start + 1))). lia.
    - destruct Hsafe as [Ha|Hsafe]; [auto|]. right. intros _.
      assert (Hn : exists k, Z.to_nat slen = S k) by (exists (pred (Z.to_nat slen)); lia). destruct Hn as (k & Hk).
      assert (Ep : progression start (step_of s) (Z.to_nat slen) = progression start (step_of s) k ++ [start + Z.of_nat k * step_of s]).
      { rewrite Hk. unfold progression. rewrite seq_S, map_app. reflexivity. }
      specialize (Hsafe _ _ (eq_trans Hsel (f_equal Some Ep))). rewrite Hk. lia. }
  destruct (Z.eq_dec (step_of s) 0) as [E0|E0].
  { rewrite normalize_step0 by assumption. unfold select. change (match sl_step s with None => 1 | Some k => k end) with (step_of s). rewrite E0. reflexivity. }
  destruct (Z_lt_ge_dec 0 (step_of s)) as [Hp|Hp].
  - destruct (normalize_forward (length cs) s Hp) as (start & stop & slen & Hn & Hsel & Hl & Hst & Hlast). fold (zlen cs) in *.
    apply (G start stop slen Hn Hsel); try lia. intros j Hj. specialize (Hlast ltac:(lia)). assert (0 <= j * step_of s <= (slen - 1) * step_of s) by nia. lia.
  - destruct Hok as [|(Hn0 & B1 & B2)]; [lia|].
    destruct (normalize_backward (length cs) s ltac:(lia) B1 B2 Hn0) as (start & stop & slen & Hn & Hsel & Hl & Hst & Hlast). fold (zlen cs) in *.
    apply (G start stop slen Hn Hsel); try lia. intros j Hj. specialize (Hlast ltac:(lia)). assert ((slen - 1) * step_of s <= j * step_of s <= 0) by nia. lia.
Qed.

(** Theorems about the database's queues (C42, C65). *)
From Verif Require Import Base P_Base P_VClock P_Bmh M_Skiplist P_Skiplist3 M_Queue S_Queue P_Queue P_Queue2.

Lemma history_ok : forall junk seed os, (forall o, In o os -> plain o) -> enqueues os <= CAPACITY ->
  exists q seed' tr, history junk seed os = Ok tr /\ QI q tr /\ map (fun e => fst (fst e)) tr = os
    /\ (forall more, history junk seed (os ++ more) = bindr (qrun q seed' more) (fun x => Ok (tr ++ x)))
    /\ zlen (entered tr) = enqueues os
    /\ forall a o r t b, tr = a ++ (o, r, t) :: b -> said a o r t.
Proof.
  intros junk seed os P C. destruct (init_ok junk seed) as (q0 & s0 & E & I).
  destruct (run_ok os q0 [] s0 I P) as (q & s & tr & E1 & I1 & M & A & L & S).
  { change (zlen (entered [])) with 0. lia. }
  cbn [app] in I1, L, S. change (zlen (entered [])) with 0 in L.
  exists q, s, tr. unfold history. rewrite E. cbn [bindr]. do 4 (split; [auto|]). split; [lia|auto].
Qed.

Lemma prefix_ok : forall junk seed os tr a b, (forall o, In o os -> plain o) -> enqueues os <= CAPACITY ->
  history junk seed os = Ok tr -> tr = a ++ b -> exists q, QI q a.
Proof.
  intros junk seed os tr a b P C E ET. destruct (history_ok junk seed os P C) as (q & s & tr' & E' & I & M & _).
  rewrite E in E'. injection E' as <-. set (f := fun e : event => fst (fst e)) in *.
  assert (OS : os = map f a ++ map f b) by (rewrite <- M, ET; apply map_app).
  destruct (history_ok junk seed (map f a)) as (qa & sa & ta & Ea & Ia & Ma & Aa & _).
  - intros o J. apply P. rewrite OS. apply in_or_app. auto.
  - assert (X : enqueues os = enqueues (map f a) + enqueues (map f b)) by (rewrite OS at 1; unfold enqueues; now rewrite filter_app, zlen_app).
    pose proof (enq_nn (map f b)). lia.
  - specialize (Aa (map f b)). rewrite <- OS, E in Aa. destruct (qrun qa sa (map f b)) as [x| | |]; cbn [bindr] in Aa; try discriminate.
    injection Aa as Aa. exists qa. replace a with ta; auto. rewrite ET in Aa.
    assert (LT : length a = length ta) by (apply (f_equal (@length qop)) in Ma; rewrite !map_length in Ma; easy).
    apply (f_equal (firstn (length a))) in Aa. rewrite firstn_app, firstn_all, Nat.sub_diag in Aa. cbn [firstn] in Aa. rewrite app_nil_r in Aa.
    rewrite Aa, LT, firstn_app, firstn_all, Nat.sub_diag. cbn [firstn]. now rewrite app_nil_r.
Qed.

(** Whatever subscribers, enqueues, reads, peeks and consumes of any number of consumers
    come in whatever order, the server answers all of them, and what a consumer's reads
    have returned since it subscribed is a prefix of what was enqueued: every entry once,
    in order.  Missing from the property: replays, non-positive chunk sizes and more than
    2^31 - 2 entries. *)
Theorem C42_exactly_once_partial : forall junk seed os,
  (forall o, In o os -> plain o) -> enqueues os <= CAPACITY ->
  exists tr, history junk seed os = Ok tr /\ map (fun e => fst (fst e)) tr = os /\
    forall c, exists rest, entered tr = seen c tr ++ rest.
Proof.
  intros junk seed os P C. destruct (history_ok junk seed os P C) as (q & s & tr & E & I & M & _).
  exists tr. repeat split; auto. intros c. pose proof (q_s _ _ I c) as S. unfold Sub in S. destruct (clook (qcons q) c) as [x|].
  - destruct S as (_ & -> & _). exists (skipn (Z.to_nat (rdh x + 1)) (entered tr)). now rewrite firstn_skipn.
  - destruct S as (_ & -> & _). now exists (entered tr).
Qed.
Print Assumptions C42_exactly_once_partial.

(** Each read in such a history returns the next entries after those seen, as many as
    asked for or all there are, with their numbers, the new head, and "complete" exactly
    when nothing is left.  A peek gets the answer the read would get. *)
Theorem C42_read : forall junk seed os tr a c max r t b,
  (forall o, In o os -> plain o) -> enqueues os <= CAPACITY -> history junk seed os = Ok tr ->
  tr = a ++ (QRead c max, r, t) :: b \/ (exists off, tr = a ++ (QPeek c max off, r, t) :: b) ->
  subscribed c a = true ->
  exists st head es, r = Rd st head es
  /\ map snd es = firstn (Z.to_nat max) (skipn (length (seen c a)) (entered a))
  /\ (forall i, 0 <= i < zlen es -> option_map fst (zget es i) = Some (zlen (seen c a) + i))
  /\ head = zlen (seen c a) + zlen es - 1
  /\ (st = READ_COMPLETE /\ seen c a ++ map snd es = entered a \/ st = READ_INCOMPLETE /\ seen c a ++ map snd es <> entered a).
Proof.
  intros junk seed os tr a c max r t b P C E ET SB. destruct (history_ok junk seed os P C) as (q & s & tr' & E' & I & M & _ & _ & S).
  rewrite E in E'. injection E' as <-.
  assert (R : r = answer (entered a) (seen c a) max /\ 1 <= max).
  { destruct ET as [ET|(off & ET)]; specialize (S _ _ _ _ _ ET); cbn [said] in S; rewrite SB in S; destruct S as (-> & _); split; auto.
    - assert (J : In (QRead c max) os) by (rewrite <- M, ET, map_app; apply in_elt). apply P in J. cbn in J. lia.
    - assert (J : In (QPeek c max off) os) by (rewrite <- M, ET, map_app; apply in_elt). apply P in J. cbn in J. lia. }
  destruct R as (-> & MX). unfold answer.
  (* the prefix *)
  assert (PA : exists rest, entered a = seen c a ++ rest).
  { assert (PX : exists qa, QI qa a) by (destruct ET as [ET|(off & ET)]; eapply prefix_ok; eauto).
    destruct PX as (qa & Ia). pose proof (q_s _ _ Ia c) as Sx. unfold Sub in Sx. destruct (clook (qcons qa) c) as [z|].
    - destruct Sx as (_ & -> & _). exists (skipn (Z.to_nat (rdh z + 1)) (entered a)). now rewrite firstn_skipn.
    - destruct Sx as (_ & -> & _). now exists (entered a). }
  destruct PA as (rest & PA). 
  assert (SK : skipn (length (seen c a)) (entered a) = rest) by (rewrite PA, skipn_app, skipn_all, Nat.sub_diag; easy).
  eexists _, _, _. split; [reflexivity|]. rewrite SK, number_snd, number_len. rewrite PA, zlen_app.
  set (sn := seen c a). 
  assert (ZF : zlen (firstn (Z.to_nat max) rest) = Z.min max (zlen rest)) by (unfold zlen; rewrite firstn_length; lia).
  split; [auto|]. split; [|split].
  - assert (G : forall l i j, 0 <= j < zlen l -> option_map fst (zget (number i l) j) = Some (i + j)).
    { induction l as [|v l IH]; intros i j J; [change (zlen (@nil Z)) with 0 in J; lia|]. rewrite zlen_cons in J. cbn [number].
      rewrite zget_nat by lia. destruct (Z.to_nat j) as [|k] eqn:K; cbn [nth_error option_map fst].
      - f_equal. lia.
      - specialize (IH (i + 1) (j - 1)). rewrite zget_nat in IH by lia. replace (Z.to_nat (j - 1)) with k in IH by lia.
        rewrite IH by lia. f_equal. lia. }
    intros i Hi. apply G. exact Hi.
  - rewrite ZF. lia.
  - destruct (Z.leb_spec (zlen sn + zlen rest) (zlen sn + max)) as [H|H]; [left|right]; (split; [reflexivity|]).
    + rewrite firstn_all2; auto. unfold zlen in H. lia.
    + intros X. apply app_inv_head in X. apply (f_equal zlen) in X. lia.
Qed.
Print Assumptions C42_read.

(** A consumer never consumes beyond what it has read: a consume is accepted exactly if
    the head named has been read and is not the current one. *)
Theorem C42_consume : forall junk seed os tr a c h r t b,
  (forall o, In o os -> plain o) -> enqueues os <= CAPACITY -> history junk seed os = Ok tr ->
  tr = a ++ (QCons c h, r, t) :: b -> subscribed c a = true ->
  r = Ack (if zlen (seen c a) <=? h then DB_ERR_QUEUE_HEAD_INVALID
           else if h =? consumed c a then DB_ERR_QUEUE_COMPLETE else h).
Proof.
  intros junk seed os tr a c h r t b P C E ET SB. destruct (history_ok junk seed os P C) as (q & s & tr' & E' & _ & _ & _ & _ & S).
  rewrite E in E'. injection E' as <-. specialize (S _ _ _ _ _ ET). cbn [said] in S. rewrite SB in S. cbn [negb] in S. destruct S as (_ & S).
  replace (zlen (seen c a) <=? h) with (zlen (seen c a) - 1 <? h) by (destruct (zlen (seen c a) - 1 <? h) eqn:?; lia).
  destruct (zlen (seen c a) - 1 <? h); auto. destruct (h =? consumed c a); auto.
Qed.
Print Assumptions C42_consume.

(** Replaying works in one case only, when nothing has been consumed and the offset is 0:
    then the entries read are returned again. *)
Theorem C42_replay_partial : forall junk seed os tr c max,
  (forall o, In o os -> plain o) -> enqueues os <= CAPACITY -> history junk seed os = Ok tr ->
  subscribed c tr = true -> consumed c tr = -1 -> seen c tr <> [] -> 1 <= max < 2 ^ 31 ->
  exists st head, history junk seed (os ++ [QReplay c 0 max]) =
    Ok (tr ++ [(QReplay c 0 max, Rd st head (number 0 (firstn (Z.to_nat max) (seen c tr))), [])]).
Proof.
  intros junk seed os tr c max P C E SB CN SN MX. destruct (history_ok junk seed os P C) as (q & s & tr' & E' & I & _ & A & L & _).
  rewrite E in E'. injection E' as <-. rewrite A. cbn [qrun qexec]. unfold replay_queue. rewrite wrapS_id by (unfold inS; lia).
  pose proof (q_s _ _ I c) as S. unfold Sub in S. destruct (clook (qcons q) c) as [x|]; [|destruct S; congruence].
  destruct S as (_ & S2 & S3 & S4 & S5 & _). rewrite CN in S4. rewrite S4, Z.add_0_r.
  assert (R0 : 0 <= rdh x).
  { destruct (Z.eq_dec (rdh x) (-1)) as [X|]; [|lia]. rewrite X in S2. cbn in S2. congruence. }
  pose proof (q_n _ _ I) as N. unfold assert.
  replace (rdh x <=? qn q - 1) with true by lia. replace (-1 <=? rdh x) with true by lia. replace (-1 =? rdh x) with false by lia.
  assert (EM : min (-1 + max) (rdh x) = Z.min (max - 1) (rdh x)) by (unfold min; destruct (-1 + max <? rdh x) eqn:?; lia).
  rewrite EM. rewrite (range_gen _ (entered tr) (-1) 0) by (try apply (q_c _ _ I); try right; try split; try reflexivity; lia).
  cbn [bindr skipn]. change (Z.to_nat 0) with 0%nat. cbn [skipn].
  rewrite upto_number by lia. rewrite number_len, first_len by lia.
  replace (Z.min (max - 1) (rdh x) - 0 + 1 =? Z.min (max - 1) (rdh x) - -1) with true by lia. cbn [bindr].
  eexists _, _. rewrite S2, firstn_firstn. repeat f_equal. lia.
Qed.
Print Assumptions C42_replay_partial.

(** In all other cases with something to replay the server ends with a failed assertion. *)
Theorem C42_replay_refuted : forall junk seed os tr c off max,
  (forall o, In o os -> plain o) -> enqueues os <= CAPACITY -> history junk seed os = Ok tr ->
  subscribed c tr = true -> 0 <= consumed c tr + off < zlen (seen c tr) - 1 -> 1 <= max < 2 ^ 31 ->
  history junk seed (os ++ [QReplay c off max]) = abort.
Proof.
  intros junk seed os tr c off max P C E SB OF MX. destruct (history_ok junk seed os P C) as (q & s & tr' & E' & I & _ & A & L & _).
  rewrite E in E'. injection E' as <-. rewrite A. cbn [qrun qexec]. unfold replay_queue. rewrite wrapS_id by (unfold inS; lia).
  pose proof (q_s _ _ I c) as S. unfold Sub in S. destruct (clook (qcons q) c) as [x|]; [|destruct S; congruence].
  destruct S as (_ & S2 & S3 & S4 & S5 & _). rewrite S2, first_len in OF by lia.
  pose proof (q_n _ _ I) as N. unfold assert. rewrite S4. set (st := consumed c tr + off) in *.
  replace (rdh x <=? qn q - 1) with true by lia. replace (st <=? rdh x) with true by lia. replace (st =? rdh x) with false by lia.
  assert (EM : min (st + max) (rdh x) = Z.min (st + max) (rdh x)) by (unfold min; destruct (st + max <? rdh x) eqn:?; lia).
  rewrite EM. rewrite (range_ok _ (entered tr)) by (try apply (q_c _ _ I); lia). cbn [bindr].
  assert (SL : zlen (skipn (Z.to_nat st) (entered tr)) = zlen (entered tr) - st) by (unfold zlen in *; rewrite skipn_length; lia).
  rewrite upto_number by lia. rewrite number_len, first_len by lia.
  replace (Z.min (st + max) (rdh x) - st + 1 =? Z.min (st + max) (rdh x) - st) with false by lia. reflexivity.
Qed.
Print Assumptions C42_replay_refuted.

Definition all_up (c : Z) : bool := true.

Example C42_case : exists tr,
  history 0 1 [QSub 7; QEnq 10 all_up; QSub 8; QEnq 20 all_up; QRead 7 1; QEnq 30 all_up; QPeek 7 5 (-1); QRead 8 9; QRead 7 1; QCons 7 1; QRead 7 4; QReplay 8 0 2] = Ok tr
  /\ seen 7 tr = [10; 20; 30] /\ seen 8 tr = [10; 20; 30] /\ consumed 7 tr = 1 /\ subscribed 8 tr = true
  /\ map snd tr = [[]; [7]; []; [8]; []; []; []; []; []; []; []; []].
Proof. eexists. split; [vm_compute; reflexivity|]. vm_compute. auto. Qed.

(** What is not as promised: (1) a consume head can be moved back; (2) unsubscribing a
    stranger succeeds; (3) a read of at most 0 entries ends the server; (4) so do an
    enqueue to, a read of, and an unsubscription from a queue that does not exist; (5) a
    reader that runs between the two halves of an enqueue ends the process. *)
Theorem C42_refuted :
  (exists tr, history 0 1 [QSub 7; QEnq 10 all_up; QEnq 20 all_up; QRead 7 2; QCons 7 1; QCons 7 0] = Ok tr
     /\ map (fun e => snd (fst e)) (skipn 4 tr) = [Ack 1; Ack 0] /\ consumed 7 tr = 0)
  /\ (forall junk seed c, exists tr, history junk seed [QUnsub c] = Ok tr /\ map (fun e => snd (fst e)) tr = [Ack 0])
  /\ history 0 1 [QSub 7; QEnq 10 all_up; QRead 7 0] = abort
  /\ (forall v up c max, serve_absent (QEnq v up) = abort /\ serve_absent (QRead c max) = abort /\ serve_absent (QUnsub c) = abort)
  /\ (exists q s, create_queue 0 1 = Ok (q, s) /\ read_queue (fst (reserve (fst (subscribe_queue q 7)))) 7 1 = abort).
Proof.
  split; [eexists; split; [vm_compute; reflexivity|split; reflexivity]|].
  split. { intros. destruct (init_ok junk seed) as (q & s & E & _). unfold history. rewrite E. cbn. eexists. split; reflexivity. }
  split; [vm_compute; reflexivity|].
  split; [intros; repeat split; reflexivity|].
  eexists _, _. split; [vm_compute; reflexivity|vm_compute; reflexivity].
Qed.
Print Assumptions C42_refuted.

(** A subscriber is notified of an entry exactly if it can be reached and there is no
    earlier notification it has not yet answered by reading to the end or consuming; so
    a subscriber that has seen everything is always notified of the next entry, and
    nobody is notified twice for one entry. *)
Theorem C65_wakeup : forall junk seed os tr a v up r told b,
  (forall o, In o os -> plain o) -> enqueues os <= CAPACITY -> history junk seed os = Ok tr ->
  tr = a ++ (QEnq v up, r, told) :: b ->
  NoDup told /\ forall c,
    (In c told <-> subscribed c a = true /\ notified c a = false /\ up c = true)
    /\ (subscribed c a = true -> up c = true -> seen c a = entered a -> In c told).
Proof.
  intros junk seed os tr a v up r told b P C E ET. destruct (history_ok junk seed os P C) as (q & s & tr' & E' & I & M & _ & _ & S).
  rewrite E in E'. injection E' as <-. pose proof (S _ _ _ _ _ ET) as SD. cbn [said] in SD. destruct SD as (_ & ND & SD).
  split; auto. intros c. split; auto. intros SB UP SN. apply SD. repeat split; auto.
  destruct (prefix_ok _ _ _ _ _ _ P C E ET) as (qa & Ia).
  pose proof (q_s _ _ Ia c) as Sx. unfold Sub in Sx. destruct (clook (qcons qa) c) as [z|]; [|destruct Sx; congruence].
  destruct Sx as (_ & S2 & S3 & _ & _ & _ & S7). destruct (notified c a); auto. specialize (S7 eq_refl).
  rewrite (q_n _ _ Ia) in S7. rewrite S2 in SN. apply (f_equal zlen) in SN. rewrite first_len in SN by lia. lia.
Qed.
Print Assumptions C65_wakeup.

(** Not so for a consumer that reads in transactions: persisting the read moves the read
    head but does not clear the notification, so that a subscriber that has seen all
    entries is not told of the next. *)
Theorem C65_refuted : exists tr told,
  history 0 1 [QSub 7; QEnq 10 all_up; QTxnRead 7 0; QPeek 7 1 (-1); QEnq 20 all_up] = Ok (tr ++ [(QEnq 20 all_up, Ack 0, told)])
  /\ map snd tr = [[]; [7]; []; []] /\ map (fun e => snd (fst e)) tr = [Ack 0; Ack 0; Ack 0; Rd READ_COMPLETE 0 []] /\ told = [].
Proof. eexists [_; _; _; _], _. split; [vm_compute; reflexivity|]. repeat split; reflexivity. Qed.
Print Assumptions C65_refuted.

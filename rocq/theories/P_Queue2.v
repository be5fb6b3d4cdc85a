(** Proofs about the database's queues: every request keeps the invariant. *)
From Verif Require Import Base P_Base P_VClock P_Bmh M_Skiplist P_Skiplist3 M_Queue S_Queue P_Queue.

Lemma seen_snoc : forall c tr e, seen c (tr ++ [e]) = see c (seen c tr) e.
Proof. intros. unfold seen. now rewrite fold_left_app. Qed.
Lemma sub_snoc : forall c tr e, subscribed c (tr ++ [e]) = join c (subscribed c tr) e.
Proof. intros. unfold subscribed. now rewrite fold_left_app. Qed.
Lemma con_snoc : forall c tr e, consumed c (tr ++ [e]) = eat c (consumed c tr) e.
Proof. intros. unfold consumed. now rewrite fold_left_app. Qed.
Lemma ntf_snoc : forall c tr e, notified c (tr ++ [e]) = ring c (notified c tr) e.
Proof. intros. unfold notified. now rewrite fold_left_app. Qed.

Lemma entered_snoc : forall tr o r t, entered (tr ++ [(o, r, t)]) = entered tr ++ match o with QEnq v _ => [v] | _ => [] end.
Proof. intros. rewrite entered_app. f_equal; try (now destruct o). Qed.

Definition NOBODY : qout := Rd DB_ERR_NO_CONSUMER (-1) [].

Definition said (tr : list event) (o : qop) (r : qout) (told : list Z) : Prop :=
  match o with
  | QSub c => r = Ack (if subscribed c tr then DB_ERR_DUPLICATE_CONSUMER else 0) /\ told = []
  | QUnsub _ => r = Ack 0 /\ told = []
  | QEnq _ up => r = Ack 0 /\ NoDup told /\
                 forall c, In c told <-> subscribed c tr = true /\ notified c tr = false /\ up c = true
  | QRead c max | QPeek c max _ =>
      r = (if subscribed c tr then answer (entered tr) (seen c tr) max else NOBODY) /\ told = []
  | QCons c h =>
      told = [] /\
      (if negb (subscribed c tr) then r = Ack DB_ERR_NO_CONSUMER
       else if zlen (seen c tr) - 1 <? h then r = Ack DB_ERR_QUEUE_HEAD_INVALID
       else if h =? consumed c tr then r = Ack DB_ERR_QUEUE_COMPLETE
       else r = Ack h)
  | _ => True
  end.

Lemma skip_first : forall (A : Type) (l : list A) n m, firstn n l ++ firstn m (skipn n l) = firstn (n + m) l.
Proof.
  intros A l n. revert l. induction n as [|n IH]; intros [|x l] m; cbn [firstn skipn app Nat.add]; auto.
  - now rewrite firstn_nil.
  - now rewrite IH.
Qed.

Lemma first_len : forall (l : list Z) k, 0 <= k <= zlen l -> zlen (firstn (Z.to_nat k) l) = k.
Proof. intros l k H. unfold zlen in *. rewrite firstn_length. lia. Qed.

Lemma answer_fetch : forall q log x max, CI (qcells q) log -> qn q = zlen log -> zlen log <= CAPACITY ->
  -1 <= rdh x < zlen log - 1 -> 1 <= max ->
  exists st new es, fetch q (rdh x) max = Ok (st, new, es) /\
    Rd st new es = answer log (firstn (Z.to_nat (rdh x + 1)) log) max /\
    (st =? READ_COMPLETE) = (new =? zlen log - 1) /\ rdh x < new <= zlen log - 1 /\
    firstn (Z.to_nat (rdh x + 1)) log ++ map snd es = firstn (Z.to_nat (new + 1)) log.
Proof.
  intros q log x max C N CP R M. pose proof (fetch_ok q log (rdh x) max C N CP R M) as F. cbv zeta in F. rewrite F.
  eexists _, _, _. split; [reflexivity|].
  set (new := Z.min (rdh x + max) (zlen log - 1)).
  assert (L : zlen (firstn (Z.to_nat (rdh x + 1)) log) = rdh x + 1) by (apply first_len; lia).
  split; [|split; [|split; [lia|]]].
  - unfold answer. rewrite L. f_equal.
    + destruct (Z.eqb_spec new (zlen log - 1)), (Z.leb_spec (zlen log) (rdh x + 1 + max)); auto; lia.
    + lia.
    + f_equal. assert (EL : length (firstn (Z.to_nat (rdh x + 1)) log) = Z.to_nat (rdh x + 1)) by (unfold zlen in L; lia).
      rewrite EL. 
      assert (SL : zlen (skipn (Z.to_nat (rdh x + 1)) log) = zlen log - (rdh x + 1)) by (unfold zlen in *; rewrite skipn_length; lia).
      destruct (Z_le_dec max (zlen log - 1 - rdh x)) as [D|D].
      * f_equal. lia.
      * rewrite !firstn_all2; auto; unfold zlen in *; lia.
  - now destruct (new =? zlen log - 1).
  - rewrite number_snd, skip_first. f_equal. lia.
Qed.

Lemma answer_done : forall log x max, rdh x = zlen log - 1 -> 1 <= max ->
  Rd READ_COMPLETE (rdh x) [] = answer log (firstn (Z.to_nat (rdh x + 1)) log) max.
Proof.
  intros log x max R M. pose proof (zlen_nn log). unfold answer. rewrite first_len by lia.
  replace (zlen log <=? rdh x + 1 + max) with true by lia.
  assert (EL : length (firstn (Z.to_nat (rdh x + 1)) log) = length log).
  { pose proof (first_len log (rdh x + 1)) as Q. unfold zlen in *. lia. }
  rewrite EL, skipn_all, firstn_nil. cbn [number]. f_equal. lia.
Qed.

Ltac other := match goal with |- context [Z.eqb ?a ?b] => destruct (Z.eqb_spec a b) end.

Lemma step_ok : forall q tr seed o, QI q tr -> plain o -> zlen (entered tr) + enqueues [o] <= CAPACITY ->
  exists q' seed' r told, qexec q seed o = Ok (q', seed', r, told) /\ QI q' (tr ++ [(o, r, told)]) /\ said tr o r told.
Proof.
  intros q tr seed o [N C D S] P CP. destruct o as [c|c|v up|c max|c max off|c off max|c h|c h|c h]; cbn [plain] in P; try easy; cbn [qexec].
  - (* subscribe *)
    unfold subscribe_queue. pose proof (S c) as Sc. unfold Sub in Sc. destruct (clook (qcons q) c) as [x|] eqn:L.
    + eexists q, seed, _, _. split; [reflexivity|]. destruct Sc as (Sc & Sc'). split.
      * constructor; rewrite ?entered_snoc, ?app_nil_r; auto.
        intros c'. rewrite seen_snoc, sub_snoc, con_snoc, ntf_snoc. cbn [see join eat ring]. rewrite andb_false_r.
        specialize (S c'). other; [subst c'|exact S]. rewrite L in *. destruct S as (_ & S'). now split.
      * cbn [said]. now rewrite Sc.
    + eexists _, seed, _, _. split; [reflexivity|]. destruct Sc as (Sc & Sc'). split.
      * constructor; cbn [qn qcells qcons with_cons]; rewrite ?entered_snoc, ?app_nil_r; auto.
        { now apply cset_nodup. }
        intros c'. rewrite seen_snoc, sub_snoc, con_snoc, ntf_snoc. cbn [see join eat ring]. rewrite clook_set, (Z.eqb_sym c c').
        change (0 =? 0) with true. rewrite andb_true_r. other; [subst c'|exact (S c')].
        cbn. pose proof (zlen_nn (entered tr)). repeat split; auto; try lia; try discriminate.
      * cbn [said]. now rewrite Sc.
  - (* unsubscribe *)
    unfold unsubscribe_queue. eexists _, seed, _, _. split; [reflexivity|]. split.
    + constructor; cbn [qn qcells qcons with_cons]; rewrite ?entered_snoc, ?app_nil_r; auto.
      { now apply cdel_nodup. }
      intros c'. rewrite seen_snoc, sub_snoc, con_snoc, ntf_snoc. cbn [see join eat ring]. rewrite clook_del, (Z.eqb_sym c c') by auto.
      other; [subst c'; cbn; auto|exact (S c')].
    + cbn. auto.
  - (* enqueue *)
    change (enqueues [QEnq v up]) with 1 in CP.
    unfold enqueue. cbn [reserve]. unfold store. cbn [qcells qn qcons].
    destruct (put_ok (qcells q) (entered tr) v seed C) as (l' & seed' & E & C'); [lia|].
    rewrite N, E. cbn [bindr]. 
    destruct (notify_subscribers (qcons q) up) as [cs told] eqn:NT.
    assert (T : forall c, clook cs c = option_map (fun x => if negb (ntf x) && up c then Cons (rdh x) (csh x) true else x) (clook (qcons q) c)
      /\ existsb (Z.eqb c) told = match clook (qcons q) c with Some x => negb (ntf x) && up c | None => false end).
    { intros c. pose proof (told_look (qcons q) up c D) as T. rewrite NT in T. exact T. }
    eexists _, seed', _, told. split; [reflexivity|]. split.
    + constructor; cbn [qn qcells qcons]; rewrite ?entered_snoc; auto.
      { rewrite zlen_app. change (zlen [v]) with 1. lia. }
      { pose proof (told_ids (qcons q) up) as TI. rewrite NT in TI. cbn [fst] in TI. now rewrite TI. }
      intros c'. rewrite seen_snoc, sub_snoc, con_snoc, ntf_snoc. cbn [see join eat ring].
      destruct (T c') as (T1 & T2). rewrite T1, T2. specialize (S c'). unfold Sub in *. destruct (clook (qcons q) c') as [x|]; cbn [option_map].
      * destruct S as (S1 & S2 & S3 & S4 & S5 & S6 & S7).
        assert (F : firstn (Z.to_nat (rdh x + 1)) (entered tr ++ [v]) = seen c' tr).
        { rewrite S2, firstn_app. replace (Z.to_nat (rdh x + 1) - length (entered tr))%nat with 0%nat by (unfold zlen in S3; lia).
          cbn [firstn]. apply app_nil_r. }
        rewrite zlen_app. change (zlen [v]) with 1.
        destruct (ntf x) eqn:NX, (up c') eqn:UP; cbn [negb andb]; cbn [rdh csh ntf]; rewrite ?F, <- S6, ?NX; repeat split; auto; try lia.
      * destruct S as (S1 & S2 & S3 & S4). rewrite S4. auto.
    + cbn [said]. split; auto. split.
      { unfold notify_subscribers in NT. injection NT as _ <-. now apply nodup_filter. }
      intros c. specialize (S c). destruct (T c) as (_ & T2). unfold Sub in S.
      assert (X : In c told <-> existsb (Z.eqb c) told = true).
      { rewrite existsb_exists. split; [intros J; exists c; split; auto; apply Z.eqb_refl|]. intros (y & J & K). replace c with y by lia. auto. }
      rewrite X, T2. destruct (clook (qcons q) c) as [x|].
      * destruct S as (S1 & _ & _ & _ & _ & S6 & _). rewrite S1, <- S6. destruct (ntf x), (up c); cbn; intuition discriminate.
      * destruct S as (S1 & _). rewrite S1. intuition discriminate.
  - (* read *)
    change (enqueues [QRead c max]) with 0 in CP.
    unfold read_queue. rewrite wrapS_id by (unfold inS; lia). pose proof (S c) as Sc. unfold Sub in Sc. cbn [said].
    destruct (clook (qcons q) c) as [x|] eqn:L.
    2:{ eexists q, seed, _, _. split; [reflexivity|]. destruct Sc as (Sc & _). rewrite Sc. split; [|auto].
        constructor; rewrite ?entered_snoc, ?app_nil_r; auto.
        intros c'. rewrite seen_snoc, sub_snoc, con_snoc, ntf_snoc. cbn [see join eat ring vals map].
        change (DB_ERR_NO_CONSUMER =? READ_COMPLETE) with false. rewrite andb_false_r, app_nil_r. destruct (c =? c'); auto. }
    destruct Sc as (S1 & S2 & S3 & S4 & S5 & S6 & S7). rewrite S1.
    unfold assert. replace (rdh x <=? qn q - 1) with true by lia.
    destruct (Z.eqb_spec (rdh x) (qn q - 1)) as [E|E].
    + eexists q, seed, _, _. split; [reflexivity|]. rewrite N in E. split.
      * constructor; rewrite ?entered_snoc, ?app_nil_r; auto.
        intros c'. rewrite seen_snoc, sub_snoc, con_snoc, ntf_snoc. cbn [see join eat ring vals map].
        change (READ_COMPLETE =? READ_COMPLETE) with true. rewrite andb_true_r, app_nil_r.
        specialize (S c'). other; [subst c'|exact S]. rewrite L in *. unfold Sub in *.
        destruct (notified c tr); [|repeat split; auto; try lia; tauto]. specialize (S7 eq_refl). lia.
      * rewrite S2. split; [|auto]. apply answer_done; lia.
    + destruct (answer_fetch q (entered tr) x max C N) as (st & new & es & F & A & B & G & H); try lia.
      rewrite F. cbn [bindr]. eexists _, seed, _, _. split; [reflexivity|]. split.
      * constructor; cbn [qn qcells qcons with_cons]; rewrite ?entered_snoc, ?app_nil_r; auto.
        { now apply cset_nodup. }
        intros c'. rewrite seen_snoc, sub_snoc, con_snoc, ntf_snoc. cbn [see join eat ring vals]. rewrite clook_set, (Z.eqb_sym c c').
        specialize (S c'). destruct (Z.eqb_spec c' c) as [->|NE]; [|exact S]. cbn [andb]. unfold Sub. cbn [rdh csh ntf].
        rewrite S2, H, B. repeat split; auto; try lia.
        { now destruct (new =? zlen (entered tr) - 1). }
        destruct (Z.eqb_spec new (zlen (entered tr) - 1)); [discriminate|]. intros _. lia.
      * rewrite S2. split; auto.
  - (* peek *)
    change (enqueues [QPeek c max off]) with 0 in CP. destruct P as (P & OF).
    unfold peek_queue. rewrite wrapS_id by (unfold inS; lia). pose proof (S c) as Sc. unfold Sub in Sc. cbn [said].
    replace (0 <=? off) with false by lia.
    assert (K : forall r, QI q (tr ++ [(QPeek c max off, r, [])])).
    { intros r. constructor; rewrite ?entered_snoc, ?app_nil_r; auto.
      intros c'. rewrite seen_snoc, sub_snoc, con_snoc, ntf_snoc. exact (S c'). }
    destruct (clook (qcons q) c) as [x|] eqn:L.
    2:{ eexists q, seed, _, _. split; [reflexivity|]. destruct Sc as (Sc & _). rewrite Sc. split; auto. }
    destruct Sc as (S1 & S2 & S3 & S4 & S5 & S6 & S7). rewrite S1, S2.
    unfold assert. replace (rdh x <=? qn q - 1) with true by lia.
    destruct (Z.eqb_spec (rdh x) (qn q - 1)) as [E|E].
    + eexists q, seed, _, _. split; [reflexivity|]. split; auto. split; auto. apply answer_done; lia.
    + destruct (answer_fetch q (entered tr) x max C N) as (st & new & es & F & A & B & G & H); try lia.
      rewrite F. cbn [bindr]. eexists _, seed, _, _. split; [reflexivity|]. split; auto.
  - (* consume *)
    change (enqueues [QCons c h]) with 0 in CP.
    unfold consume_queue. pose proof (S c) as Sc. unfold Sub in Sc. cbn [said].
    destruct (clook (qcons q) c) as [x|] eqn:L.
    2:{ eexists q, seed, _, _. split; [reflexivity|]. destruct Sc as (Sc & S2 & S3 & S4). rewrite Sc. split; [|split; reflexivity].
        constructor; rewrite ?entered_snoc, ?app_nil_r; auto.
        intros c'. rewrite seen_snoc, sub_snoc, con_snoc, ntf_snoc. cbn [see join eat ring].
        change (0 <=? DB_ERR_NO_CONSUMER) with false. rewrite andb_false_r. specialize (S c'). other; [subst c'|exact S].
        rewrite L in *. cbn. auto. }
    destruct Sc as (S1 & S2 & S3 & S4 & S5 & S6 & S7). rewrite S1. cbn [negb].
    assert (LS : zlen (seen c tr) - 1 = rdh x) by (rewrite S2, first_len; lia).
    unfold assert. rewrite LS. replace (csh x <=? rdh x) with true by lia.
    assert (K : forall st y, rdh y = rdh x -> ntf y = false -> csh y = (if 0 <=? st then h else csh x) -> -1 <= csh y <= rdh x ->
      QI (with_cons q (cset (qcons q) c y)) (tr ++ [(QCons c h, Ack st, [])])).
    { intros st y Y1 Y2 Y3 Y4. constructor; cbn [qn qcells qcons with_cons]; rewrite ?entered_snoc, ?app_nil_r; auto.
      { now apply cset_nodup. }
      intros c'. rewrite seen_snoc, sub_snoc, con_snoc, ntf_snoc. cbn [see join eat ring]. rewrite clook_set, (Z.eqb_sym c c').
      specialize (S c'). destruct (Z.eqb_spec c' c) as [->|NE]; [|exact S]. cbn [andb]. unfold Sub. rewrite Y1, Y2, Y3, S4. 
      assert (-1 <= (if 0 <=? st then h else consumed c tr) <= rdh x) by (rewrite Y3, S4 in Y4; exact Y4).
      repeat split; auto; try lia; try discriminate. }
    destruct (Z.ltb_spec (rdh x) h) as [A|A].
    { eexists _, seed, _, _. split; [reflexivity|]. split; [apply K; cbn; lia|auto]. }
    rewrite S4. destruct (Z.eqb_spec h (consumed c tr)) as [B|B].
    { eexists _, seed, _, _. split; [reflexivity|]. split; [apply K; cbn; lia|auto]. }
    rewrite wrapS_id by (unfold inS, CAPACITY in *; lia).
    eexists _, seed, _, _. split; [reflexivity|]. split; [|auto]. apply K; cbn [rdh csh ntf]; auto; try lia.
    now replace (0 <=? h) with true by lia.
Qed.

Lemma enq_cons : forall o os, enqueues (o :: os) = enqueues [o] + enqueues os.
Proof. intros. unfold enqueues. cbn [filter]. destruct o; cbn [zlen]; rewrite ?zlen_cons; change (zlen (@nil qop)) with 0; lia. Qed.

Lemma enq_nn : forall os, 0 <= enqueues os.
Proof. intros. apply zlen_nn. Qed.

Lemma run_ok : forall os q tr seed, QI q tr -> (forall o, In o os -> plain o) -> zlen (entered tr) + enqueues os <= CAPACITY ->
  exists q' seed' tr', qrun q seed os = Ok tr' /\ QI q' (tr ++ tr') /\ map (fun e => fst (fst e)) tr' = os
    /\ (forall more, qrun q seed (os ++ more) = bindr (qrun q' seed' more) (fun x => Ok (tr' ++ x)))
    /\ zlen (entered (tr ++ tr')) = zlen (entered tr) + enqueues os
    /\ forall a o r t b, tr' = a ++ (o, r, t) :: b -> said (tr ++ a) o r t.
Proof.
  induction os as [|o os IH]; intros q tr seed I P CP.
  - exists q, seed, []. rewrite app_nil_r. cbn [qrun]. split; [easy|]. split; [auto|]. split; [easy|]. split; [|split].
    + intros more. cbn [app]. now destruct (qrun q seed more).
    + change (enqueues []) with 0. lia.
    + intros a o r t b E. now destruct a.
  - rewrite enq_cons in CP. pose proof (enq_nn os). 
    destruct (step_ok q tr seed o I (P o (or_introl eq_refl))) as (q1 & s1 & r & told & E & I1 & SD); [lia|].
    assert (LE : zlen (entered (tr ++ [(o, r, told)])) = zlen (entered tr) + enqueues [o]).
    { rewrite entered_snoc, zlen_app. destruct o; reflexivity. }
    destruct (IH q1 _ s1 I1) as (q2 & s2 & tr2 & E2 & I2 & M2 & A2 & L2 & S2).
    { intros. apply P. now right. } { lia. }
    exists q2, s2, ((o, r, told) :: tr2). rewrite <- app_assoc in I2. cbn [app] in I2.
    split; [cbn [qrun]; rewrite E; cbn [bindr]; now rewrite E2|]. split; [auto|]. split; [cbn [map fst]; now rewrite M2|].
    split; [|split].
    + intros more. cbn [app qrun]. rewrite E. cbn [bindr]. rewrite A2. now destruct (qrun q2 s2 more).
    + transitivity (zlen (entered ((tr ++ [(o, r, told)]) ++ tr2))); [now rewrite <- app_assoc|]. rewrite L2, enq_cons. lia.
    + intros a o' r' t' b EA. destruct a as [|e a]; cbn [app] in EA.
      * injection EA as <- <- <- <-. now rewrite app_nil_r.
      * injection EA as <- EA. specialize (S2 a o' r' t' b EA). now rewrite <- app_assoc in S2.
Qed.

(** Invariant of the runtime, part 9: visibility, time and arrivals. *)
From Verif Require Import Base S_Rts M_Rts P_RtsTok P_RtsPlace P_Rts1 P_Rts2 P_Rts3 P_Rts4 P_Rts5 P_Rts6.
Local Open Scope nat_scope.

Section L7.
Context {U V : Type} {G : Prop}.
Notation tok_inv := (@tok_inv U V G).
Notation is_flush := (@is_flush U V G).
Notation fling := (@fling U V G).
Notation struct := (@struct U V G).
Variable vfalse vdone : V.
Variable shared : nat.
Notation instr := (instr U V).
Notation state := (state U V).
Notation event := (event U V).
Notation step := (step vfalse vdone shared).
Notation inv := (@inv U V G vfalse vdone).
Notation trans := (trans vfalse vdone).

Lemma committed_cons m e (h : list event) : committed m h -> committed m (e :: h).
Proof.
  intros [(B & n & c & H)|(A & s & newer & between & older & m0 & r & H1 & -> & H2)].
  - left. exists B, n, c. now right.
  - right. exists A, s, (e :: newer), between, older, m0, r. auto.
Qed.
Lemma committed_ext m oe (h : list event) : committed m h -> committed m (ext oe h).
Proof. destruct oe; cbn; [apply committed_cons|auto]. Qed.
Lemma committed_return m A s m0 r (h : list event) :
  sent_by A m s -> In s h -> commits A r h -> committed m (EReturn A m0 r :: h).
Proof.
  intros H1 H2 H3. apply in_split in H2. destruct H2 as (bt & ol & ->). right.
  exists A, s, [], bt, ol, m0, r. auto.
Qed.

(** Messages become visible only when committed. *)
Record cmt (s : state) : Prop := {
  c_send : forall a m, sending s a m -> committed m (log s);
  c_enq : forall m, enqing s m -> committed m (log s);
  c_tm : forall m, In m (timerQ s) -> committed m (log s);
  c_out : forall t a m, needs_flush a (todo s t) -> In m (out s a) -> committed m (log s)
}.

Lemma cmt_step (s s' : state) : G -> inv s -> sent s -> cmt s -> trans s s' -> cmt s'.
Proof.
  intros g Iv Hs [H1 H2 H3 H4] T.
  pose proof (i_struct _ _ _ Iv) as S.
  destruct T as [t l' oe Pl Eo Etm Ebox En Eto Eba Ck El Q Etd Ef Qf Qe Ql
                |t a m c v B c' d e Ht Hh Hr He ->|t B c Ht ->|t a rest Ht Hfin ->
                |t i m rest l' Ht Hi Hl' ->|t a m rest m0 Ht Hh Hne ->|t m r Ht Hq Hle ->|t a m r l' Ht Hbox Hl' Hf ->].
  - (* quiet *)
    assert (Mi : forall t' i, is_msg i = true -> In i (todo s' t') -> In i (todo s t')).
    { intros t' i Hm K. destruct (todo_in _ _ _ _ _ _ Etd K) as [[-> K']|[_ K']]; [eapply msg_in; eauto|assumption]. }
    constructor; rewrite ?El, ?Etm.
    + intros a m (t' & K). apply committed_ext. apply (H1 a). exists t'. now apply Mi.
    + intros m (t' & K). apply committed_ext. apply H2. exists t'. now apply Mi.
    + intros m K. now apply committed_ext, H3.
    + intros t' a m K Ko. rewrite Eo in Ko. rewrite Etd in K. unfold upd in K. destruct (Nat.eqb_spec t' t) as [Et|N].
      * destruct (Qf a K) as [K'|(m0 & r & -> & Hc)]; [apply committed_ext; eauto|].
        destruct (h_sent _ Hs a m) as (m1 & _ & [(B & c & Ke & _)|(d & c & Ke & _)]); [now left|..]; cbn [ext];
          eapply committed_return; eauto; [left|right]; eauto.
      * apply committed_ext; eauto.
  - (* push *) constructor; proj.
    + intros b x (t' & K). apply committed_cons. apply (H1 b). exists t'. exact K.
    + intros x (t' & K). apply committed_cons. apply H2. exists t'. exact K.
    + intros x K. now apply committed_cons, H3.
    + intros t' b x K Ko. unfold upd in Ko. destruct (Nat.eqb_spec b a) as [->|N]; [|apply committed_cons; eauto].
      exfalso. assert (Hru : In (IRun a m c v) (todo s t)) by (rewrite Ht; now left).
      destruct K as [K|(m1 & x1 & K)].
      * destruct S as (loc & place & TI & _).
        assert (F : fling s t' a) by (split; [exact g|now left]).
        destruct (ti_flush _ _ TI _ _ F) as [_ F2]. rewrite <- (F2 t) in K.
        -- rewrite Ht in K. destruct K as [K|[]]. discriminate.
        -- eapply xtok_loc; eauto.
      * pose proof (phase_unique s a _ _ S (at_todo s a t _ _ Hru eq_refl) (at_todo s a t' _ _ K eq_refl)). discriminate.
  - (* ext *) constructor; proj.
    + intros b x (t' & K). apply committed_cons. apply (H1 b). proj. unfold upd in K. destruct (Nat.eqb_spec t' t).
      * destruct K as [K|[]]. discriminate.
      * exists t'. assumption.
    + intros x (t' & K). proj. unfold upd in K. destruct (Nat.eqb_spec t' t).
      * destruct K as [K|[]]. injection K as <-. left. exists B, (clock s), c. now left.
      * apply committed_cons. apply H2. exists t'. assumption.
    + intros x K. now apply committed_cons, H3.
    + intros t' b x K Ko. apply committed_cons. unfold upd in K. destruct (Nat.eqb_spec t' t); [|eauto].
      destruct K as [[K|[]]|(m1 & x1 & [K|[]])]; discriminate.
  - (* flush *) constructor; proj.
    + intros b x (t' & K). proj. unfold upd in K. destruct (Nat.eqb_spec t' t) as [Et|N]; [|apply (H1 b); exists t'; assumption].
      apply in_app_iff in K. destruct K as [K|K].
      * apply in_map_iff in K. destruct K as (y & E & Hy). injection E as <- <-. apply in_rev in Hy.
        eapply (H4 t); eauto. left. rewrite Ht. now left.
      * exfalso. eapply (@fin_noflush U V True a rest b); eauto. split; [exact I|right; eauto].
    + intros x (t' & K). proj. unfold upd in K. destruct (Nat.eqb_spec t' t) as [Et|N]; [|apply H2; exists t'; assumption].
      apply in_app_iff in K. destruct K as [K|K].
      * apply in_map_iff in K. destruct K as (y & E & Hy). discriminate.
      * apply H2. exists t. rewrite Ht. now right.
    + exact H3.
    + intros t' b x K Ko. unfold upd in *. destruct (Nat.eqb_spec b a); [destruct Ko|].
      destruct (Nat.eqb_spec t' t) as [Et|N]; [|eauto].
      eapply (H4 t); [|eauto]. rewrite Ht. destruct (q_rest (IFlush a) rest) as (Q1 & _). apply Q1.
      destruct K as [K|(m1 & x1 & K)]; apply in_app_iff in K; destruct K as [K|K];
        try (apply in_map_iff in K; destruct K as (y & E & Hy); discriminate); [left|right]; eauto.
  - (* arrive *)
    assert (Tl : forall j, In j l' -> j = IReady (mto s m) \/ In j rest).
    { intros j K. destruct Hl' as [->| ->]; [auto|destruct K; auto]. }
    assert (Old : forall t' j, In j (upd (todo s) t l' t') -> j = IReady (mto s m) \/ In j (todo s t')).
    { intros t' j K. unfold upd in K. destruct (Nat.eqb_spec t' t) as [->|N]; [|auto]. rewrite Ht.
      destruct (Tl _ K); [auto|right; now right]. }
    constructor; proj.
    + intros b x (t' & K). apply committed_cons. apply (H1 b). exists t'. destruct (Old _ _ K) as [J|J]; [discriminate|assumption].
    + intros x (t' & K). apply committed_cons. apply H2. exists t'. destruct (Old _ _ K) as [J|J]; [discriminate|assumption].
    + intros x K. now apply committed_cons, H3.
    + intros t' b x K Ko. apply committed_cons. eapply (H4 t'); [|eauto].
      destruct K as [K|(m1 & x1 & K)]; (destruct (Old _ _ K) as [J|J]; [discriminate|]); [left|right]; eauto.
  - (* timed *)
    assert (Old : forall t' j, In j (upd (todo s) t rest t') -> In j (todo s t')).
    { intros t' j K. unfold upd in K. destruct (Nat.eqb_spec t' t) as [->|N]; [|auto]. rewrite Ht. now right. }
    constructor; proj.
    + intros b x (t' & K). apply committed_cons. apply (H1 b). exists t'. apply Old. exact K.
    + intros x (t' & K). apply committed_cons. apply H2. exists t'. apply Old. exact K.
    + intros x K. apply committed_cons. apply enq_timed_in in K. destruct K as [K| ->]; [auto|].
      apply (H1 a). exists t. rewrite Ht. now left.
    + intros t' b x K Ko. apply committed_cons. eapply (H4 t'); [|eauto].
      destruct K as [K|(m1 & x1 & K)]; apply Old in K; [left|right]; eauto.
  - (* fire *) constructor; proj.
    + intros b x (t' & K). apply committed_cons. apply (H1 b). proj. unfold upd in K. destruct (Nat.eqb_spec t' t).
      * destruct K as [K|[]]. discriminate.
      * exists t'. assumption.
    + intros x (t' & K). apply committed_cons. proj. unfold upd in K. destruct (Nat.eqb_spec t' t).
      * destruct K as [K|[]]. injection K as <-. apply H3. rewrite Hq. now left.
      * apply H2. exists t'. assumption.
    + intros x K. apply committed_cons, H3. rewrite Hq. now right.
    + intros t' b x K Ko. apply committed_cons. unfold upd in K. destruct (Nat.eqb_spec t' t); [|eauto].
      destruct K as [[K|[]]|(m1 & x1 & [K|[]])]; discriminate.
  - (* dequeue *)
    assert (Old : forall t' j, In j (upd (todo s) t l' t') -> j = IReady a \/ In j (todo s t')).
    { intros t' j K. unfold upd in K. destruct (Nat.eqb_spec t' t) as [Et|N]; [|auto].
      destruct Hl' as [->| ->]; [destruct K|destruct K as [<-|[]]; auto]. }
    constructor; proj.
    + intros b x (t' & K). apply (H1 b). exists t'. destruct (Old _ _ K) as [J|J]; [discriminate|assumption].
    + intros x (t' & K). apply H2. exists t'. destruct (Old _ _ K) as [J|J]; [discriminate|assumption].
    + exact H3.
    + intros t' b x K Ko. eapply (H4 t'); [|eauto].
      destruct K as [K|(m1 & x1 & K)]; (destruct (Old _ _ K) as [J|J]; [discriminate|]); [left|right]; eauto.
Qed.

(** Where messages go, as seen by the history. *)
Record arr (s : state) : Prop := {
  a_arr : forall B m n, In (EArrive B m n) (log s) -> m < next s /\ ~ pend s m;
  a_td : forall m, In (ETimed m) (log s) -> m < next s /\ (forall a, ~ In m (out s a)) /\ (forall a, ~ sending s a m);
  a_fd : forall m n, In (EFire m n) (log s) -> m < next s /\ (forall a, ~ In m (out s a)) /\ (forall a, ~ sending s a m) /\ ~ In m (timerQ s);
  a_tq : forall m, In m (timerQ s) -> In (ETimed m) (log s);
  a_box : forall a m, In m (mbox s a) -> (mbase s m <= clock s)%Z;
  a_enq : forall m, enqing s m -> (mbase s m <= clock s)%Z;
  a_all : forall a, exists done, arrivals a (log s) = done ++ mbox s a /\
            forall m, In m done -> exists o, In (EFinish m o) (log s);
  a_in : forall B m, In m (arrivals B (log s)) <-> exists n, In (EArrive B m n) (log s)
}.

Lemma arrivals_in B m (h : list event) : In m (arrivals B h) <-> exists n, In (EArrive B m n) h.
Proof.
  induction h as [|e h IH]; cbn [arrivals In]; [split; [tauto|intros (n & [])]|].
  destruct e; try (rewrite IH; split; intros (n & K); exists n; [now right|destruct K as [K|K]; [discriminate|assumption]]).
  destruct (Nat.eqb_spec B0 B) as [->|N].
  - rewrite in_snoc, IH. split.
    + intros [(n & K)| ->]; [exists n; now right|exists now; now left].
    + intros (n & [K|K]); [injection K as -> _; now right|left; eauto].
  - rewrite IH. split; intros (n & K); exists n; [now right|destruct K as [K|K]; [congruence|assumption]].
Qed.

Definition not_move (e : event) : Prop :=
  match e with EArrive _ _ _ | ETimed _ | EFire _ _ => False | _ => True end.

Lemma arrivals_quiet B e (h : list event) : not_move e -> arrivals B (e :: h) = arrivals B h.
Proof. destruct e; cbn; intros; try contradiction; reflexivity. Qed.

Lemma arr_step (s s' : state) : inv s -> struct s' -> arr s -> trans s s' -> arr s'.
Proof.
  intros Iv S' [H1 H2 H3 H4 H5 H6 H7 _] T.
  pose proof (i_struct _ _ _ Iv) as S.
  assert (Ain : forall B m, In m (arrivals B (log s')) <-> exists n, In (EArrive B m n) (log s')) by (intros; apply arrivals_in).
  destruct T as [t l' oe Pl Eo Etm Ebox En Eto Eba Ck El Q Etd Ef Qf Qe Ql
                |t a m c v B c' d e Ht Hh Hr He ->|t B c Ht ->|t a rest Ht Hfin ->
                |t i m rest l' Ht Hi Hl' ->|t a m rest m0 Ht Hh Hne ->|t m r Ht Hq Hle ->|t a m r l' Ht Hbox Hl' Hf ->].
  - (* quiet *)
    assert (Mi : forall t' i, is_msg i = true -> In i (todo s' t') -> In i (todo s t')).
    { intros t' i Hm K. destruct (todo_in _ _ _ _ _ _ Etd K) as [[-> K']|[_ K']]; [eapply msg_in; eauto|assumption]. }
    assert (Sd : forall a m, sending s' a m -> sending s a m) by (intros a m (t' & K); exists t'; now apply Mi).
    assert (Sn : forall m, enqing s' m -> enqing s m) by (intros m (t' & K); exists t'; now apply Mi).
    assert (Pe : forall m, pend s' m -> pend s m).
    { unfold pend. rewrite Eo, Etm. intros m [K|[(a & K)|[K|K]]]; eauto 6. }
    assert (Le : forall e, not_move e -> In e (log s') -> True) by auto.
    assert (Lo : forall e, ~ not_move e -> In e (log s') -> In e (log s)).
    { intros e Ne K. rewrite El in K. destruct oe as [e'|]; cbn in K; [|assumption]. destruct K as [->|K]; [|assumption].
      exfalso. apply Ne. destruct e; cbn in Q; try contradiction; exact I. }
    constructor; rewrite ?En, ?Eo, ?Etm, ?Ebox, ?Eba; auto.
    + intros B m n K. apply Lo in K; [|cbn; auto]. destruct (H1 _ _ _ K). auto.
    + intros m K. apply Lo in K; [|cbn; auto]. destruct (H2 _ K) as (K1 & K2 & K3). repeat split; auto. intros a J. eapply K3; eauto.
    + intros m n K. apply Lo in K; [|cbn; auto]. destruct (H3 _ _ K) as (K1 & K2 & K3 & K4). repeat split; auto. intros a J. eapply K3; eauto.
    + intros m K. rewrite El. apply incl_ext. auto.
    + intros a m K. specialize (H5 a m K). lia.
    + intros m K. specialize (H6 m (Sn _ K)). lia.
    + intros a. destruct (H7 a) as (dn & K1 & K2). exists dn. split.
      * rewrite El, <- K1. destruct oe as [e'|]; [|reflexivity]. destruct e'; cbn in Q; try contradiction; reflexivity.
      * intros m K. destruct (K2 m K) as [o Ko]. exists o. rewrite El. now apply incl_ext.
  - (* push *)
    assert (Pe : forall x, x <> next s -> pend (logev e (set_out (upd (out s) a (next s :: out s a)) (new_msg vdone B c' (mbase s m + d)%Z s))) x -> pend s x).
    { unfold pend, sending, enqing. proj. intros x N [(b & K)|K]; [|now right]. left. unfold upd in K.
      destruct (Nat.eqb_spec b a) as [Eb|Nb]; [|eauto]. destruct K as [K|K]; [congruence|eauto]. }
    assert (Lo : forall e', ~ not_move e' -> In e' (e :: log s) -> In e' (log s)).
    { intros e' Ne [->|K]; [|assumption]. exfalso. apply Ne. destruct He as [[-> _]|[_ ->]]; exact I. }
    assert (Lt : forall x, In x (timerQ s) -> x < next s) by (intros x K; eapply pend_lt; eauto; unfold pend; auto).
    constructor; proj; auto.
    + intros C x n K. apply Lo in K; [|cbn; auto]. destruct (H1 _ _ _ K) as [K1 K2]. split; [lia|]. intros J. apply K2, Pe; [lia|assumption].
    + intros x K. apply Lo in K; [|cbn; auto]. destruct (H2 _ K) as (K1 & K2 & K3). split; [lia|]. split.
      * intros b J. unfold upd in J. destruct (Nat.eqb_spec b a) as [Eb|Nb]; [destruct J as [J|J]; [lia|]|]; eapply K2; eauto.
      * intros b (t' & J). eapply (K3 b). exists t'. exact J.
    + intros x n K. apply Lo in K; [|cbn; auto]. destruct (H3 _ _ K) as (K1 & K2 & K3 & K4). split; [lia|]. split; [|split].
      * intros b J. unfold upd in J. destruct (Nat.eqb_spec b a) as [Eb|Nb]; [destruct J as [J|J]; [lia|]|]; eapply K2; eauto.
      * intros b (t' & J). eapply (K3 b). exists t'. exact J.
      * exact K4.
    + intros x K. right. auto.
    + intros b x K. assert (x < next s) by (eapply box_lt; eauto). rewrite upd_other by lia. eauto.
    + intros x K. assert (x < next s). { eapply pend_lt; eauto. unfold pend. right. right. left. exact K. }
      rewrite upd_other by lia. apply H6. exact K.
    + intros b. destruct (H7 b) as (dn & K1 & K2). exists dn. split.
      * rewrite <- K1. destruct He as [[-> _]|[_ ->]]; reflexivity.
      * intros x K. destruct (K2 x K) as [o Ko]. exists o. now right.
  - (* ext *)
    assert (Sd : forall s2 b x, todo s2 = upd (todo s) t [IEnq (next s)] -> sending s2 b x -> sending s b x).
    { intros s2 b x E (t' & K). rewrite E in K. unfold upd in K. destruct (Nat.eqb_spec t' t).
      - destruct K as [K|[]]. discriminate.
      - exists t'. assumption. }
    assert (Sn : forall s2 x, todo s2 = upd (todo s) t [IEnq (next s)] -> enqing s2 x -> enqing s x \/ x = next s).
    { intros s2 x E (t' & K). rewrite E in K. unfold upd in K. destruct (Nat.eqb_spec t' t).
      - destruct K as [K|[]]. injection K as <-. now right.
      - left. exists t'. assumption. }
    constructor; proj; auto.
    + intros C x n [K|K]; [discriminate|]. destruct (H1 _ _ _ K) as [K1 K2]. split; [lia|]. intros J. apply K2.
      destruct J as [J|[(b & J)|[J|J]]]; unfold pend; proj; eauto.
      * right. left. exists b. eapply Sd; [|exact J]. reflexivity.
      * apply Sn in J; [|reflexivity]. destruct J as [J|J]; [auto|lia].
    + intros x [K|K]; [discriminate|]. destruct (H2 _ K) as (K1 & K2 & K3). split; [lia|]. split; [exact K2|].
      intros b J. apply (K3 b). eapply Sd; [|exact J]. reflexivity.
    + intros x n [K|K]; [discriminate|]. destruct (H3 _ _ K) as (K1 & K2 & K3 & K4). split; [lia|]. split; [exact K2|]. split; [|exact K4].
      intros b J. apply (K3 b). eapply Sd; [|exact J]. reflexivity.
    + intros x K. right. auto.
    + intros b x K. assert (x < next s) by (eapply box_lt; eauto). rewrite upd_other by lia. eauto.
    + intros x K. apply Sn in K; [|reflexivity]. destruct K as [K| ->]; [|rewrite upd_same; lia].
      assert (x < next s). { eapply pend_lt; eauto. unfold pend. auto. } rewrite upd_other by lia. auto.
    + intros b. destruct (H7 b) as (dn & K1 & K2). exists dn. split; [exact K1|].
      intros x K. destruct (K2 x K) as [o Ko]. exists o. now right.
  - (* flush *)
    set (s' := set_out _ _) in *.
    assert (Sd : forall b x, sending s' b x -> sending s b x \/ In x (out s b)).
    { intros b x (t' & K). unfold s' in K. proj. unfold upd in K. destruct (Nat.eqb_spec t' t) as [Et|N]; [|left; exists t'; assumption].
      apply in_app_iff in K. destruct K as [K|K].
      - apply in_map_iff in K. destruct K as (y & E & Hy). injection E as <- <-. right. now apply in_rev.
      - exfalso. eapply (@fin_noflush U V True a rest b); eauto. split; [exact I|right; eauto]. }
    assert (Sn : forall x, enqing s' x -> enqing s x).
    { intros x (t' & K). unfold s' in K. proj. unfold upd in K. destruct (Nat.eqb_spec t' t) as [Et|N]; [|exists t'; assumption].
      apply in_app_iff in K. destruct K as [K|K].
      - apply in_map_iff in K. destruct K as (y & E & Hy). discriminate.
      - exists t. rewrite Ht. now right. }
    assert (So : forall b x, In x (out s' b) -> In x (out s b)).
    { intros b x K. unfold s' in K. proj. unfold upd in K. destruct (Nat.eqb_spec b a); [destruct K|assumption]. }
    constructor; auto.
    + intros C x n K. destruct (H1 _ _ _ K) as [K1 K2]. split; [exact K1|]. intros J. apply K2.
      destruct J as [(b & J)|[(b & J)|[J|J]]]; unfold pend.
      * left. eauto.
      * destruct (Sd _ _ J); eauto.
      * auto.
      * auto.
    + intros x K. destruct (H2 _ K) as (K1 & K2 & K3). split; [exact K1|]. split.
      * intros b J. eapply K2; eauto.
      * intros b J. destruct (Sd _ _ J); [eapply K3|eapply K2]; eauto.
    + intros x n K. destruct (H3 _ _ K) as (K1 & K2 & K3 & K4). split; [exact K1|]. split; [|split].
      * intros b J. eapply K2; eauto.
      * intros b J. destruct (Sd _ _ J); [eapply K3|eapply K2]; eauto.
      * exact K4.
    + intros x K. apply H6. auto.
  - (* arrive *)
    set (s' := logev _ _) in *.
    assert (Tl : forall j, In j l' -> j = IReady (mto s m) \/ In j rest).
    { intros j K. destruct Hl' as [->| ->]; [auto|destruct K; auto]. }
    assert (Old : forall t' j, In j (todo s' t') -> j = IReady (mto s m) \/ In j (todo s t')).
    { intros t' j K. unfold s' in K. proj. unfold upd in K. destruct (Nat.eqb_spec t' t) as [Et|N]; [|auto]. subst t'. rewrite Ht.
      destruct (Tl _ K); [auto|right; now right]. }
    assert (Sd : forall b x, sending s' b x -> sending s b x).
    { intros b x (t' & K). exists t'. destruct (Old _ _ K) as [J|J]; [discriminate|assumption]. }
    assert (Sn : forall x, enqing s' x -> enqing s x).
    { intros x (t' & K). exists t'. destruct (Old _ _ K) as [J|J]; [discriminate|assumption]. }
    assert (Pe : forall x, pend s' x -> pend s x).
    { intros x [K|[(b & K)|[K|K]]]; unfold pend; eauto 6. }
    assert (Pm : pend s m).
    { destruct Hi as [->|(a0 & m1 & -> & _)]; unfold pend.
      - right. right. left. exists t. rewrite Ht. now left.
      - right. left. exists a0, t. rewrite Ht. now left. }
    assert (Cm : (mbase s m <= clock s)%Z).
    { destruct Hi as [->|(a0 & m1 & -> & [r1 Hr1] & Eb)].
      - apply H6. exists t. rewrite Ht. now left.
      - rewrite Eb. apply (H5 a0). rewrite Hr1. now left. }
    constructor; auto.
    + intros C x n K. unfold s' in K. proj. destruct K as [K|K].
      * injection K as <- <- <-. split; [unfold s'; proj; eapply pend_lt; eauto|]. apply (box_not_pend s' (mto s m) m S').
        unfold s'. proj. rewrite upd_same. apply in_snoc. now right.
      * destruct (H1 _ _ _ K) as [K1 K2]. split; [exact K1|]. auto.
    + intros x [K|K]; [discriminate|]. destruct (H2 _ K) as (K1 & K2 & K3). split; [exact K1|]. split; [exact K2|].
      intros b J. eapply K3; eauto.
    + intros x n [K|K]; [discriminate|]. destruct (H3 _ _ K) as (K1 & K2 & K3 & K4). split; [exact K1|]. split; [exact K2|]. split; [|exact K4].
      intros b J. eapply K3; eauto.
    + intros x K. right. auto.
    + intros b x K. unfold s' in *. proj. unfold upd in K. destruct (Nat.eqb_spec b (mto s m)) as [->|N]; [|eauto].
      apply in_snoc in K. destruct K as [K| ->]; eauto.
    + intros x K. apply H6. auto.
    + intros b. destruct (H7 b) as (dn & K1 & K2). exists dn. split.
      * unfold s'. proj. cbn [arrivals]. rewrite (Nat.eqb_sym (mto s m) b). unfold upd.
        destruct (Nat.eqb_spec b (mto s m)) as [->|N]; [|exact K1]. rewrite K1. now rewrite app_assoc.
      * intros x K. destruct (K2 x K) as [o Ko]. exists o. now right.
  - (* timed *)
    set (s' := logev _ _) in *.
    assert (Old : forall t' j, In j (todo s' t') -> In j (todo s t')).
    { intros t' j K. unfold s' in K. proj. unfold upd in K. destruct (Nat.eqb_spec t' t) as [Et|N]; [|auto]. subst t'. rewrite Ht. now right. }
    assert (Sd : forall b x, sending s' b x -> sending s b x).
    { intros b x (t' & K). exists t'. auto. }
    assert (Sn : forall x, enqing s' x -> enqing s x).
    { intros x (t' & K). exists t'. auto. }
    assert (Sm : sending s a m) by (exists t; rewrite Ht; now left).
    assert (Tm : forall x, In x (timerQ s') -> In x (timerQ s) \/ x = m).
    { intros x K. unfold s' in K. proj. now apply enq_timed_in in K. }
    assert (Mm : In m (timerQ s')). { unfold s'. proj. apply enq_timed_in. now right. }
    constructor; auto.
    + intros C x n [K|K]; [discriminate|]. destruct (H1 _ _ _ K) as [K1 K2]. split; [exact K1|]. intros J. apply K2.
      destruct J as [J|[(b & J)|[J|J]]]; unfold pend; eauto 6. destruct (Tm _ J) as [J'| ->]; eauto 6.
    + intros x [K|K].
      * injection K as <-. split; [unfold s'; proj; eapply pend_lt; eauto; unfold pend; eauto|]. split.
        -- intros b J. eapply (tm_not_out s' b m); eauto.
        -- intros b (t' & J). eapply (tm_not_fl s' t' _ m); eauto.
      * destruct (H2 _ K) as (K1 & K2 & K3). split; [exact K1|]. split; [exact K2|].
        intros b J. eapply K3; eauto.
    + intros x n [K|K]; [discriminate|]. destruct (H3 _ _ K) as (K1 & K2 & K3 & K4). split; [exact K1|]. split; [exact K2|]. split.
      * intros b J. eapply K3; eauto.
      * intros J. destruct (Tm _ J) as [J'| ->]; [auto|]. eapply K3; eauto.
    + intros x K. destruct (Tm _ K) as [J| ->]; [right; auto|now left].
    + intros x K. apply H6. auto.
    + intros b. destruct (H7 b) as (dn & K1 & K2). exists dn. split; [exact K1|].
      intros x K. destruct (K2 x K) as [o Ko]. exists o. now right.
  - (* fire *)
    set (s' := logev _ _) in *.
    assert (Sd : forall b x, sending s' b x -> sending s b x).
    { intros b x (t' & K). unfold s' in K. proj. unfold upd in K. destruct (Nat.eqb_spec t' t).
      - destruct K as [K|[]]. discriminate.
      - exists t'. assumption. }
    assert (Sn : forall x, enqing s' x -> enqing s x \/ x = m).
    { intros x (t' & K). unfold s' in K. proj. unfold upd in K. destruct (Nat.eqb_spec t' t).
      - destruct K as [K|[]]. injection K as <-. now right.
      - left. exists t'. assumption. }
    assert (Mq : In m (timerQ s)) by (rewrite Hq; now left).
    assert (Me : In (IEnq m) (todo s' t)) by (unfold s'; proj; rewrite upd_same; now left).
    assert (Tq : forall x, In x (timerQ s') -> In x (timerQ s)) by (intros x K; rewrite Hq; now right).
    constructor; auto.
    + intros C x n [K|K]; [discriminate|]. destruct (H1 _ _ _ K) as [K1 K2]. split; [exact K1|]. intros J. apply K2.
      destruct J as [J|[(b & J)|[J|J]]]; unfold pend; eauto 6. destruct (Sn _ J) as [J'| ->]; eauto 6.
    + intros x [K|K]; [discriminate|]. destruct (H2 _ K) as (K1 & K2 & K3). split; [exact K1|]. split; [exact K2|].
      intros b J. eapply K3; eauto.
    + intros x n [K|K].
      * injection K as <- <-. split; [unfold s'; proj; eapply pend_lt; eauto; unfold pend; eauto|]. split; [|split].
        -- intros b J. eapply (out_not_fl s' b t _ m); eauto.
        -- intros b (t' & J). destruct (fl_same s' _ _ _ _ m S' Me J eq_refl eq_refl). discriminate.
        -- intros J. eapply (tm_not_fl s' t _ m); eauto.
      * destruct (H3 _ _ K) as (K1 & K2 & K3 & K4). split; [exact K1|]. split; [exact K2|]. split; [|auto].
        intros b J. eapply K3; eauto.
    + intros x K. right. auto.
    + intros x K. destruct (Sn _ K) as [J| ->]; [apply H6; assumption|exact Hle].
    + intros b. destruct (H7 b) as (dn & K1 & K2). exists dn. split; [exact K1|].
      intros x K. destruct (K2 x K) as [o Ko]. exists o. now right.
  - (* dequeue *)
    set (s' := set_mbox _ _) in *.
    assert (Old : forall t' j, In j (todo s' t') -> j = IReady a \/ In j (todo s t')).
    { intros t' j K. unfold s' in K. proj. unfold upd in K. destruct (Nat.eqb_spec t' t) as [Et|N]; [|auto].
      destruct Hl' as [->| ->]; [destruct K|destruct K as [<-|[]]; auto]. }
    assert (Sd : forall b x, sending s' b x -> sending s b x).
    { intros b x (t' & K). exists t'. destruct (Old _ _ K) as [J|J]; [discriminate|assumption]. }
    assert (Sn : forall x, enqing s' x -> enqing s x).
    { intros x (t' & K). exists t'. destruct (Old _ _ K) as [J|J]; [discriminate|assumption]. }
    constructor; auto.
    + intros C x n K. destruct (H1 _ _ _ K) as [K1 K2]. split; [exact K1|]. intros J. apply K2.
      destruct J as [J|[(b & J)|[J|J]]]; unfold pend; eauto 6.
    + intros x K. destruct (H2 _ K) as (K1 & K2 & K3). split; [exact K1|]. split; [exact K2|].
      intros b J. eapply K3; eauto.
    + intros x n K. destruct (H3 _ _ K) as (K1 & K2 & K3 & K4). split; [exact K1|]. split; [exact K2|]. split; [|auto].
      intros b J. eapply K3; eauto.
    + intros b x K. unfold s' in *. proj. unfold upd in K. destruct (Nat.eqb_spec b a) as [->|N]; [|eauto].
      apply (H5 a). rewrite Hbox. now right.
    + intros x K. apply H6. auto.
    + intros b. destruct (H7 b) as (dn & K1 & K2). unfold s'. proj. unfold upd. destruct (Nat.eqb_spec b a) as [->|N].
      * exists (dn ++ [m]). rewrite K1, Hbox, <- app_assoc. split; [reflexivity|].
        intros x K. apply in_snoc in K. destruct K as [K| ->]; auto.
      * exists dn. auto.
Qed.

End L7.

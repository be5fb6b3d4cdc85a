(** Invariant of the runtime, part 5: where an actor is agrees with what it did last. *)
From Verif Require Import Base S_Rts M_Rts P_RtsTok P_RtsPlace P_Rts1 P_Rts2.
Local Open Scope nat_scope.

Section L3.
Context {U V : Type} {G : Prop}.
Notation tok_inv := (@tok_inv U V G).
Notation is_flush := (@is_flush U V G).
Notation fling := (@fling U V G).
Notation struct := (@struct U V G).
Variable vfalse vdone : V.
Variable shared : nat.
Notation instr := (instr U V).
Notation state := (state U V).
Notation event := (event U V).
Notation outcome := (outcome V).
Notation step := (step vfalse vdone shared).
Notation expect := (expect vfalse).

Definition head (s : state) (a : aid) (m : mid) : Prop := exists r, mbox s a = m :: r.
Definition unstarted (m : mid) (h : list event) : Prop := forall a c v, ~ In (EBegin a m c v) h.
Definition begun (m : mid) (h : list event) : Prop := exists a c v, In (EBegin a m c v) h.
Definition ended (m : mid) (o : outcome) (h : list event) : Prop :=
  exists a r h', last_return m h = Some (a, r, h') /\
    match r, o with
    | RDone v, OVal v' => v' = v
    | RFail e, OExc e' => e' = e /\ handlers a h' = []
    | _, _ => False
    end.
Definition mark (o : outcome) : mcont U := match o with OVal _ => MarkResult | OExc _ => MarkException end.
Definition oval (o : outcome) : V := match o with OVal v => v | OExc e => e end.

Inductive phase :=
| PhIdle | PhReady | PhWait (x : mid) | PhWake (x : mid) (o : outcome)
| PhRun (m : mid) (c : cont U) (v : V) | PhSet (m : mid) (o : outcome) | PhFreeze (m : mid) (o : outcome)
| PhDeq (m : mid) | PhAdd (m x : mid) | PhRes (m x : mid).

Definition iphase (i : instr) : option (aid * phase) :=
  match i with
  | IBegin a | IReady a => Some (a, PhReady)
  | IRun a m c v => Some (a, PhRun m c v)
  | ISetVal a m o => Some (a, PhSet m o)
  | IFreeze a m o => Some (a, PhFreeze m o)
  | IWake x o b => Some (b, PhWake x o)
  | IDeq a m => Some (a, PhDeq m)
  | IAdd a m x => Some (a, PhAdd m x)
  | IResume a m x => Some (a, PhRes m x)
  | IFlush _ | ISend _ _ | IEnq _ => None
  end.

Inductive at_phase (s : state) (a : aid) : phase -> Prop :=
| at_idle : mbox s a = [] -> at_phase s a PhIdle
| at_rq q : In a (rq s q) -> at_phase s a PhReady
| at_wait x : In a (mwait s x) -> at_phase s a (PhWait x)
| at_todo t i ph : In i (todo s t) -> iphase i = Some (a, ph) -> at_phase s a ph.

(** An actor that is to run c v next. *)
Definition next_ok (h : list event) (a : aid) (m : mid) (c : cont U) (v : V) : Prop :=
  match expect a h with
  | XNext => created m a c h /\ v = vdone /\ unstarted m h
  | XCall m' c' v' => m = m' /\ c = c' /\ v = v'
  | XWait m' c' x => m = m' /\ exists o, In (EFinish x o) h /\
                     match o with
                     | OVal r => c = c' /\ v = r
                     | OExc e => c = CFail /\ v = e
                     end
  end.

(** An actor waiting for x. *)
Definition wait_ok (s : state) (a : aid) (m x : mid) : Prop :=
  exists c, head s a m /\ mcnt s m = Code c /\ running a (log s) = None /\
    expect a (log s) = XWait m c x /\ begun m (log s).

Definition done_ok (s : state) (a : aid) (m : mid) : Prop :=
  head s a m /\ running a (log s) = None /\ expect a (log s) = XNext /\ begun m (log s).

Definition phase_ok (s : state) (a : aid) (ph : phase) : Prop :=
  match ph with
  | PhIdle => running a (log s) = None /\ expect a (log s) = XNext
  | PhReady => exists m c, head s a m /\ mcnt s m = Code c /\ running a (log s) = None /\
                 next_ok (log s) a m c (mval s m)
  | PhWait x => exists m, wait_ok s a m x /\ waitsfor s a = Some x
  | PhWake x o => (exists m, wait_ok s a m x /\ waitsfor s a = Some x) /\ In (EFinish x o) (log s)
  | PhRun m c v => head s a m /\ running a (log s) = Some (m, c, v) /\ exists c', mcnt s m = Code c'
  | PhSet m o => done_ok s a m /\ (exists c, mcnt s m = Code c) /\ ended m o (log s)
  | PhFreeze m o => done_ok s a m /\ (exists c, mcnt s m = Code c) /\ ended m o (log s) /\ mval s m = oval o
  | PhDeq m => done_ok s a m /\ exists o, In (EFinish m o) (log s)
  | PhAdd m x => wait_ok s a m x
  | PhRes m x => wait_ok s a m x /\ exists o, In (EFinish x o) (log s)
  end.

(** Messages not yet at the head of a mailbox. *)
Definition waiting (s : state) (m : mid) : Prop :=
  (exists a, In m (out s a)) \/ (exists t, In m (flat_map fl (todo s t))) \/ In m (timerQ s) \/
  (exists a m0 r, mbox s a = m0 :: r /\ In m r).

Record glob (s : state) : Prop := {
  gl_fin : forall m o, In (EFinish m o) (log s) -> m < next s /\ mcnt s m = mark o /\ mval s m = oval o;
  gl_fz : forall m, m < next s -> frozen (mcnt s m) = true -> exists o, In (EFinish m o) (log s);
  gl_un : forall m, waiting s m -> unstarted m (log s);
  gl_pr : forall m, m < next s -> unstarted m (log s) ->
            exists c, mcnt s m = Code c /\ created m (mto s m) c (log s) /\ mval s m = vdone;
  gl_wt : forall x a, In a (mwait s x) -> frozen (mcnt s x) = false;
  gl_bg : forall a m c v, In (EBegin a m c v) (log s) -> m < next s
}.

Definition phases (s : state) : Prop := forall a ph, at_phase s a ph -> phase_ok s a ph.

(** ** Uniqueness of phases *)
Lemma flat_one {A B} (f : A -> list B) l i j b :
  NoDup (flat_map f l) -> In i l -> In j l -> f i = [b] -> f j = [b] -> i = j.
Proof.
  induction l as [|x l IH]; cbn; [contradiction|]. intros Nd Hi Hj Ei Ej.
  assert (K : forall y, In y l -> f x = [b] -> f y = [b] -> False).
  { intros y Hy E1 E2. rewrite E1 in Nd. cbn in Nd. inversion Nd; subst. apply H1.
    apply in_flat_map. exists y. split; [assumption|]. rewrite E2. now left. }
  destruct Hi as [->|Hi], Hj as [->|Hj]; auto.
  - exfalso. eapply (K j); eauto.
  - exfalso. eapply (K i); eauto.
  - apply IH; auto. clear -Nd. induction (f x); cbn in Nd; [assumption|inversion Nd; auto].
Qed.

Lemma iphase_tok i a ph : iphase i = Some (a, ph) -> (xtok i = [a] /\ ptok i = []) \/ (ptok i = [a] /\ xtok i = []).
Proof. destruct i; cbn; intros H; inversion H; subst; auto. Qed.

Definition loc_of (i : instr) (t : tid) : loc_t := match xtok i with [] => LPark t | _ => LExec t end.

Lemma at_todo_loc loc s t i a ph : tok_inv loc s -> In i (todo s t) -> iphase i = Some (a, ph) -> loc a = loc_of i t.
Proof.
  intros I Hi E. unfold loc_of. destruct (iphase_tok _ _ _ E) as [[E1 E2]|[E1 E2]]; rewrite ?E1, ?E2.
  - eapply xtok_loc; eauto.
  - eapply ptok_loc; eauto.
Qed.

Lemma phase_unique s a ph ph' : struct s -> at_phase s a ph -> at_phase s a ph' -> ph = ph'.
Proof.
  intros (loc & place & I & _ & _) H H'.
  assert (D : forall t i, loc_of i t <> LNone /\ (forall q, loc_of i t <> LReady q) /\ (forall x, loc_of i t <> LWait x)).
  { intros t i. unfold loc_of. destruct (xtok i); repeat split; intros; discriminate. }
  inversion H as [H1|q H1|x H1|t i ph0 H1 H2]; inversion H' as [H1'|q' H1'|x' H1'|t' i' ph0' H1' H2']; subst; auto;
    repeat match goal with
    | K : mbox s a = [] |- _ => apply (ti_box _ _ I) in K
    | K : In a (rq s _) |- _ => apply (ti_rq _ _ I) in K
    | K : In a (mwait s _) |- _ => apply (ti_w _ _ I) in K
    end; try congruence;
    try (pose proof (at_todo_loc _ _ _ _ _ _ I H1 H2) as L);
    try (pose proof (at_todo_loc _ _ _ _ _ _ I H1' H2') as L');
    try (exfalso; match goal with L : loc _ = loc_of ?i ?t |- _ => destruct (D t i) as (D1 & D2 & D3) end; congruence).
  assert (i = i').
  { destruct (iphase_tok _ _ _ H2) as [[E1 E2]|[E1 E2]]; destruct (iphase_tok _ _ _ H2') as [[E1' E2']|[E1' E2']];
      unfold loc_of in L, L'; rewrite ?E1, ?E2, ?E1', ?E2' in *; rewrite L in L'; try discriminate; injection L' as <-.
    - eapply (flat_one xtok); [apply (ti_x_nd _ _ I t)|eauto..].
    - eapply (flat_one ptok); [apply (ti_p_nd _ _ I t)|eauto..]. }
  subst i'. congruence.
Qed.

(** ** Frames *)
Record same_for (b : aid) (s s' : state) : Prop := {
  sf_head : forall m, head s b m -> head s' b m;
  sf_idle : mbox s' b = [] -> mbox s b = [];
  sf_cnt : forall m, head s b m -> mcnt s' m = mcnt s m;
  sf_val : forall m, head s b m -> mval s' m = mval s m;
  sf_last : forall m, head s b m -> last_return m (log s') = last_return m (log s);
  sf_un : forall m, head s b m -> unstarted m (log s) -> unstarted m (log s');
  sf_run : running b (log s') = running b (log s);
  sf_exp : expect b (log s') = expect b (log s);
  sf_wf : waitsfor s' b = waitsfor s b;
  sf_log : incl (log s) (log s')
}.

Lemma begun_mono m h h' : incl h h' -> begun m h -> begun m h'.
Proof. intros I (a & c & v & H). exists a, c, v. auto. Qed.

Lemma wait_ok_same b s s' m x : same_for b s s' -> wait_ok s b m x -> wait_ok s' b m x.
Proof.
  intros F (c & H1 & H2 & H3 & H4 & H5). exists c.
  rewrite (sf_cnt _ _ _ F _ H1), (sf_run _ _ _ F), (sf_exp _ _ _ F).
  pose proof (sf_head _ _ _ F _ H1). pose proof (begun_mono _ _ _ (sf_log _ _ _ F) H5). auto.
Qed.
Lemma done_ok_same b s s' m : same_for b s s' -> done_ok s b m -> done_ok s' b m.
Proof.
  intros F (H1 & H3 & H4 & H5). unfold done_ok.
  rewrite (sf_run _ _ _ F), (sf_exp _ _ _ F).
  pose proof (sf_head _ _ _ F _ H1). pose proof (begun_mono _ _ _ (sf_log _ _ _ F) H5). auto.
Qed.

Lemma phase_ok_same b s s' ph : same_for b s s' -> phase_ok s b ph -> phase_ok s' b ph.
Proof.
  intros F. pose proof (sf_log _ _ _ F) as Hl. destruct ph; cbn [phase_ok].
  - now rewrite (sf_run _ _ _ F), (sf_exp _ _ _ F).
  - intros (m & c & H1 & H2 & H3 & H4). exists m, c.
    rewrite (sf_cnt _ _ _ F _ H1), (sf_val _ _ _ F _ H1), (sf_run _ _ _ F).
    split; [eapply sf_head; eauto|]. split; [assumption|]. split; [assumption|].
    unfold next_ok in *. rewrite (sf_exp _ _ _ F). destruct (expect b (log s)) as [|m' c' v'|m' c' x].
    + destruct H4 as (K1 & K2 & K3). split; [eapply created_mono; eauto|]. split; [assumption|].
      eapply sf_un; eauto.
    + exact H4.
    + destruct H4 as (K1 & o & K2 & K3). split; [assumption|]. exists o. auto.
  - intros (m & H1 & H2). exists m. rewrite (sf_wf _ _ _ F). split; [eapply wait_ok_same; eauto|assumption].
  - intros ((m & H1 & H2) & H3). split; [exists m; rewrite (sf_wf _ _ _ F); split; [eapply wait_ok_same; eauto|assumption]|auto].
  - intros (H1 & H2 & c' & H3). rewrite (sf_run _ _ _ F). split; [eapply sf_head; eauto|]. split; [assumption|].
    exists c'. now rewrite (sf_cnt _ _ _ F _ H1).
  - intros (H1 & (c' & H2) & H3). split; [eapply done_ok_same; eauto|]. destruct H1 as [H1 _]. split.
    + exists c'. now rewrite (sf_cnt _ _ _ F _ H1).
    + unfold ended in *. now rewrite (sf_last _ _ _ F _ H1).
  - intros (H1 & (c' & H2) & H3 & H4). split; [eapply done_ok_same; eauto|]. destruct H1 as [H1 _]. split; [|split].
    + exists c'. now rewrite (sf_cnt _ _ _ F _ H1).
    + unfold ended in *. now rewrite (sf_last _ _ _ F _ H1).
    + now rewrite (sf_val _ _ _ F _ H1).
  - intros (H1 & o & H2). split; [eapply done_ok_same; eauto|eauto].
  - eapply wait_ok_same; eauto.
  - intros (H1 & o & H2). split; [eapply wait_ok_same; eauto|eauto].
Qed.

(** A step of thread t that leaves it with l'. *)
Lemma phases_step (T : aid -> Prop) s s' t l' :
  phases s -> struct s' ->
  (forall a, T a -> exists ph, at_phase s' a ph /\ phase_ok s' a ph) ->
  (forall a, ~ T a -> same_for a s s') ->
  (forall a q, ~ T a -> In a (rq s' q) -> at_phase s a PhReady) ->
  (forall a x, ~ T a -> In a (mwait s' x) -> at_phase s a (PhWait x)) ->
  (forall t', todo s' t' = upd (todo s) t l' t') ->
  (forall i a ph, ~ T a -> In i l' -> iphase i = Some (a, ph) -> at_phase s a ph) ->
  (forall a, T a \/ ~ T a) ->
  phases s'.
Proof.
  intros P St HT HF Hrq Hw Htd Hl D a ph H. destruct (D a) as [Ta|Na].
  - destruct (HT a Ta) as (ph' & K1 & K2). now rewrite (phase_unique _ _ _ _ St H K1).
  - eapply phase_ok_same; [apply HF; exact Na|]. apply P. destruct H as [H|q H|x H|t' i ph H E].
    + constructor. eapply sf_idle; eauto.
    + eauto.
    + eauto.
    + rewrite Htd in H. unfold upd in H. destruct (Nat.eqb_spec t' t) as [->|N]; [eauto|].
      eapply at_todo; eauto.
Qed.

Lemma phases_none s s' t l' :
  phases s -> struct s' ->
  (forall a, same_for a s s') ->
  (forall a q, In a (rq s' q) -> at_phase s a PhReady) ->
  (forall x, mwait s' x = mwait s x) ->
  (forall t', todo s' t' = upd (todo s) t l' t') ->
  (forall i a ph, In i l' -> iphase i = Some (a, ph) -> at_phase s a ph) ->
  phases s'.
Proof.
  intros P St HF Hrq Hw Htd Hl. eapply (phases_step (fun _ => False)); eauto; try tauto.
  intros a x _ H. rewrite Hw in H. now constructor.
Qed.

Lemma phases_one a s s' t l' :
  phases s -> struct s' ->
  (exists ph, at_phase s' a ph /\ phase_ok s' a ph) ->
  (forall b, b <> a -> same_for b s s') ->
  (forall q, rq s' q = rq s q) ->
  (forall b x, b <> a -> In b (mwait s' x) -> In b (mwait s x)) ->
  (forall t', todo s' t' = upd (todo s) t l' t') ->
  (forall i b ph, b <> a -> In i l' -> iphase i = Some (b, ph) -> In i (todo s t)) ->
  phases s'.
Proof.
  intros P St Ha HF Hrq Hw Htd Hl. eapply (phases_step (fun b => b = a)); eauto.
  - intros b ->. exact Ha.
  - intros b q _ H. rewrite Hrq in H. econstructor; eauto.
  - intros b x N H. constructor. eauto.
  - intros i b ph N Hi E. eapply at_todo; eauto.
  - intros b. destruct (Nat.eq_dec b a); auto.
Qed.

(** ** Global facts *)
Lemma unstarted_mono m (h h' : list event) : incl h h' -> unstarted m h' -> unstarted m h.
Proof. intros I H a c v Hi. eapply H; eauto. Qed.

Lemma glob_quiet (s s' : state) :
  glob s -> next s' = next s -> mto s' = mto s -> incl (log s) (log s') ->
  (forall m, (mcnt s' m = mcnt s m /\ mval s' m = mval s m) \/
     ((exists c, mcnt s m = Code c) /\ (exists c, mcnt s' m = Code c) /\ ~ unstarted m (log s))) ->
  (forall m o, In (EFinish m o) (log s') -> In (EFinish m o) (log s)) ->
  (forall a m c v, In (EBegin a m c v) (log s') -> In (EBegin a m c v) (log s) \/ (m < next s /\ ~ waiting s m)) ->
  (forall m, waiting s' m -> waiting s m) ->
  (forall x a, In a (mwait s' x) -> In a (mwait s x) \/ frozen (mcnt s x) = false) ->
  glob s'.
Proof.
  intros [G1 G2 G3 G4 G5 G6] En Em Hl Hw Hf Hb Hwt Hmw. constructor; rewrite ?En, ?Em.
  - intros m o H. apply Hf, G1 in H. destruct H as (K1 & K2 & K3). destruct (Hw m) as [[-> ->]|[[c E] _]]; [auto|].
    rewrite K2 in E. destruct o; discriminate.
  - intros m Hm Fz. destruct (Hw m) as [[E _]|[_ [[c E] _]]]; rewrite E in Fz; [|discriminate].
    destruct (G2 m Hm Fz) as [o H]. eauto.
  - intros m H a c v Hi. apply Hwt in H. apply Hb in Hi. destruct Hi as [Hi|[_ Hi]]; [eapply G3; eauto|contradiction].
  - intros m Hm Hu. assert (Hu' := unstarted_mono _ _ _ Hl Hu).
    destruct (Hw m) as [[E1 E2]|[_ [_ N]]]; [|contradiction]. rewrite E1, E2.
    destruct (G4 m Hm Hu') as (c & K1 & K2 & K3). exists c. split; [assumption|].
    split; [eapply created_mono; eauto|assumption].
  - intros x a H. assert (K : frozen (mcnt s x) = false) by (destruct (Hmw x a H); eauto).
    destruct (Hw x) as [[-> _]|[_ [[c ->] _]]]; [assumption|reflexivity].
  - intros a m c v H. apply Hb in H. destruct H as [H|[H _]]; eauto.
Qed.

Lemma glob_new (s s' : state) B c e base :
  glob s -> waits s -> next s' = S (next s) -> mto s' = upd (mto s) (next s) B ->
  mcnt s' = upd (mcnt s) (next s) (Code c) -> mval s' = upd (mval s) (next s) vdone ->
  mwait s' = upd (mwait s) (next s) [] -> mbase s' = base ->
  log s' = e :: log s ->
  created (next s) B c (log s') ->
  (forall m o, e <> EFinish m o) -> (forall a m c v, e <> EBegin a m c v) ->
  (forall m, waiting s' m -> waiting s m \/ m = next s) ->
  glob s'.
Proof.
  intros [G1 G2 G3 G4 G5 G6] W En Em Ec Ev Ew _ El Hc Hf Hb Hwt.
  assert (Nb : forall m, unstarted m (log s') <-> unstarted m (log s)).
  { intros m. rewrite El. split; intros H a c' v Hi; [eapply H; right; eauto|].
    destruct Hi as [Hi|Hi]; [eapply Hb; eauto|eapply H; eauto]. }
  constructor; rewrite ?En.
  - intros m o H. rewrite El in H. destruct H as [H|H]; [exfalso; eapply Hf; eauto|].
    apply G1 in H. destruct H as (K1 & K2 & K3). rewrite Ec, Ev, !upd_other by lia. split; [lia|auto].
  - intros m Hm. rewrite Ec. updc; [discriminate|]. intros Fz. destruct (G2 m) as [o H]; [lia|assumption|].
    exists o. rewrite El. now right.
  - intros m H. apply Nb. apply Hwt in H. destruct H as [H| ->]; [auto|].
    intros a c' v Hi. apply G6 in Hi. lia.
  - intros m Hm Hu. apply Nb in Hu. rewrite Em, Ec, Ev. destruct (Nat.eq_dec m (next s)) as [->|N].
    + rewrite !upd_same. exists c. auto.
    + rewrite !upd_other by assumption. destruct (G4 m) as (c' & K1 & K2 & K3); [lia|assumption|].
      exists c'. split; [assumption|]. split; [|assumption]. rewrite El. apply created_cons. now left.
  - intros x a H. rewrite Ew in H. rewrite Ec. unfold upd in *. destruct (Nat.eqb_spec x (next s)); [destruct H|]. eauto.
  - intros a m c' v H. rewrite El in H. destruct H as [H|H]; [exfalso; eapply Hb; eauto|]. apply G6 in H. lia.
Qed.

End L3.

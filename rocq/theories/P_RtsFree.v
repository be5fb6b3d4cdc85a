(** Executions without the race in the $RWAIT case. *)
From Verif Require Import Base S_Rts M_Rts S_RtsState P_RtsTok P_RtsPlace P_Rts1 P_Rts2 P_Rts3 P_Rts4 P_Rts5 P_Rts6 P_Rts7 P_Rts8 P_Rts9 P_Rts10.
Local Open Scope nat_scope.

Section Free.
Context {U V : Type}.
Variable vfalse vdone : V.
Variable shared : nat.
Notation instr := (instr U V).
Notation state := (state U V).
Notation label := (label U V).
Notation step := (step vfalse vdone shared).
Notation run := (run vfalse vdone shared).
Notation race_free := (race_free vfalse vdone shared).
Notation struct := (@struct U V False).
Notation whole := (@whole U V False vfalse vdone).

Ltac shinv H := inversion H; subst;
  repeat match goal with
  | H : sends _ (_ :: _) |- _ => inversion H; subst; clear H
  | H : fin _ (_ :: _) |- _ => inversion H; subst; clear H
  | H : wakes _ _ (_ :: _) |- _ => inversion H; subst; clear H
  end; try discriminate.

(** A local invariant that excludes the race makes every run race free. *)
Lemma free_run (P : state -> Prop) (ok : label -> Prop) :
  (forall s l, whole s -> P s -> ok l -> (exists s', step s l s') -> no_race s l) ->
  (forall s l s', whole s -> whole s' -> P s -> ok l -> step s l s' -> P s') ->
  forall s ls s', whole s -> P s -> Forall ok ls -> run s ls s' -> race_free s ls s'.
Proof.
  intros H1 H2 s ls s' W K F R. induction R as [s|s l s1 ls s2 Nc St R IH]; [constructor|].
  inversion F; subst. econstructor; eauto.
  destruct (crashed s1) eqn:E.
  - rewrite (crash_step _ _ _ _ _ _ Nc St E) in *. inversion R; subst; [constructor|discriminate].
  - assert (W1 : whole s1) by (eapply whole_step; eauto; contradiction). apply IH; eauto.
Qed.

(** ** Programs without await *)
Definition no_await (l : label) : Prop := match l with LRun _ (ARet (RWait _ _)) => False | _ => True end.

Definition plain (i : instr) : Prop := match i with IAdd _ _ _ | IResume _ _ _ => False | _ => True end.
Definition keeps (l : list instr) : Prop :=
  (forall i, In i l -> plain i) /\
  (forall a, In (IFlush a) l \/ (exists m, In (ISend a m) l) -> exists m o, In (ISetVal a m o) l).
Definition kept (s : state) : Prop := forall t, keeps (todo s t).

Lemma kept_upd (s s' : state) t l' : kept s -> (forall t', todo s' t' = upd (todo s) t l' t') ->
  (keeps (todo s t) -> keeps l') -> kept s'.
Proof. intros K E H t'. rewrite E. unfold upd. destruct (Nat.eqb_spec t' t) as [->|]; auto. Qed.

Lemma keeps_nil : keeps [].
Proof. split; [intros i []|]. intros a [[]|(m & [])]. Qed.
Lemma keeps_one i : plain i -> (forall a, i <> IFlush a) -> (forall a m, i <> ISend a m) -> keeps [i].
Proof.
  intros P N1 N2. split; [intros j [<-|[]]; assumption|].
  intros a [[K|[]]|(m & [K|[]])]; exfalso; [eapply N1|eapply N2]; eauto.
Qed.
Lemma keeps_done a m o : keeps [IFlush a; ISetVal a m o].
Proof.
  split; [intros j [<-|[<-|[]]]; exact I|].
  intros b [[K|[K|[]]]|(m' & [K|[K|[]]])]; try discriminate. injection K as <-. exists m, o. right. now left.
Qed.
Lemma keeps_tail i l : (forall a m o, i <> ISetVal a m o) -> keeps (i :: l) -> keeps l.
Proof.
  intros N [K1 K2]. split; [intros j Hj; apply K1; now right|].
  intros a H. destruct (K2 a) as (m & o & [E|E]).
  - destruct H as [H|(m & H)]; [left; now right|right; exists m; now right].
  - exfalso. eapply N; eauto.
  - eauto.
Qed.
Lemma keeps_cons i l : plain i -> (forall a, i <> IFlush a) -> (forall a m, i <> ISend a m) -> keeps l -> keeps (i :: l).
Proof.
  intros P N1 N2 [K1 K2]. split; [intros j [<-|Hj]; auto|].
  intros a H. destruct (K2 a) as (m & o & E).
  - destruct H as [[H|H]|(m & [H|H])]; [exfalso; eapply N1; eauto|now left|exfalso; eapply N2; eauto|eauto].
  - exists m, o. now right.
Qed.
Lemma keeps_flush a l r : keeps (IFlush a :: l) -> keeps (map (ISend a) r ++ l).
Proof.
  intros [K1 K2]. split.
  - intros i H. apply in_app_iff in H. destruct H as [H|H]; [|apply K1; now right].
    apply in_map_iff in H. destruct H as (x & <- & _). exact I.
  - intros b H.
    assert (E : exists m o, In (ISetVal b m o) (IFlush a :: l)).
    { destruct H as [H|(m & H)]; apply in_app_iff in H; destruct H as [H|H].
      - apply in_map_iff in H. destruct H as (x & E & _). discriminate.
      - apply K2. left. now right.
      - apply in_map_iff in H. destruct H as (x & E & _). injection E as <- _. apply K2. left. now left.
      - apply K2. right. exists m. now right. }
    destruct E as (m & o & [E|E]); [discriminate|]. exists m, o. apply in_app_iff. now right.
Qed.
Lemma keeps_wakes m o r l : keeps l -> keeps (map (IWake m o) r ++ l).
Proof. intros K. induction r; cbn; [assumption|]. apply keeps_cons; [exact I|discriminate..|assumption]. Qed.

Lemma kept_step (s : state) l s' : whole s -> whole s' -> kept s -> no_await l -> step s l s' -> kept s'.
Proof.
  intros W W' K Na St.
  pose proof (i_ok _ _ _ (w_inv _ _ _ W')) as Nc. pose proof (i_struct _ _ _ (w_inv _ _ _ W)) as (loc & place & I & _ & _).
  assert (SV : forall t a m o rest, todo s t = ISetVal a m o :: rest -> rest = []).
  { intros t a m o rest E. pose proof (ti_shape _ _ I t) as Sh. rewrite E in Sh. shinv Sh; reflexivity. }
  Ltac ku s t Ht := eapply (kept_upd s _ t); [eassumption|reflexivity|rewrite Ht; intros HK].
  step_cases St; try (injection E as <-).
  - ku s t Ht. apply keeps_one; [exact Logic.I|discriminate..].
  - destruct (mbox s a); [discriminate Nc|exact K].
  - destruct (mbox s a); [discriminate Nc|exact K].
  - exact K.
  - destruct (catch s a) as [|[? ?] ?]; [discriminate|]. injection E as <-. exact K.
  - exact K.
  - unfold on_return. destruct r as [w|c' w|e|c' x]; [| | |destruct Na].
    + ku s t Ht. apply keeps_done.
    + ku s t Ht. apply keeps_one; [exact Logic.I|discriminate..].
    + destruct (catch _ a) as [|[? ?] ?]; ku s t Ht; [apply keeps_done|apply keeps_one; [exact Logic.I|discriminate..]].
  - destruct (mbox s a) as [|m0 r0]; [discriminate Nc|]. destruct (mcnt s m0); try discriminate Nc.
    ku s t Ht. apply keeps_cons; [exact Logic.I|discriminate..|]. eapply keeps_tail; [|exact HK]. discriminate.
  - ku s t Ht. eapply keeps_tail; [|exact HK]. discriminate.
  - ku s t Ht. now apply keeps_flush.
  - destruct (mbox s a) as [|m0 r0]; [discriminate Nc|]. destruct (mbase s m =? mbase s m0)%Z.
    + unfold enq_msg. ku s t Ht. apply keeps_tail in HK; [|discriminate].
      destruct (mbox s (mto s m)); [apply keeps_cons; [exact Logic.I|discriminate..|]|]; assumption.
    + ku s t Ht. eapply keeps_tail; [|exact HK]. discriminate.
  - unfold enq_msg. ku s t Ht. apply keeps_tail in HK; [|discriminate].
    destruct (mbox s (mto s m)); [apply keeps_cons; [exact Logic.I|discriminate..|]|]; assumption.
  - rewrite (SV _ _ _ _ _ Ht) in *. ku s t Ht. apply keeps_one; [exact Logic.I|discriminate..].
  - ku s t Ht. apply keeps_tail in HK; [|discriminate]. apply keeps_wakes. apply keeps_cons; [exact Logic.I|discriminate..|assumption].
  - destruct (mbox s b); [discriminate Nc|]. ku s t Ht. apply keeps_tail in HK; [|discriminate].
    apply keeps_cons; [exact Logic.I|discriminate..|assumption].
  - destruct (mbox s a) as [|m0 r0]; ku s t Ht; (apply keeps_tail in HK; [|discriminate]); [assumption|].
    destruct r0; [|apply keeps_cons; [exact Logic.I|discriminate..|]]; assumption.
  - exfalso. destruct (K t) as [K1 _]. rewrite Ht in K1. exact (K1 _ (or_introl eq_refl)).
  - exfalso. destruct (K t) as [K1 _]. rewrite Ht in K1. exact (K1 _ (or_introl eq_refl)).
  - ku s t Ht. apply keeps_one; [exact Logic.I|discriminate..].
  - ku s t Ht. apply keeps_one; [exact Logic.I|discriminate..].
  - exact K.
Qed.

Lemma kept_free (s : state) l : whole s -> kept s -> no_race s l.
Proof.
  intros W K. destruct l; try exact I. intros a r t' Hq Hf.
  pose proof (i_struct _ _ _ (w_inv _ _ _ W)) as (loc & place & I & _ & _).
  destruct (K t') as [_ K2]. destruct (K2 a Hf) as (m & o & J).
  pose proof (xtok_loc _ _ _ _ a I J eq_refl) as L.
  assert (J' : In a (rq s q)) by (rewrite Hq; now left). apply (ti_rq _ _ I) in J'. congruence.
Qed.

Lemma no_await_free (v0 : V) t0 aff0 ls s :
  Forall no_await ls -> run (init v0 t0 aff0) ls s -> race_free (init v0 t0 aff0) ls s.
Proof.
  intros F R. eapply (free_run kept no_await); eauto.
  - intros s0 l W K _ _. now apply kept_free.
  - intros s1 l s2 W1 W2 K1 N1 St. exact (kept_step s1 l s2 W1 W2 K1 N1 St).
  - apply whole_init. exact shared.
  - intros t. apply keeps_nil.
Qed.

(** ** One thread per ready queue *)
Variable T : tid -> Prop.

Definition by_thread (l : label) (t : tid) : Prop :=
  match l with LDeq t' _ | LRun t' _ | LStep t' | LExt t' _ _ | LFire t' => t' = t | LTick _ => False end.
(** Only threads in T act, and actors choose queues served by the thread they run on. *)
Definition confined (l : label) : Prop :=
  (forall t, by_thread l t -> T t) /\
  match l with LRun t (AAff i) => serves shared t i = true | _ => True end.

Hypothesis apart : forall t t' q, T t -> T t' -> serves shared t q = true -> serves shared t' q = true -> t = t'.

Record homed (s : state) : Prop := {
  hm_rq : forall q a, In a (rq s q) -> q = aff s a;
  hm_x : forall t a, In a (flat_map xtok (todo s t)) -> serves shared t (aff s a) = true;
  hm_f : forall t a, flushing s t a -> serves shared t (aff s a) = true;
  hm_t : forall t, todo s t <> [] -> T t
}.

Definition fa (i : instr) : list aid := match i with IFlush a | ISend a _ => [a] | _ => [] end.
Lemma flushing_fa (s : state) t a : flushing s t a <-> In a (flat_map fa (todo s t)).
Proof.
  unfold flushing. rewrite in_flat_map. split.
  - intros [H|(m & H)]; eexists; (split; [exact H|now left]).
  - intros (i & H & K). destruct i; cbn in K; try (destruct K; fail); destruct K as [->|[]]; eauto.
Qed.

Lemma homed_upd (s s' : state) t l' : homed s -> T t -> (forall t', todo s' t' = upd (todo s) t l' t') ->
  aff s' = aff s -> (forall q a, In a (rq s' q) -> In a (rq s q) \/ q = aff s a) ->
  (forall a, In a (flat_map xtok l') -> In a (flat_map xtok (todo s t)) \/ serves shared t (aff s a) = true) ->
  (forall a, In a (flat_map fa l') -> In a (flat_map fa (todo s t)) \/ In a (flat_map xtok (todo s t))) ->
  homed s'.
Proof.
  intros [H1 H2 H3 H4] Tt E Ea Hq Hx Hf. constructor; rewrite ?Ea.
  - intros q a K. destruct (Hq q a K); auto.
  - intros t' a. rewrite E. unfold upd. destruct (Nat.eqb_spec t' t) as [->|]; [|apply H2].
    intros K. destruct (Hx a K); auto.
  - intros t' a. rewrite flushing_fa, E. unfold upd. destruct (Nat.eqb_spec t' t) as [->|].
    + intros K. destruct (Hf a K) as [J|J]; [apply H3; now apply flushing_fa|apply H2; assumption].
    + intros K. apply H3. now apply flushing_fa.
  - intros t'. rewrite E. unfold upd. destruct (Nat.eqb_spec t' t) as [->|]; auto.
Qed.

Lemma fa_sends a (l : list mid) b : In b (flat_map fa (map (@ISend U V a) l)) -> b = a.
Proof. induction l as [|m l IH]; cbn; [contradiction|]. intros [H|H]; auto. Qed.
Lemma fa_wakes x o l : flat_map fa (map (@IWake U V x o) l) = [].
Proof. induction l; cbn; auto. Qed.

Ltac hu s t Ht := eapply (homed_upd s _ t); [eassumption|auto|reflexivity|reflexivity|auto|rewrite Ht|rewrite Ht]; cbn [flat_map xtok fa app].

Lemma homed_step (s : state) l s' : whole s -> whole s' -> homed s -> confined l -> step s l s' -> homed s'.
Proof.
  intros W W' K [C1 C2] St.
  pose proof (i_ok _ _ _ (w_inv _ _ _ W')) as Nc. pose proof (i_struct _ _ _ (w_inv _ _ _ W)) as (loc & place & I & _ & _).
  assert (SV : forall t a m o rest, todo s t = ISetVal a m o :: rest -> rest = []).
  { intros t a m o rest E. pose proof (ti_shape _ _ I t) as Sh. rewrite E in Sh. shinv Sh; reflexivity. }
  step_cases St; try (injection E as <-);
    try (assert (Tt : T t) by (apply C1; reflexivity)).
  - hu s t Ht.
    + intros q' b. proj. unfold upd. destruct (Nat.eqb_spec q' q) as [->|]; [|now left]. intros J. left. rewrite Hq. now right.
    + intros b [<-|[]]. right. rewrite <- (hm_rq _ K q a); [assumption|]. rewrite Hq. now left.
    + intros b [].
  - destruct (mbox s a); [discriminate Nc|]. destruct K; constructor; assumption.
  - destruct (mbox s a); [discriminate Nc|]. destruct K; constructor; assumption.
  - destruct K; constructor; assumption.
  - destruct (catch s a) as [|[? ?] ?]; [discriminate|]. injection E as <-. destruct K; constructor; assumption.
  - (* affinity *)
    assert (La : loc a = LExec t) by (eapply xtok_loc; eauto; [rewrite Ht; now left|reflexivity]).
    assert (Sa : serves shared t (aff s a) = true) by (apply (hm_x _ K); rewrite Ht; now left).
    constructor; proj.
    + intros q b J. unfold upd. destruct (Nat.eqb_spec b a) as [->|]; [|now apply (hm_rq _ K)].
      apply (ti_rq _ _ I) in J. congruence.
    + intros t' b J. unfold upd. destruct (Nat.eqb_spec b a) as [->|]; [|now apply (hm_x _ K)].
      apply (ti_x _ _ I) in J. assert (t' = t) by congruence. subst t'. exact C2.
    + intros t' b J. change (flushing s t' b) in J. unfold upd. destruct (Nat.eqb_spec b a) as [->|]; [|now apply (hm_f _ K)].
      exfalso. assert (t' = t).
      { apply (apart t' t (aff s a)); auto; [|now apply (hm_f _ K)].
        apply (hm_t _ K). intros E. destruct J as [J|(? & J)]; rewrite E in J; destruct J. }
      subst t'. unfold flushing in J. rewrite Ht in J. destruct J as [[J|[]]|(? & [J|[]])]; discriminate.
    + apply (hm_t _ K).
  - unfold on_return. destruct r as [w|c' w|e|c' x]; [| |destruct (catch _ a) as [|[? ?] ?]|];
      hu s t Ht; intros b; cbn [In]; tauto.
  - destruct (mbox s a) as [|m0 r0]; [discriminate Nc|]. destruct (mcnt s m0); try discriminate Nc. hu s t Ht; auto.
  - hu s t Ht; auto. intros q b. proj. unfold upd. destruct (Nat.eqb_spec q (aff s a)) as [->|]; [|now left].
    rewrite in_snoc. intros [J| ->]; auto.
  - hu s t Ht; intros b; rewrite flat_map_app, in_app_iff.
    + change (flat_map xtok (map (ISend a) (rev (out s a)))) with (xtoks (map (@ISend U V a) (rev (out s a)))).
      rewrite xtoks_sends. cbn. tauto.
    + intros [J|J]; [apply fa_sends in J; subst; left; now left|left; now right].
  - destruct (mbox s a) as [|m0 r0]; [discriminate Nc|]. destruct (mbase s m =? mbase s m0)%Z; unfold enq_msg; hu s t Ht;
      try (destruct (mbox s (mto s m))); cbn [flat_map app xtok fa]; intros b; cbn [In]; tauto.
  - unfold enq_msg. hu s t Ht; destruct (mbox s (mto s m)); cbn [flat_map app xtok fa]; intros b; cbn [In]; tauto.
  - hu s t Ht; auto.
  - hu s t Ht; intros b; rewrite flat_map_app, in_app_iff.
    + change (flat_map xtok (map (IWake m o) (mwait s m))) with (xtoks (map (@IWake U V m o) (mwait s m))).
      rewrite xtoks_wakes. cbn. tauto.
    + rewrite fa_wakes. cbn. tauto.
  - destruct (mbox s b); [discriminate Nc|]. destruct o; hu s t Ht; auto.
  - destruct (mbox s a) as [|m0 r0]; hu s t Ht; try (destruct r0); cbn [flat_map app xtok fa]; intros b; cbn [In]; tauto.
  - destruct (frozen (mcnt s x)); hu s t Ht; intros b; cbn [In]; tauto.
  - destruct (mcnt s x); hu s t Ht; intros b; cbn [In]; tauto.
  - hu s t Ht; auto.
  - hu s t Ht; auto.
  - destruct K; constructor; assumption.
Qed.

Lemma homed_free (s : state) l s' : homed s -> confined l -> step s l s' -> no_race s l.
Proof.
  intros K [C _] St. destruct l; try exact I. intros a r t' Hq Hf.
  inversion St; subst. assert (In a (rq s q)) by (rewrite Hq; now left).
  assert (t' = t).
  { apply (apart t' t q); auto.
    - apply (hm_t _ K). intros E. destruct Hf as [J|(? & J)]; rewrite E in J; destruct J.
    - apply C. reflexivity.
    - rewrite (hm_rq _ K q a) by assumption. now apply (hm_f _ K). }
  subst t'. destruct Hf as [J|(? & J)];
    match goal with E : todo s t = [] |- _ => rewrite E in J end; destruct J.
Qed.

Lemma confined_free (v0 : V) t0 aff0 ls s :
  Forall confined ls -> run (init v0 t0 aff0) ls s -> race_free (init v0 t0 aff0) ls s.
Proof.
  intros F R. eapply (free_run homed confined); eauto.
  - intros s0 l W K C (s1 & St). eapply homed_free; eauto.
  - intros s1 l s2 W1 W2 K1 N1 St. exact (homed_step s1 l s2 W1 W2 K1 N1 St).
  - apply whole_init. exact shared.
  - constructor; cbn; try contradiction; try congruence. intros t a [[]|(m & [])].
Qed.
End Free.

(** Invariant of the runtime, part 7: how messages move. *)
From Verif Require Import Base S_Rts M_Rts P_RtsTok P_RtsPlace P_Rts1 P_Rts2 P_Rts3 P_Rts4.
Local Open Scope nat_scope.

Section L5.
Context {U V : Type} {G : Prop}.
Notation tok_inv := (@tok_inv U V G).
Notation is_flush := (@is_flush U V G).
Notation fling := (@fling U V G).
Notation struct := (@struct U V G).
Variable vfalse vdone : V.
Variable shared : nat.
Notation instr := (instr U V).
Notation state := (state U V).
Notation event := (event U V).
Notation outcome := (outcome V).
Notation step := (step vfalse vdone shared).
Notation inv := (@inv U V G vfalse vdone).

Definition is_msg (i : instr) : bool := match i with ISend _ _ | IEnq _ => true | _ => false end.
Definition needs_flush (a : aid) (l : list instr) : Prop := In (IFlush a) l \/ exists m x, In (IAdd a m x) l.
Definition ending (a : aid) (l : list instr) : Prop := exists m o, In (ISetVal a m o) l.
Definition late (a : aid) (l : list instr) : Prop := (exists m o, In (IFreeze a m o) l) \/ exists m, In (IDeq a m) l.
Definition quiet (oe : option event) : Prop :=
  match oe with
  | None | Some (EBegin _ _ _ _) | Some (EReturn _ _ _) | Some (EPush _ _) | Some (EPop _ _) | Some (EFinish _ _) => True
  | _ => False
  end.

(** What makes an event legal, apart from the arrivals. *)
Definition pre_legal (s : state) (e : event) : Prop :=
  match e with
  | EBegin a m c v => head s a m /\ running a (log s) = None /\ next_ok vfalse vdone (log s) a m c v
  | _ => legal_event vfalse vdone (log s) e
  end.

Inductive trans (s s' : state) : Prop :=
| T_quiet t l' oe :
    (forall e, oe = Some e -> pre_legal s e) ->
    out s' = out s -> timerQ s' = timerQ s -> mbox s' = mbox s -> next s' = next s -> mto s' = mto s -> mbase s' = mbase s ->
    (clock s <= clock s')%Z -> log s' = ext oe (log s) -> quiet oe ->
    (forall t', todo s' t' = upd (todo s) t l' t') ->
    filter is_msg l' = filter is_msg (todo s t) ->
    (forall a, needs_flush a l' -> needs_flush a (todo s t) \/ exists m r, oe = Some (EReturn a m r) /\ commits a r (log s)) ->
    (forall a, ending a l' -> In (IFlush a) l' \/ (ending a (todo s t) /\ (In (IFlush a) (todo s t) -> In (IFlush a) l'))) ->
    (forall a, late a l' -> late a (todo s t) \/ exists m o, todo s t = [ISetVal a m o]) ->
    trans s s'
| T_push t a m c v B c' d e :
    todo s t = [IRun a m c v] -> head s a m -> running a (log s) = Some (m, c, v) ->
    (e = EAsync a B (next s) c' /\ d = 0%Z) \/ (B = a /\ e = EAfter a (next s) d c') ->
    s' = logev e (set_out (upd (out s) a (next s :: out s a)) (new_msg vdone B c' (mbase s m + d)%Z s)) ->
    trans s s'
| T_ext t B c :
    todo s t = [] ->
    s' = logev (EExt B (next s) (clock s) c)
           (set_todo (upd (todo s) t [IEnq (next s)]) (new_msg vdone B c (clock s) s)) ->
    trans s s'
| T_flush t a rest :
    todo s t = IFlush a :: rest -> fin a rest ->
    s' = set_out (upd (out s) a []) (set_todo (upd (todo s) t (map (ISend a) (rev (out s a)) ++ rest)) s) ->
    trans s s'
| T_arr t i m rest l' :
    todo s t = i :: rest ->
    i = IEnq m \/ (exists a m0, i = ISend a m /\ head s a m0 /\ mbase s m = mbase s m0) ->
    l' = rest \/ l' = IReady (mto s m) :: rest ->
    s' = logev (EArrive (mto s m) m (clock s))
           (set_todo (upd (todo s) t l') (set_mbox (upd (mbox s) (mto s m) (mbox s (mto s m) ++ [m])) s)) ->
    trans s s'
| T_timed t a m rest m0 :
    todo s t = ISend a m :: rest -> head s a m0 -> mbase s m <> mbase s m0 ->
    s' = logev (ETimed m) (set_timerQ (enq_timed (mbase s) m (timerQ s)) (set_todo (upd (todo s) t rest) s)) ->
    trans s s'
| T_fire t m r :
    todo s t = [] -> timerQ s = m :: r -> (mbase s m <= clock s)%Z ->
    s' = logev (EFire m (clock s)) (set_timerQ r (set_todo (upd (todo s) t [IEnq m]) s)) ->
    trans s s'
| T_deq t a m r l' :
    todo s t = [IDeq a m] -> mbox s a = m :: r -> l' = [] \/ l' = [IReady a] ->
    (exists o, In (EFinish m o) (log s)) ->
    s' = set_mbox (upd (mbox s) a r) (set_todo (upd (todo s) t l') s) ->
    trans s s'.

Ltac tq t l' oe := eapply (T_quiet _ _ t l' oe); [try (intros ? ?; discriminate)|reflexivity|reflexivity|reflexivity|reflexivity|reflexivity|reflexivity|proj; lia|reflexivity|exact I|reflexivity|..].
(** The rest of the work stays. *)
Lemma q_rest (i : instr) rest :
  (forall a, needs_flush a rest -> needs_flush a (i :: rest)) /\
  (forall a, late a rest -> late a (i :: rest)) /\
  (forall a, ending a rest -> ending a (i :: rest)).
Proof.
  split; [|split].
  - intros a [H|(m & x & H)]; [left; now right|right; exists m, x; now right].
  - intros a [(m & o & H)|(m & H)]; [left; exists m, o; now right|right; exists m; now right].
  - intros a (m & o & H). exists m, o. now right.
Qed.

Ltac inl H := cbn in H; repeat match type of H with _ \/ _ => destruct H as [H|H] end; try discriminate H; try contradiction H.
Ltac none := let K := fresh in intros ? K; exfalso; unfold needs_flush, late, ending in K;
  repeat match goal with
  | H : _ \/ _ |- _ => destruct H as [H|H]
  | H : exists _, _ |- _ => destruct H as [? H]
  end; match goal with H : In _ _ |- _ => inl H end.

Lemma step_trans s l s' : inv s -> crashed s' = false -> step s l s' -> trans s s'.
Proof.
  intros Iv Nc St.
  step_cases St; try (injection E as <-).
  - tq t [@IBegin U V a] (@None event); [now rewrite Ht|none..].
  - destruct (ph_todo vfalse vdone s t (IRun a m c v) a (PhRun m c v) (i_ph _ _ _ Iv)) as (Hh & Hr & _); [rewrite Ht; now left|reflexivity|].
    pose proof Hh as [r Hbox]. rewrite Hbox.
    eapply (T_push s _ t a m c v B c' 0); eauto. now rewrite Z.add_0_r.
  - destruct (ph_todo vfalse vdone s t (IRun a m c v) a (PhRun m c v) (i_ph _ _ _ Iv)) as (Hh & Hr & _); [rewrite Ht; now left|reflexivity|].
    pose proof Hh as [r Hbox]. rewrite Hbox.
    eapply (T_push s _ t a m c v a c' d); eauto.
  - destruct (ph_todo vfalse vdone s t (IRun a m c v) a (PhRun m c v) (i_ph _ _ _ Iv)) as (_ & Hr & _); [rewrite Ht; now left|reflexivity|].
    eapply (T_quiet _ _ t (todo s t) (Some (EPush a c'))); [intros e [= <-]; exists (m, c, v); exact Hr|reflexivity|reflexivity|reflexivity|reflexivity|reflexivity|reflexivity|proj; lia|reflexivity|exact I|exact (todo_self s t)|reflexivity|auto|auto|auto].
  - destruct (catch s a) as [|[c' x] tl] eqn:Ec; [discriminate|]. injection E as <-.
    destruct (ph_todo vfalse vdone s t (IRun a m c v) a (PhRun m c v) (i_ph _ _ _ Iv)) as (_ & Hr & _); [rewrite Ht; now left|reflexivity|].
    eapply (T_quiet _ _ t (todo s t) (Some (EPop a x))); [intros e [= <-]; split; [exists c', tl; now rewrite <- (bk_catch _ (i_book _ _ _ Iv))|eauto]|reflexivity|reflexivity|reflexivity|reflexivity|reflexivity|reflexivity|proj; lia|reflexivity|exact I|exact (todo_self s t)|reflexivity|auto|auto|auto].
  - eapply (T_quiet _ _ t (todo s t) None); [discriminate|reflexivity|reflexivity|reflexivity|reflexivity|reflexivity|reflexivity|proj; lia|reflexivity|exact I|exact (todo_self s t)|reflexivity|auto|auto|auto].
  - pose proof (bk_catch _ (i_book _ _ _ Iv) a) as Hcatch.
    assert (Lr : forall e, Some (EReturn a m r) = Some e -> pre_legal s e).
    { intros e [= <-].
      destruct (ph_todo vfalse vdone s t (IRun a m c v) a (PhRun m c v) (i_ph _ _ _ Iv)) as (_ & Hr & _); [rewrite Ht; now left|reflexivity|].
      exists c, v. split; [exact Hr|]. split; intros ->; cbn in Ha; congruence. }
    destruct r as [w|c' w|e|c' x]; unfold on_return.
    + tq t [@IFlush U V a; ISetVal a m (OVal w)] (Some (@EReturn U V a m (RDone w))); [exact Lr|..].
      * now rewrite Ht.
      * intros b [[K|K]|(m1 & x1 & K)]; inl K; injection K as <-. right. exists m, (RDone w). split; [reflexivity|exact I].
      * intros b (m1 & o1 & K); inl K; injection K as <- _ _. left. now left.
      * none.
    + tq t [@IReady U V a] (Some (@EReturn U V a m (RCont c' w))); [exact Lr|now rewrite Ht|none..].
    + proj. destruct (catch s a) as [|[c' x] tl] eqn:Ec.
      * tq t [@IFlush U V a; ISetVal a m (OExc e)] (Some (@EReturn U V a m (RFail e))); [exact Lr|..].
        -- now rewrite Ht.
        -- intros b [[K|K]|(m1 & x1 & K)]; inl K; injection K as <-. right. exists m, (RFail e). cbn. auto.
        -- intros b (m1 & o1 & K); inl K; injection K as <- _ _. left. now left.
        -- none.
      * tq t [@IReady U V a] (Some (@EReturn U V a m (RFail e))); [exact Lr|now rewrite Ht|none..].
    + tq t [@IAdd U V a m x] (Some (@EReturn U V a m (RWait c' x))); [exact Lr|now rewrite Ht| |none..].
      intros b [K|(m1 & x1 & K)]; inl K; injection K as <- _ _. right. exists m, (RWait c' x). cbn. auto.
  - destruct (ph_todo vfalse vdone s t (IBegin a) a PhReady (i_ph _ _ _ Iv)) as (m & c & Hh & Hc & Hr & Hn); [rewrite Ht; now left|reflexivity|].
    pose proof Hh as [r Hbox]. rewrite Hbox, Hc in *.
    destruct (q_rest (IBegin a) rest) as (Q1 & Q2 & Q3).
    tq t (IRun a m c (mval s m) :: rest) (Some (EBegin a m c (mval s m))); [intros e [= <-]; exact (conj Hh (conj Hr Hn))|..]; rewrite ?Ht.
    + reflexivity.
    + intros b K. left. apply Q1. destruct K as [K|(m1 & x1 & K)]; [left|right; exists m1, x1]; destruct K; congruence.
    + intros b (m1 & o1 & [K|K]); [discriminate|]. right. split; [exists m1, o1; now right|]. intros [J|J]; [discriminate|now right].
    + intros b K. left. apply Q2. destruct K as [(m1 & o1 & K)|(m1 & K)]; [left; exists m1, o1|right; exists m1]; destruct K; congruence.
  - destruct (q_rest (IReady a) rest) as (Q1 & Q2 & Q3).
    tq t rest (@None event); rewrite ?Ht.
    + reflexivity.
    + auto.
    + intros b K. right. split; [auto|]. intros [J|J]; [discriminate|assumption].
    + auto.
  - eapply T_flush; eauto. apply shape_flush. rewrite <- Ht.
    destruct (i_struct _ _ _ Iv) as (loc & place & T & _). apply (ti_shape _ _ T).
  - destruct (mbox s a) as [|m0 r] eqn:Hbox; [discriminate Nc|].
    destruct (Z.eqb_spec (mbase s m) (mbase s m0)) as [Eb|Nb].
    + unfold enq_msg. eapply (T_arr s _ t (ISend a m) m rest); [exact Ht|right; exists a, m0; repeat split; [exists r; assumption|assumption]| |reflexivity].
      destruct (mbox s (mto s m)); auto.
    + eapply T_timed; eauto. exists r. assumption.
  - unfold enq_msg. eapply (T_arr s _ t (IEnq m) m rest); [exact Ht|auto| |reflexivity].
    destruct (mbox s (mto s m)); auto.
  - destruct (q_rest (ISetVal a m o) rest) as (Q1 & Q2 & Q3).
    assert (Er : rest = []).
    { destruct (i_struct _ _ _ Iv) as (loc & place & T & _). pose proof (ti_shape _ _ T t) as Sh. rewrite Ht in Sh.
      eapply shape_set; eauto. }
    subst rest. tq t [@IFreeze U V a m o] (@None event); rewrite ?Ht.
    + reflexivity.
    + none.
    + none.
    + intros b [(m1 & o1 & K)|(m1 & K)]; inl K; injection K as <- <- <-. right. eauto.
  - assert (Er : rest = []).
    { destruct (i_struct _ _ _ Iv) as (loc & place & T & _). pose proof (ti_shape _ _ T t) as Sh. rewrite Ht in Sh.
      eapply shape_freeze; eauto. }
    subst rest. eapply (T_quiet _ _ t (map (IWake m o) (mwait s m) ++ [IDeq a m]) (Some (EFinish m o))); [|reflexivity|reflexivity|reflexivity|reflexivity|reflexivity|reflexivity|proj; lia|reflexivity|exact I|reflexivity|..]; rewrite ?Ht.
    + intros e [= <-].
      destruct (ph_todo vfalse vdone s t (IFreeze a m o) a (PhFreeze m o) (i_ph _ _ _ Iv)) as (_ & (c & Hc) & He & _); [rewrite Ht; now left|reflexivity|].
      split; [|exact He]. intros o' K. destruct (gl_fin _ _ (i_gl _ _ _ Iv) _ _ K) as (_ & K2 & _). rewrite Hc in K2. destruct o'; discriminate.
    + rewrite filter_app. cbn. induction (mwait s m); cbn; auto.
    + intros b [K|(m1 & x1 & K)]; apply in_app_iff in K; destruct K as [K|K]; inl K; apply in_map_iff in K; destruct K as (? & ? & _); discriminate.
    + intros b (m1 & o1 & K); apply in_app_iff in K; destruct K as [K|K]; inl K; apply in_map_iff in K; destruct K as (? & ? & _); discriminate.
    + intros b [(m1 & o1 & K)|(m1 & K)]; apply in_app_iff in K; destruct K as [K|K]; inl K; try (apply in_map_iff in K; destruct K as (? & ? & _); discriminate).
      injection K as <- <-. left. left. exists m, o. now left.
  - destruct (ph_todo vfalse vdone s t (IWake x o b) b (PhWake x o) (i_ph _ _ _ Iv)) as ((m & (c & Hh & _) & _) & _); [rewrite Ht; now left|reflexivity|].
    pose proof Hh as [r Hbox]. rewrite Hbox.
    destruct (q_rest (IWake x o b) rest) as (Q1 & Q2 & Q3).
    eapply (T_quiet _ _ t (IReady b :: rest) None); [discriminate|destruct o; reflexivity|destruct o; reflexivity|destruct o; reflexivity|destruct o; reflexivity|destruct o; reflexivity|destruct o; reflexivity|destruct o; proj; lia|destruct o; reflexivity|exact I|destruct o; reflexivity|..]; rewrite ?Ht.
    + reflexivity.
    + intros a K. left. apply Q1. destruct K as [K|(m1 & x1 & K)]; [left|right; exists m1, x1]; destruct K; congruence.
    + intros a (m1 & o1 & [K|K]); [discriminate|]. right. split; [exists m1, o1; now right|]. intros [J|J]; [discriminate|now right].
    + intros a K. left. apply Q2. destruct K as [(m1 & o1 & K)|(m1 & K)]; [left; exists m1, o1|right; exists m1]; destruct K; congruence.
  - assert (Er : rest = []).
    { destruct (i_struct _ _ _ Iv) as (loc & place & T & _). pose proof (ti_shape _ _ T t) as Sh. rewrite Ht in Sh.
      eapply shape_deq; eauto. }
    subst rest.
    destruct (ph_todo vfalse vdone s t (IDeq a m) a (PhDeq m) (i_ph _ _ _ Iv)) as ((Hh & _) & Ho); [rewrite Ht; now left|reflexivity|].
    destruct Hh as [r Hbox]. rewrite Hbox. eapply (T_deq s _ t a m r); [exact Ht|exact Hbox| |exact Ho|reflexivity]. destruct r; auto.
  - assert (Er : rest = []).
    { destruct (i_struct _ _ _ Iv) as (loc & place & T & _). pose proof (ti_shape _ _ T t) as Sh. rewrite Ht in Sh.
      eapply shape_add; eauto. }
    subst rest. destruct (frozen (mcnt s x)).
    + tq t [@IFlush U V a; IResume a m x] (@None event); rewrite ?Ht; [reflexivity| |none..].
      intros b [K|(m1 & x1 & K)]; inl K; injection K as <-. left. right. exists m, x. now left.
    + tq t [@IFlush U V a] (@None event); rewrite ?Ht; [reflexivity| |none..].
      intros b [K|(m1 & x1 & K)]; inl K; injection K as <-. left. right. exists m, x. now left.
  - destruct (q_rest (IResume a m x) rest) as (Q1 & Q2 & Q3).
    eapply (T_quiet _ _ t (IReady a :: rest) None); [discriminate|destruct (mcnt s x); reflexivity|destruct (mcnt s x); reflexivity|destruct (mcnt s x); reflexivity|destruct (mcnt s x); reflexivity|destruct (mcnt s x); reflexivity|destruct (mcnt s x); reflexivity|destruct (mcnt s x); proj; lia|destruct (mcnt s x); reflexivity|exact I|destruct (mcnt s x); reflexivity|..]; rewrite ?Ht.
    + reflexivity.
    + intros b K. left. apply Q1. destruct K as [K|(m1 & x1 & K)]; [left|right; exists m1, x1]; destruct K; congruence.
    + intros b (m1 & o1 & [K|K]); [discriminate|]. right. split; [exists m1, o1; now right|]. intros [J|J]; [discriminate|now right].
    + intros b K. left. apply Q2. destruct K as [(m1 & o1 & K)|(m1 & K)]; [left; exists m1, o1|right; exists m1]; destruct K; congruence.
  - eapply T_ext; eauto.
  - unfold deq_timed in E. destruct (timerQ s) as [|m0 r0] eqn:Eq; [discriminate|].
    destruct (Z.leb_spec (mbase s m0) (clock s)); [|discriminate]. injection E as -> ->. eapply T_fire; eauto.
  - eapply (T_quiet _ _ 0 (todo s 0) None); [discriminate|reflexivity|reflexivity|reflexivity|reflexivity|reflexivity|reflexivity|proj; lia|reflexivity|exact I|exact (todo_self s 0)|reflexivity|auto|auto|auto].
Qed.

End L5.

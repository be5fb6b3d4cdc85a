(** Invariant of the runtime, part 3: the structural invariant is inductive. *)
From Verif Require Import Base S_Rts M_Rts P_RtsTok P_RtsPlace.
Local Open Scope nat_scope.

Section L1.
Context {U V : Type} {G : Prop}.
Notation tok_inv := (@tok_inv U V G).
Notation is_flush := (@is_flush U V G).
Notation fling := (@fling U V G).
Variable vfalse vdone : V.
Variable shared : nat.
Notation instr := (instr U V).
Notation state := (state U V).
Notation step := (step vfalse vdone shared).

(** The message an instruction works on is the first one in its actor's mailbox. *)
Definition works_on (i : instr) : option (aid * mid) :=
  match i with
  | IRun a m _ _ | ISetVal a m _ | IFreeze a m _ | IDeq a m | IAdd a m _ | IResume a m _ => Some (a, m)
  | _ => None
  end.
Definition heads (s : state) : Prop :=
  forall t i a m, In i (todo s t) -> works_on i = Some (a, m) -> exists r, mbox s a = m :: r.

(** Actors wait for messages that exist only. *)
Definition waits (s : state) : Prop :=
  (forall x, next s <= x -> mwait s x = []) /\
  (forall t a m x, In (IAdd a m x) (todo s t) -> x < next s).

Definition struct (s : state) : Prop :=
  exists loc place, tok_inv loc s /\ pl_inv place s /\ heads s.

Lemma works_on_xtok i a m : works_on i = Some (a, m) -> xtok i = [a].
Proof. destruct i; cbn; congruence. Qed.
Lemma in_xtoks (l : list instr) i a : In i l -> xtok i = [a] -> In a (xtoks l).
Proof. intros H E. apply in_flat_map. exists i. split; [assumption|]. rewrite E. now left. Qed.
Lemma in_ptoks (l : list instr) i a : In i l -> ptok i = [a] -> In a (ptoks l).
Proof. intros H E. apply in_flat_map. exists i. split; [assumption|]. rewrite E. now left. Qed.

(** Mailboxes change at the end only, except for [a0], executed by no other thread. *)
Lemma heads_step s s' t l' :
  heads s -> (forall t', todo s' t' = upd (todo s) t l' t') ->
  (forall b m r, mbox s b = m :: r -> exists r', mbox s' b = m :: r') ->
  (forall i a m, In i l' -> works_on i = Some (a, m) -> exists r, mbox s' a = m :: r) ->
  heads s'.
Proof.
  intros H Ht Hb Hl t' i a m Hi Hw. rewrite Ht in Hi. unfold upd in Hi.
  destruct (Nat.eqb_spec t' t); [eauto|]. destruct (H _ _ _ _ Hi Hw) as [r E]. eauto.
Qed.

Lemma waits_step s s' t l' :
  waits s -> (forall t', todo s' t' = upd (todo s) t l' t') ->
  next s <= next s' -> (forall x, next s <= x -> mwait s' x = []) ->
  (forall a m x, In (IAdd a m x) l' -> x < next s) ->
  waits s'.
Proof.
  intros [W1 W2] Ht Hn Hw Hl. split.
  - intros x Hx. apply Hw. lia.
  - intros t' a m x Hi. rewrite Ht in Hi. unfold upd in Hi.
    destruct (Nat.eqb_spec t' t); [apply Hl in Hi|apply W2 in Hi]; lia.
Qed.

Lemma head_app {A} (l : list A) x m r : l = m :: r -> exists r', l ++ x = m :: r'.
Proof. intros ->. cbn. eauto. Qed.

Lemma shape_in_tail (i : instr) rest j : shape (i :: rest) -> In j rest -> In j (i :: rest).
Proof. intros. now right. Qed.

Lemma xtok_loc loc (s : state) t i a : tok_inv loc s -> In i (todo s t) -> xtok i = [a] -> loc a = LExec t.
Proof. intros I H E. apply (ti_x _ _ I). eapply in_xtoks; eauto. Qed.
Lemma ptok_loc loc (s : state) t i a : tok_inv loc s -> In i (todo s t) -> ptok i = [a] -> loc a = LPark t.
Proof. intros I H E. apply (ti_p _ _ I). eapply in_ptoks; eauto. Qed.
Lemma box_ne loc (s : state) a : tok_inv loc s -> loc a <> LNone -> exists m r, mbox s a = m :: r.
Proof.
  intros I H. destruct (mbox s a) as [|m r] eqn:E; [|eauto]. apply (ti_box _ _ I) in E. contradiction.
Qed.

Ltac one_todo := intros; proj; unfold upd; try reflexivity.

(** One iteration of ENQ_msg / ENQ_ready. *)
Lemma struct_enq loc place (s : state) t i rest m :
  tok_inv loc s -> pl_inv place s -> heads s ->
  todo s t = i :: rest -> xtok i = [] -> ptok i = [] -> fl i = [m] -> shape (i :: rest) ->
  struct (enq_msg t m rest s).
Proof.
  intros I P H Ht Hx Hp Hf Sh. unfold enq_msg.
  destruct (mbox s (mto s m)) as [|m0 r] eqn:Eb; cbn [app].
  - exists (upd loc (mto s m) (LPark t)), (upd place m (PMbox (mto s m))). split; [|split].
    + eapply (tok_arrive loc s _ t i rest _ [m]); eauto; try discriminate; proj; reflexivity.
    + eapply (pl_arrive place s _ t i rest (IReady (mto s m) :: rest)); eauto; proj; try reflexivity. now rewrite Eb.
    + eapply (heads_step s _ t); eauto; proj; [reflexivity| |].
      * intros b m1 r1 E. updc; try congruence; eauto.
      * intros j a m1 [<-|Hj] Hw; [discriminate|].
        assert (K : exists r, mbox s a = m1 :: r). { eapply (H t j); eauto. rewrite Ht. now right. }
        destruct K as [r1 K]. updc; try congruence; eauto.
  - exists loc, (upd place m (PMbox (mto s m))). split; [|split].
    + eapply (tok_same loc s _ t rest); eauto; proj; try reflexivity.
      * apply shape_of_tail. eapply shape_tail; eauto.
      * intros a (j & Hj & Hfl). left. rewrite flushing_in, Ht. exists j. split; [now right|assumption].
      * rewrite Ht. cbn. now rewrite Hx.
      * rewrite Ht. cbn. now rewrite Hp.
      * intros a. updc; [|tauto]. split; [discriminate|congruence].
    + eapply (pl_arrive place s _ t i rest rest); eauto; proj; try reflexivity. now rewrite Eb.
    + eapply (heads_step s _ t); eauto; proj; [reflexivity| |].
      * intros b m1 r1 E. updc; [|eauto]. rewrite Eb in E. injection E as -> ->. cbn. eauto.
      * intros j a m1 Hj Hw.
        assert (K : exists r, mbox s a = m1 :: r). { eapply (H t j); eauto. rewrite Ht. now right. }
        destruct K as [r1 K]. updc; [|eauto]. rewrite Eb in K. injection K as -> ->. cbn. eauto.
Qed.

Lemma in_rest (s : state) t i rest : todo s t = i :: rest -> forall j, In j rest -> In j (todo s t).
Proof. intros -> j Hj. now right. Qed.

Lemma struct_crash s : struct s -> struct (crash s).
Proof.
  intros (loc & place & I & P & H). exists loc, place. split; [|split].
  - eapply (tok_same_todo loc s); eauto; reflexivity.
  - eapply (pl_same_todo place s); eauto; reflexivity.
  - exact H.
Qed.

(** Steps that change neither actors' nor messages' places. *)
Lemma struct_same loc place (s s' : state) t l' :
  tok_inv loc s -> pl_inv place s -> heads s ->
  (forall t', todo s' t' = upd (todo s) t l' t') -> shape l' ->
  (forall a, (exists i, In i l' /\ is_flush a i) ->
     fling s t a \/ (loc a = LExec t /\ forall t', ~ fling s t' a)) ->
  xtoks l' = xtoks (todo s t) -> ptoks l' = ptoks (todo s t) -> fls l' = fls (todo s t) ->
  (forall i a m, In i l' -> works_on i = Some (a, m) -> exists r, mbox s a = m :: r) ->
  rq s' = rq s -> mwait s' = mwait s -> mbox s' = mbox s ->
  out s' = out s -> timerQ s' = timerQ s -> next s' = next s -> mto s' = mto s ->
  struct s'.
Proof.
  intros I P H Ht Sh Hfl Hx Hp Hf Hw E1 E2 E3 E4 E5 E6 E7. exists loc, place. split; [|split].
  - eapply (tok_same loc s s' t l'); eauto; intros; rewrite ?E1, ?E2, ?E3; tauto.
  - eapply (pl_same place s s' t l'); eauto; intros; rewrite ?E3, ?E4, ?E7; tauto.
  - eapply (heads_step s s' t l'); eauto; intros; rewrite E3; eauto.
Qed.

Lemma struct_same_todo loc place (s s' : state) :
  tok_inv loc s -> pl_inv place s -> heads s ->
  todo s' = todo s ->
  rq s' = rq s -> mwait s' = mwait s -> mbox s' = mbox s ->
  out s' = out s -> timerQ s' = timerQ s -> next s' = next s -> mto s' = mto s ->
  struct s'.
Proof.
  intros I P H Ht E1 E2 E3 E4 E5 E6 E7.
  eapply (struct_same loc place s s' 0 (todo s 0)); eauto.
  - intros t'. rewrite Ht. unfold upd. destruct (Nat.eqb_spec t' 0) as [->|]; reflexivity.
  - apply (ti_shape _ _ I).
  - intros a K. left. now rewrite flushing_in.
Qed.

(** An actor executed by t is parked. *)
Lemma struct_park loc place (s s' : state) t i a :
  tok_inv loc s -> pl_inv place s -> heads s ->
  todo s t = [i] -> xtok i = [a] -> fl i = [] ->
  (forall t', todo s' t' = upd (todo s) t [IReady a] t') ->
  rq s' = rq s -> mwait s' = mwait s -> mbox s' = mbox s ->
  out s' = out s -> timerQ s' = timerQ s -> next s' = next s -> mto s' = mto s ->
  struct s'.
Proof.
  intros I P H Ht Hx Hf Htd E1 E2 E3 E4 E5 E6 E7. exists (upd loc a (LPark t)), place. split; [|split].
  - eapply (tok_park loc s s' t i a); eauto; intros; rewrite ?E1, ?E2, ?E3; tauto.
  - eapply (pl_same place s s' t [IReady a]); eauto; intros; rewrite ?E3, ?E4, ?E7; try tauto.
    rewrite Ht. cbn. now rewrite Hf.
  - eapply (heads_step s s' t); eauto; intros; rewrite ?E3; eauto.
    match goal with H : In _ _ |- _ => destruct H as [<-|[]] end. discriminate.
Qed.

Lemma exec_flush1 loc (s : state) t i a :
  tok_inv loc s -> todo s t = [i] -> xtok i = [a] -> (forall b, ~ is_flush b i) ->
  loc a = LExec t /\ forall t', ~ fling s t' a.
Proof.
  intros I Ht Hx Hn. assert (L : loc a = LExec t). { eapply xtok_loc; eauto. rewrite Ht. now left. }
  split; [assumption|]. eapply exec_noflush; eauto. eapply flush_only; eauto.
  intros b j [<-|[]]. apply Hn.
Qed.

Ltac nof := let x := fresh in let y := fresh in intros x [_ [y|[? y]]]; discriminate y.

Lemma struct_return loc place (s : state) t a m c v r :
  tok_inv loc s -> pl_inv place s -> heads s -> todo s t = [IRun a m c v] ->
  struct (on_return vfalse t a m r s).
Proof.
  intros I P H Ht.
  assert (Hm : exists r, mbox s a = m :: r). { eapply (H t (IRun a m c v)); [rewrite Ht; now left|reflexivity]. }
  destruct (exec_flush1 loc s t _ a I Ht eq_refl ltac:(nof)) as [L Nf].
  assert (Fin : forall o s', (forall t', todo s' t' = upd (todo s) t [IFlush a; ISetVal a m o] t') ->
     rq s' = rq s -> mwait s' = mwait s -> mbox s' = mbox s ->
     out s' = out s -> timerQ s' = timerQ s -> next s' = next s -> mto s' = mto s -> struct s').
  { intros o s' Htd E1 E2 E3 E4 E5 E6 E7.
    eapply (struct_same loc place s s' t [IFlush a; ISetVal a m o]); eauto; rewrite ?Ht; try reflexivity.
    - apply sh_flush. constructor.
    - intros b (j & [<-|[<-|[]]] & [_ [E|[? E]]]); try discriminate. injection E as <-. right. auto.
    - intros j b m' [<-|[<-|[]]] Hw; [discriminate|]. cbn in Hw. injection Hw as <- <-. exact Hm. }
  destruct r as [w|c' w|e|c' x]; unfold on_return.
  - eapply Fin; proj; reflexivity.
  - eapply (struct_park loc place s _ t _ a I P H Ht); reflexivity.
  - destruct (catch (logev _ s) a) as [|[c' x] tl].
    + eapply Fin; proj; reflexivity.
    + eapply (struct_park loc place s _ t _ a I P H Ht); reflexivity.
  - eapply (struct_same loc place s _ t [IAdd a m x]); eauto; rewrite ?Ht; try (proj; reflexivity).
    + apply sh_add.
    + intros b (j & [<-|[]] & [_ [E|[? E]]]); discriminate.
    + intros j b m' [<-|[]] Hw. cbn in Hw. injection Hw as <- <-. exact Hm.
Qed.

Lemma struct_exec loc place (s s' : state) t i rest :
  tok_inv loc s -> pl_inv place s -> heads s -> todo s t = i :: rest ->
  exec t i rest s = Some s' -> struct s'.
Proof.
  intros I P H Ht E.
  pose proof (ti_shape _ _ I t) as Sh. rewrite Ht in Sh.
  assert (St : struct s) by (exists loc, place; auto).
  destruct i; cbn [exec] in E; try discriminate; injection E as <-.
  - (* IBegin *)
    destruct (mbox s a) as [|m r] eqn:Eb; [now apply struct_crash|].
    destruct (mcnt s m) eqn:Em; try now apply struct_crash.
    pose proof (shape_begin _ _ Sh) as ->.
    eapply (struct_same loc place s _ t [IRun a m c (mval s m)]); eauto; rewrite ?Ht; try (proj; reflexivity).
    + constructor.
    + intros b (j & [<-|[]] & [_ [E|[? E]]]); discriminate.
    + intros j b m' [<-|[]] Hw. cbn in Hw. injection Hw as <- <-. eauto.
  - (* IReady *)
    exists (upd loc a (LReady (aff s a))), place. split; [|split].
    + eapply (tok_ready loc s _ t a rest); eauto; proj; reflexivity.
    + eapply (pl_same place s _ t rest); eauto; proj; try reflexivity. now rewrite Ht.
    + apply (heads_step s _ t rest); proj; try reflexivity; try assumption; eauto.
      intros j b m' Hj Hw. eapply (H t j); eauto. eapply in_rest; eauto.
  - (* IFlush *)
    pose proof (shape_flush _ _ Sh) as Hfin.
    exists loc, (fun m => match place m with POut b => if b =? a then PFlight t else POut b | p => p end).
    assert (Fr : fls rest = []) by (destruct Hfin; reflexivity).
    split; [|split].
    + eapply (tok_same loc s _ t (map (ISend a) (rev (out s a)) ++ rest)); eauto; proj; try reflexivity; rewrite ?Ht.
      * eapply sh_sends. now apply sends_map.
      * intros b (j & Hj & Hfl). left.
        assert (b = a). { eapply sends_flush; [apply sends_map; exact Hfin|exact Hj|exact Hfl]. }
        subst b. rewrite flushing_in, Ht. exists (IFlush a). split; [now left|]. split; [apply Hfl|now left].
      * rewrite flat_map_app, xtoks_sends. reflexivity.
      * rewrite flat_map_app, ptoks_sends. reflexivity.
    + eapply (pl_flush place s _ t a rest); eauto; proj; reflexivity.
    + apply (heads_step s _ t (map (ISend a) (rev (out s a)) ++ rest)); proj; [assumption|reflexivity|eauto|].
      intros j b m Hj Hw. apply in_app_iff in Hj. destruct Hj as [Hj|Hj].
      * apply in_map_iff in Hj. destruct Hj as (x & <- & _). discriminate.
      * eapply (H t j); eauto. eapply in_rest; eauto.
  - (* ISend *)
    destruct (mbox s a) as [|m0 r] eqn:Eb; [now apply struct_crash|].
    destruct (mbase s m =? mbase s m0)%Z.
    + eapply struct_enq; eauto.
    + pose proof (shape_send _ _ _ Sh) as Hs.
      exists loc, (upd place m PTimer). split; [|split].
      * eapply (tok_same loc s _ t rest); eauto; proj; try reflexivity; rewrite ?Ht; try reflexivity.
        -- eapply sh_sends; eauto.
        -- intros b (j & Hj & Hfl). left. rewrite flushing_in, Ht. exists j. split; [now right|assumption].
      * eapply (pl_timed place s _ t _ rest m); eauto; proj; reflexivity.
      * apply (heads_step s _ t rest); proj; [assumption|reflexivity|eauto|].
        intros j b m' Hj Hw. eapply (H t j); eauto. eapply in_rest; eauto.
  - (* IEnq *) eapply struct_enq; eauto.
  - (* ISetVal *)
    pose proof (shape_set _ _ _ _ Sh) as ->.
    eapply (struct_same loc place s _ t [IFreeze a m o]); eauto; rewrite ?Ht; try (proj; reflexivity).
    + constructor.
    + intros b (j & [<-|[]] & [_ [E|[? E]]]); discriminate.
    + intros j b m' [<-|[]] Hw. cbn in Hw. injection Hw as <- <-.
      eapply (H t (ISetVal a m o)); [rewrite Ht; now left|reflexivity].
  - (* IFreeze *)
    pose proof (shape_freeze _ _ _ _ Sh) as ->.
    eexists _, place. split; [|split].
    + eapply (tok_freeze loc s _ t a m o); eauto; proj; reflexivity.
    + eapply (pl_same place s _ t (map (IWake m o) (mwait s m) ++ [IDeq a m])); eauto; proj; try reflexivity.
      rewrite flat_map_app, fls_wakes, Ht. reflexivity.
    + apply (heads_step s _ t (map (IWake m o) (mwait s m) ++ [IDeq a m])); proj; [assumption|reflexivity|eauto|].
      intros j b m' Hj Hw. apply in_app_iff in Hj. destruct Hj as [Hj|[<-|[]]].
      * apply in_map_iff in Hj. destruct Hj as (x & <- & _). discriminate.
      * cbn in Hw. injection Hw as <- <-. eapply (H t (IFreeze a m o)); [rewrite Ht; now left|reflexivity].
  - (* IWake *)
    destruct (mbox s b) as [|mb r] eqn:Eb; [now apply struct_crash|].
    eapply (struct_same loc place s _ t (IReady b :: rest)); eauto; rewrite ?Ht; try (destruct o; proj; reflexivity).
    + apply shape_ready_tail. eapply shape_tail; eauto.
    + intros b' (j & Hj & Hfl). left. rewrite flushing_in, Ht. exists j. split; [|assumption].
      destruct Hj as [<-|Hj]; [destruct Hfl as [_ [?|[? ?]]]; discriminate|now right].
    + intros j b' m' [<-|Hj] Hw; [discriminate|]. eapply (H t j); eauto. eapply in_rest; eauto.
  - (* IDeq *)
    pose proof (shape_deq _ _ _ Sh) as ->.
    destruct (H t (IDeq a m) a m) as [r Eb]; [rewrite Ht; now left|reflexivity|].
    rewrite Eb.
    destruct (exec_flush1 loc s t _ a I Ht eq_refl ltac:(nof)) as [L Nf].
    assert (Hd : forall s', (forall t', todo s' t' = upd (todo s) t (match r with [] => [] | _ => [IReady a] end) t') ->
              (forall b, mbox s' b = upd (mbox s) a r b) -> heads s').
    { intros s' Htd Hb t' j b m' Hj Hw. rewrite Htd in Hj. unfold upd in Hj.
      destruct (Nat.eqb_spec t' t) as [->|N].
      - destruct r; cbn in Hj; [contradiction|]. destruct Hj as [<-|[]]. discriminate.
      - rewrite Hb. destruct (H _ _ _ _ Hj Hw) as [r' K].
        assert (b <> a). { intros ->. apply N. pose proof (xtok_loc _ _ _ _ _ I Hj (works_on_xtok _ _ _ Hw)). congruence. }
        rewrite upd_other by assumption. eauto. }
    exists (upd loc a (match r with [] => LNone | _ => LPark t end)), (upd place m PDone). split; [|split].
    + destruct r as [|m1 r].
      * eapply (tok_last loc s _ t a m); eauto; proj; reflexivity.
      * eapply (tok_park loc s _ t); eauto; proj; try reflexivity.
        intros b. updc; [|tauto]. rewrite Eb. split; discriminate.
    + eapply (pl_deq place s _ t a m r (match r with [] => [] | _ => [IReady a] end)); eauto; proj; try reflexivity. rewrite Ht. destruct r; reflexivity.
    + apply Hd; proj; reflexivity.
  - (* IAdd *)
    pose proof (shape_add _ _ _ _ Sh) as ->.
    assert (Hm : exists r, mbox s a = m :: r).
    { eapply (H t (IAdd a m x)); [rewrite Ht; now left|reflexivity]. }
    destruct (exec_flush1 loc s t _ a I Ht eq_refl ltac:(nof)) as [L Nf].
    destruct (frozen (mcnt s x)).
    + eapply (struct_same loc place s _ t [IFlush a; IResume a m x]); eauto; rewrite ?Ht; try (proj; reflexivity).
      * apply sh_flush. constructor.
      * intros b (j & [<-|[<-|[]]] & [_ [E|[? E]]]); try discriminate. injection E as <-. right. auto.
      * intros j b m' [<-|[<-|[]]] Hw; [discriminate|]. cbn in Hw. injection Hw as <- <-. exact Hm.
    + exists (upd loc a (LWait x)), place. split; [|split].
      * eapply (tok_add loc s _ t a m x); eauto; proj; reflexivity.
      * eapply (pl_same place s _ t [IFlush a]); eauto; proj; try reflexivity. now rewrite Ht.
      * apply (heads_step s _ t [IFlush a]); proj; [assumption|reflexivity|eauto|].
        intros j b m' [<-|[]] Hw. discriminate.
  - (* IResume *)
    pose proof (shape_res _ _ _ _ Sh) as ->.
    eapply (struct_park loc place s _ t _ a I P H Ht); try reflexivity; destruct (mcnt s x); reflexivity.
Qed.

Lemma waits_crash s : waits s -> waits (crash s).
Proof. exact (fun H => H). Qed.

Ltac noadd := intros; cbn in *; repeat match goal with
  | H : _ \/ _ |- _ => destruct H
  | H : In _ (map _ _) |- _ => apply in_map_iff in H; destruct H as (? & ? & _)
  end; try discriminate; try contradiction.

Ltac ws s t := eapply (waits_step s _ t); [eassumption|intros ?; proj; reflexivity|proj; lia|proj; try assumption|proj; try solve [eauto]].

Lemma waits_pres s l s' : waits s -> step s l s' -> waits s'.
Proof.
  intros W St. pose proof W as [W1 W2].
  assert (Rest : forall t i rest, todo s t = i :: rest -> forall a m x, In (IAdd a m x) rest -> x < next s).
  { intros t i rest Ht a m x Hi. apply (W2 t a m). rewrite Ht. now right. }
  destruct St as [t q a r Ht Hs Hq|t x a m c v s' Ht Ha E|t i rest s' Ht E|t B c Ht|t m r Ht E|d Hd].
  - ws s t. noadd.
  - destruct x as [B c'|d c'|c'| |i|r]; cbn [run_act] in E; try (injection E as <-).
    + destruct (mbox s a); [exact W|]. split; proj.
      * intros x Hx. updc; [reflexivity|]. apply W1. lia.
      * intros t' b m' x Hi. apply W2 in Hi. lia.
    + destruct (mbox s a); [exact W|]. split; proj.
      * intros x Hx. updc; [reflexivity|]. apply W1. lia.
      * intros t' b m' x Hi. apply W2 in Hi. lia.
    + exact W.
    + destruct (catch s a) as [|[? ?] ?]; [discriminate|]. injection E as <-. exact W.
    + exact W.
    + destruct r as [w|c' w|e|c' x]; unfold on_return.
      * ws s t. noadd.
      * ws s t. noadd.
      * destruct (catch _ a) as [|[? ?] ?]; (ws s t); noadd.
      * ws s t.
        intros a' m' x' [Ei|[]]. injection Ei as <- <- <-. destruct c; try (cbn in Ha; discriminate). exact Ha.
  - destruct i; cbn [exec] in E; try discriminate; injection E as <-.
    + destruct (mbox s a) as [|m r]; [exact W|]. destruct (mcnt s m); try exact W.
      ws s t.
      all: intros a' m' x' [Ei|Hi]; [discriminate|eauto].
    + ws s t.
    + ws s t.
      intros a' m' x' Hi. apply in_app_iff in Hi. destruct Hi as [Hi|Hi]; [noadd|eauto].
    + destruct (mbox s a) as [|m0 r]; [exact W|]. destruct (mbase s m =? mbase s m0)%Z.
      * unfold enq_msg. ws s t.
        intros a' m' x' Hi. destruct (mbox s (mto s m)); [destruct Hi as [?|Hi]; [discriminate|]|]; eauto.
      * ws s t.
    + unfold enq_msg. ws s t.
      intros a' m' x' Hi. destruct (mbox s (mto s m)); [destruct Hi as [?|Hi]; [discriminate|]|]; eauto.
    + ws s t.
      all: intros a' m' x' [Ei|Hi]; [discriminate|eauto].
    + ws s t.
      * intros x Hx. updc; auto.
      * intros a' m' x' Hi. apply in_app_iff in Hi. destruct Hi as [Hi|[Hi|Hi]]; [noadd|discriminate|eauto].
    + destruct (mbox s b) as [|mb r]; [exact W|].
      destruct o; ws s t.
      all: intros a' m' x' [Ei|Hi]; [discriminate|eauto].
    + destruct (mbox s a) as [|m0 r]; (ws s t).
      destruct r; [eauto|]. all: intros a' m' x' [Ei|Hi]; [discriminate|eauto].
    + destruct (frozen (mcnt s x)).
      * ws s t.
        intros a' m' x' [Ei|[Ei|Hi]]; try discriminate; eauto.
      * ws s t.
        -- intros y Hy. assert (x < next s) by (apply (W2 t a m); rewrite Ht; now left).
           rewrite upd_other by lia. auto.
        -- intros a' m' x' [Ei|Hi]; try discriminate; eauto.
    + destruct (mcnt s x); ws s t.
      all: intros a' m' x' [Ei|Hi]; [discriminate|eauto].
  - ws s t.
    + intros x Hx. updc; auto.
    + noadd.
  - ws s t. noadd.
  - exact W.
Qed.

Lemma struct_step s l s' : struct s -> waits s -> (G -> no_race s l) -> step s l s' -> struct s'.
Proof.
  intros (loc & place & I & P & H) W Gr St.
  destruct St as [t q a r Ht Hs Hq|t x a m c v s' Ht Ha E|t i rest s' Ht E|t B c Ht|t m r Ht E|d Hd].
  - exists (upd loc a (LExec t)), place. split; [|split].
    + eapply (tok_deq loc s _ t q a r); eauto; try (proj; reflexivity). intros t' [g F]. exact (Gr g a r t' Hq F).
    + eapply (pl_same place s _ t [IBegin a]); eauto; proj; try reflexivity. now rewrite Ht.
    + apply (heads_step s _ t [IBegin a]); proj; [assumption|reflexivity|eauto|].
      intros j b m' [<-|[]] Hw. discriminate.
  - assert (St : struct s) by (exists loc, place; auto).
    assert (Push : forall B c' base e, struct (logev e (set_out (upd (out s) a (next s :: out s a)) (new_msg vdone B c' base s)))).
    { intros B c' base e. exists loc, (upd place (next s) (POut a)). split; [|split].
      - eapply (tok_same_todo loc s); eauto; proj; try reflexivity.
        intros y. updc; [|reflexivity]. symmetry. now apply W.
      - eapply (pl_push place s _ a B); eauto; proj; reflexivity.
      - exact H. }
    destruct x as [B c'|d c'|c'| |i|r]; cbn [run_act] in E; try (injection E as <-).
    + destruct (mbox s a) as [|m0 r] eqn:Eb; [now apply struct_crash|apply Push].
    + destruct (mbox s a) as [|m0 r] eqn:Eb; [now apply struct_crash|apply Push].
    + eapply (struct_same_todo loc place s); eauto.
    + destruct (catch s a) as [|[? ?] ?]; [discriminate|]. injection E as <-. eapply (struct_same_todo loc place s); eauto.
    + eapply (struct_same_todo loc place s); eauto.
    + eapply struct_return; eauto.
  - eapply struct_exec; eauto.
  - exists loc, (upd place (next s) (PFlight t)). split; [|split].
    + eapply (tok_same loc s _ t [IEnq (next s)]); eauto; proj; try reflexivity; rewrite ?Ht; try reflexivity.
      * constructor.
      * intros b (j & [<-|[]] & [_ [E|[? E]]]); discriminate.
      * intros x. updc; [|reflexivity]. symmetry. now apply W.
    + eapply (pl_ext place s _ t B); eauto; proj; reflexivity.
    + eapply (heads_step s _ t); [eassumption|proj; reflexivity|proj; eauto|].
      intros j b m' [<-|[]] Hw. discriminate.
  - unfold deq_timed in E. destruct (timerQ s) as [|m0 r0] eqn:Eq; [discriminate|].
    destruct (mbase s m0 <=? clock s)%Z; [|discriminate]. injection E as -> ->.
    exists loc, (upd place m (PFlight t)). split; [|split].
    + eapply (tok_same loc s _ t [IEnq m]); eauto; proj; try reflexivity; rewrite ?Ht; try reflexivity.
      * constructor.
      * intros b (j & [<-|[]] & [_ [E|[? E]]]); discriminate.
    + eapply (pl_fire place s _ t m r); eauto; proj; reflexivity.
    + eapply (heads_step s _ t); [eassumption|proj; reflexivity|proj; eauto|].
      intros j b m' [<-|[]] Hw. discriminate.
  - eapply (struct_same_todo loc place s); eauto.
Qed.

End L1.

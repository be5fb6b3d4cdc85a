(** Invariant of the runtime, part 6: the phases are inductive. *)
From Verif Require Import Base S_Rts M_Rts P_RtsTok P_RtsPlace P_Rts1 P_Rts2 P_Rts3.
Local Open Scope nat_scope.

Section L4.
Context {U V : Type} {G : Prop}.
Notation tok_inv := (@tok_inv U V G).
Notation is_flush := (@is_flush U V G).
Notation fling := (@fling U V G).
Notation struct := (@struct U V G).
Variable vfalse vdone : V.
Variable shared : nat.
Notation instr := (instr U V).
Notation state := (state U V).
Notation event := (event U V).
Notation outcome := (outcome V).
Notation step := (step vfalse vdone shared).
Notation expect := (expect vfalse).
Notation phases := (phases vfalse vdone).
Notation phase_ok := (phase_ok vfalse vdone).
Notation same_for := (same_for vfalse).
Notation glob := (glob vdone).

Lemma head_unique (s : state) a b m : struct s -> head s a m -> head s b m -> a = b.
Proof.
  intros (loc & place & _ & P & _) [r H] [r' H'].
  assert (E1 : place m = PMbox a) by (apply (pl_box _ _ P); rewrite H; now left).
  assert (E2 : place m = PMbox b) by (apply (pl_box _ _ P); rewrite H'; now left). congruence.
Qed.
Lemma head_fun (s : state) a m m' : head s a m -> head s a m' -> m = m'.
Proof. intros [r H] [r' H']. congruence. Qed.
Lemma head_lt (s : state) a m : struct s -> head s a m -> m < next s.
Proof.
  intros (loc & place & _ & P & _) [r H].
  assert (E1 : place m = PMbox a) by (apply (pl_box _ _ P); rewrite H; now left).
  destruct (Nat.lt_ge_cases m (next s)) as [|K]; [assumption|]. apply (pl_new _ _ P) in K. congruence.
Qed.
Lemma head_not_waiting (s : state) a m : struct s -> head s a m -> ~ waiting s m.
Proof.
  intros (loc & place & _ & P & _) [r H].
  assert (E1 : place m = PMbox a) by (apply (pl_box _ _ P); rewrite H; now left).
  intros [(b & K)|[(t & K)|[K|(b & m0 & r' & K1 & K2)]]].
  - apply (pl_out _ _ P) in K. congruence.
  - apply (pl_fl _ _ P) in K. congruence.
  - apply (pl_tm _ _ P) in K. congruence.
  - assert (E2 : place m = PMbox b) by (apply (pl_box _ _ P); rewrite K1; now right).
    assert (a = b) by congruence. subst b. pose proof (pl_box_nd _ _ P a) as Nd. rewrite H in K1.
    injection K1 as <- <-. rewrite H in Nd. inversion Nd; subst. contradiction.
Qed.
Lemma waiting_lt (s : state) m : struct s -> waiting s m -> m < next s.
Proof.
  intros (loc & place & _ & P & _) K.
  destruct (Nat.lt_ge_cases m (next s)) as [|N]; [assumption|]. apply (pl_new _ _ P) in N.
  destruct K as [(b & K)|[(t & K)|[K|(b & m0 & r' & K1 & K2)]]].
  - apply (pl_out _ _ P) in K. congruence.
  - apply (pl_fl _ _ P) in K. congruence.
  - apply (pl_tm _ _ P) in K. congruence.
  - assert (E2 : place m = PMbox b) by (apply (pl_box _ _ P); rewrite K1; now right). congruence.
Qed.

(** What an event says about the execution of actors. *)
Definition about (e : event) : option (aid * mid) :=
  match e with EBegin a m _ _ | EReturn a m _ => Some (a, m) | _ => None end.

Definition ext (oe : option event) (h : list event) : list event := match oe with None => h | Some e => e :: h end.

Lemma same_mk b (s s' : state) oe :
  log s' = ext oe (log s) ->
  (forall e a m, oe = Some e -> about e = Some (a, m) -> a <> b /\ ~ head s b m) ->
  (exists x, mbox s' b = mbox s b ++ x /\ (mbox s b = [] -> x = [])) ->
  (forall m, head s b m -> mcnt s' m = mcnt s m /\ mval s' m = mval s m) ->
  waitsfor s' b = waitsfor s b ->
  same_for b s s'.
Proof.
  intros El He (x & Ex & Ex0) Hm Hw.
  assert (Hb : forall m, head s b m -> head s' b m).
  { intros m [r H]. exists (r ++ x). now rewrite Ex, H. }
  assert (Hi : mbox s' b = [] -> mbox s b = []).
  { rewrite Ex. intros H. now apply app_eq_nil in H. }
  destruct oe as [e|]; cbn [ext] in El; constructor; rewrite ?El; auto; try (intros m H; apply Hm in H; tauto).
  - intros m H. destruct e; cbn [last_return]; try reflexivity.
    destruct (He _ a m0 eq_refl eq_refl) as [_ N]. destruct (Nat.eqb_spec m0 m); [congruence|reflexivity].
  - intros m H Hu a c v [->|K]; [|eapply Hu; eauto]. destruct (He _ a m eq_refl eq_refl). contradiction.
  - destruct e; cbn [running]; try reflexivity; destruct (He _ a m eq_refl eq_refl) as [N _];
      destruct (Nat.eqb_spec a b); congruence.
  - destruct e; cbn [S_Rts.expect]; try reflexivity; destruct (He _ a m eq_refl eq_refl) as [N _];
      destruct (Nat.eqb_spec a b); congruence.
  - apply incl_tl, incl_refl.
  - apply incl_refl.
Qed.

Lemma ext_incl oe h : incl h (ext oe h).
Proof. destruct oe; cbn; [apply incl_tl|]; apply incl_refl. Qed.

Lemma waiting_sub (s s' : state) t l' :
  (forall t', todo s' t' = upd (todo s) t l' t') ->
  (forall m, In m (flat_map fl l') -> waiting s m) ->
  (forall a m, In m (out s' a) -> waiting s m) ->
  (forall m, In m (timerQ s') -> waiting s m) ->
  (forall a m0 r m, mbox s' a = m0 :: r -> In m r -> waiting s m) ->
  forall m, waiting s' m -> waiting s m.
Proof.
  intros Ht Hl Ho Hq Hb m [(a & K)|[(t' & K)|[K|(a & m0 & r & K1 & K2)]]]; eauto.
  rewrite Ht in K. unfold upd in K. destruct (Nat.eqb_spec t' t); [eauto|]. right. left. eauto.
Qed.
Lemma waiting_new (s s' : state) t l' :
  (forall t', todo s' t' = upd (todo s) t l' t') ->
  (forall m, In m (flat_map fl l') -> waiting s m \/ m = next s) ->
  (forall a m, In m (out s' a) -> waiting s m \/ m = next s) ->
  (forall m, In m (timerQ s') -> waiting s m) ->
  (forall a m0 r m, mbox s' a = m0 :: r -> In m r -> waiting s m) ->
  forall m, waiting s' m -> waiting s m \/ m = next s.
Proof.
  intros Ht Hl Ho Hq Hb m [(a & K)|[(t' & K)|[K|(a & m0 & r & K1 & K2)]]]; eauto.
  rewrite Ht in K. unfold upd in K. destruct (Nat.eqb_spec t' t); [eauto|]. left. right. left. eauto.
Qed.
Lemma w_out (s : state) a m : In m (out s a) -> waiting s m.
Proof. left. eauto. Qed.
Lemma w_fl (s : state) t m : In m (flat_map fl (todo s t)) -> waiting s m.
Proof. right. left. eauto. Qed.
Lemma w_tm (s : state) m : In m (timerQ s) -> waiting s m.
Proof. right. right. now left. Qed.
Lemma w_box (s : state) a m0 r m : mbox s a = m0 :: r -> In m r -> waiting s m.
Proof. right. right. right. eauto. Qed.

Record inv (s : state) : Prop := {
  i_struct : struct s;
  i_waits : waits s;
  i_book : book s;
  i_ph : phases s;
  i_gl : glob s;
  i_ok : crashed s = false
}.

Definition good (s : state) : Prop := phases s /\ glob s /\ crashed s = false.

Lemma todo_self (s : state) t t' : todo s t' = upd (todo s) t (todo s t) t'.
Proof. unfold upd. destruct (Nat.eqb_spec t' t); congruence. Qed.

Lemma ph_todo (s : state) t i a ph : phases s -> In i (todo s t) -> iphase i = Some (a, ph) -> phase_ok s a ph.
Proof. intros P H E. apply P. eapply at_todo; eauto. Qed.

(** Nothing happens to messages. *)
Lemma glob_same (s s' : state) oe :
  glob s -> next s' = next s -> mto s' = mto s -> mcnt s' = mcnt s -> mval s' = mval s ->
  log s' = ext oe (log s) -> (forall m o, oe <> Some (EFinish m o)) ->
  (forall a m c v, oe = Some (EBegin a m c v) -> m < next s /\ ~ waiting s m) ->
  (forall m, waiting s' m -> waiting s m) ->
  (forall x a, In a (mwait s' x) -> In a (mwait s x) \/ frozen (mcnt s x) = false) ->
  glob s'.
Proof.
  intros Gl0 En Em Ec Ev El Hf Hb Hw Hmw. apply (glob_quiet vdone s); auto.
  - rewrite El. apply ext_incl.
  - intros m. left. now rewrite Ec, Ev.
  - intros m o H. rewrite El in H. destruct oe as [e|]; cbn in H; [|assumption]. destruct H as [->|H]; [|assumption].
    exfalso. eapply Hf; eauto.
  - intros a m c v H. rewrite El in H. destruct oe as [e|]; cbn in H; [|auto]. destruct H as [->|H]; [|auto].
    right. eauto.
Qed.

(** One message is written, that of a running actor. *)
Lemma glob_write (s s' : state) oe m0 :
  glob s -> next s' = next s -> mto s' = mto s ->
  (exists c, mcnt s m0 = Code c) -> (exists c, mcnt s' m0 = Code c) -> ~ unstarted m0 (log s) ->
  (forall m, m <> m0 -> mcnt s' m = mcnt s m /\ mval s' m = mval s m) ->
  log s' = ext oe (log s) -> (forall m o, oe <> Some (EFinish m o)) ->
  (forall a m c v, oe <> Some (EBegin a m c v)) ->
  (forall m, waiting s' m -> waiting s m) ->
  (forall x a, In a (mwait s' x) -> In a (mwait s x) \/ frozen (mcnt s x) = false) ->
  glob s'.
Proof.
  intros Gl0 En Em C1 C2 Nu Hm El Hf Hb Hw Hmw. apply (glob_quiet vdone s); auto.
  - rewrite El. apply ext_incl.
  - intros m. destruct (Nat.eq_dec m m0) as [->|N]; [right; auto|left; auto].
  - intros m o H. rewrite El in H. destruct oe as [e|]; cbn in H; [|assumption]. destruct H as [->|H]; [|assumption].
    exfalso. eapply Hf; eauto.
  - intros a m c v H. rewrite El in H. destruct oe as [e|]; cbn in H; [|auto]. destruct H as [->|H]; [|auto].
    exfalso. eapply Hb; eauto.
Qed.

Lemma running_begun a m c v (h : list event) : running a h = Some (m, c, v) -> In (EBegin a m c v) h.
Proof.
  induction h as [|e h IH]; cbn; [discriminate|].
  destruct e; try (intros H; right; auto; fail).
  - destruct (Nat.eqb_spec a0 a) as [->|]; [intros H; injection H as -> -> ->; now left|auto].
  - destruct (Nat.eqb_spec a0 a) as [->|]; [discriminate|auto].
Qed.
Lemma begun_started m (h : list event) : begun m h -> ~ unstarted m h.
Proof. intros (a & c & v & H) K. eapply K; eauto. Qed.

Ltac sm s oe := intros; eapply (same_mk _ s _ oe);
  [reflexivity | intros ? ? ? [= <-] ?; discriminate
  | exists []; split; [proj; now rewrite app_nil_r|reflexivity] | auto | reflexivity].
Ltac noev := intros; discriminate.
Ltac wsub s t := eapply (waiting_sub s _ t); [intros; proj; first [reflexivity|exact (todo_self s t)]|proj..];
  [ | try exact (w_out s) | try exact (w_tm s) | try exact (w_box s)].

Lemma good_deq (s : state) t q a r s' :
  inv s -> struct s' -> todo s t = [] -> rq s q = a :: r ->
  s' = set_rq (upd (rq s) q r) (set_todo (upd (todo s) t [IBegin a]) s) -> good s'.
Proof.
  intros I St Ht Hq ->. split; [|split; [|exact (i_ok _ I)]].
  - eapply (phases_none vfalse vdone s _ t [IBegin a]); [apply I|exact St|sm s (@None event)| |reflexivity|reflexivity|].
    + intros b q' H. proj. unfold upd in H. destruct (Nat.eqb_spec q' q); [|econstructor; eauto].
      apply (at_rq s b q). rewrite Hq. now right.
    + intros i b ph [<-|[]] E. injection E as <- <-. apply (at_rq s a q). rewrite Hq. now left.
  - apply (glob_same s _ None); [apply I|reflexivity..|noev|noev| |auto].
    wsub s t. intros m [].
Qed.

Lemma head_of (s : state) a m r : mbox s a = m :: r -> head s a m.
Proof. exists r. assumption. Qed.

Lemma good_push (s : state) t a m c v s' B c' base e :
  inv s -> struct s' -> todo s t = [IRun a m c v] ->
  s' = logev e (set_out (upd (out s) a (next s :: out s a)) (new_msg vdone B c' base s)) ->
  (e = EAsync a B (next s) c' \/ (a = B /\ exists d, e = EAfter a (next s) d c')) -> good s'.
Proof.
  intros I St Ht -> He. split; [|split; [|exact (i_ok _ I)]].
  - eapply (phases_none vfalse vdone s _ t (todo s t)); [apply I|exact St| | | | |].
    + intros b. eapply (same_mk _ s _ (Some e)).
      * reflexivity.
      * intros ? ? ? [= <-] H. destruct He as [->|(_ & d & ->)]; discriminate.
      * exists []. split; [proj; now rewrite app_nil_r|reflexivity].
      * intros x H. apply (head_lt _ _ _ (i_struct _ I)) in H. proj. rewrite !upd_other by lia. auto.
      * reflexivity.
    + intros b q H. econstructor; exact H.
    + intros x. proj. destruct (Nat.eq_dec x (next s)) as [->|N].
      * rewrite upd_same. symmetry. apply (i_waits _ I). lia.
      * now apply upd_other.
    + intros t'. exact (todo_self s t t').
    + intros i b ph H E. eapply at_todo; eauto.
  - eapply (glob_new vdone s _ B c' e); [apply I|apply I|reflexivity..| |intros ? ? ->; destruct He as [?|(_ & ? & ?)]; discriminate|intros ? ? ? ? ->; destruct He as [?|(_ & ? & ?)]; discriminate|].
    + apply created_cons. destruct He as [->|(-> & d & ->)]; eauto.
    + eapply (waiting_new s _ t (todo s t)); [exact (todo_self s t)|proj..].
      * left. eapply w_fl; eauto.
      * intros b x H. unfold upd in H. destruct (Nat.eqb_spec b a) as [->|N]; [destruct H as [->|H]|]; eauto using w_out.
      * intros x H. now apply w_tm.
      * intros b m0 r x H1 H2. eapply w_box; eauto.
Qed.

(** Events that concern neither execution nor messages. *)
Lemma good_misc (s : state) (t : tid) s' oe :
  inv s -> struct s' ->
  todo s' = todo s -> mto s' = mto s -> mcnt s' = mcnt s -> mval s' = mval s -> mwait s' = mwait s -> mbox s' = mbox s ->
  out s' = out s -> waitsfor s' = waitsfor s -> rq s' = rq s -> timerQ s' = timerQ s -> next s' = next s ->
  crashed s' = crashed s -> log s' = ext oe (log s) ->
  match oe with Some (EPush _ _) | Some (EPop _ _) | None => True | _ => False end ->
  good s'.
Proof.
  intros I St E1 E2 E3 E4 E5 E6 E7 E8 E9 E10 E11 E12 E13 He. split; [|split; [|rewrite E12; exact (i_ok _ I)]].
  - eapply (phases_none vfalse vdone s _ t (todo s t)); [apply I|exact St| | | | |].
    + intros b. eapply (same_mk _ s _ oe); auto.
      * intros e ? ? -> H. destruct e; try contradiction; discriminate.
      * exists []. rewrite E6, app_nil_r. auto.
      * rewrite E3, E4. auto.
      * now rewrite E8.
    + intros b q H. rewrite E9 in H. econstructor; exact H.
    + now rewrite E5.
    + intros t'. rewrite E1. exact (todo_self s t t').
    + intros i b ph H E. eapply at_todo; eauto.
  - apply (glob_same s _ oe); auto; [apply I|..].
    + intros m o ->. contradiction.
    + intros a m c v ->. contradiction.
    + intros m. unfold waiting. rewrite E1, E6, E7, E10. auto.
    + rewrite E5. auto.
Qed.


(** A step that concerns the actor a and the message m it is working on. *)
Lemma good_own (s s' : state) t a m oe l' :
  inv s -> struct s' -> head s a m -> (exists c, mcnt s m = Code c) -> begun m (log s) ->
  (forall t', todo s' t' = upd (todo s) t l' t') ->
  (forall i b ph, b <> a -> In i l' -> iphase i = Some (b, ph) -> In i (todo s t)) ->
  (forall x, In x (flat_map fl l') -> In x (flat_map fl (todo s t))) ->
  mbox s' = mbox s -> out s' = out s -> timerQ s' = timerQ s -> rq s' = rq s -> next s' = next s -> mto s' = mto s ->
  (forall b, b <> a -> waitsfor s' b = waitsfor s b) ->
  (forall b x, In b (mwait s' x) -> In b (mwait s x) \/ (b = a /\ frozen (mcnt s x) = false)) ->
  (forall m', m' <> m -> mcnt s' m' = mcnt s m' /\ mval s' m' = mval s m') ->
  (exists c, mcnt s' m = Code c) ->
  log s' = ext oe (log s) -> (oe = None \/ exists r, oe = Some (EReturn a m r)) ->
  crashed s' = crashed s ->
  (exists ph, at_phase s' a ph /\ phase_ok s' a ph) ->
  good s'.
Proof.
  intros I St Hh Hc Hb Ht Hi Hf E1 E2 E3 E4 E5 E6 Hwf Hmw Hm Hc' El Ho Ec Hph.
  split; [|split; [|rewrite Ec; exact (i_ok _ I)]].
  - eapply (phases_one vfalse vdone a s s' t l'); [apply I|exact St|exact Hph| | | |exact Ht|exact Hi].
    + intros b Nb. assert (Hn : ~ head s b m).
      { intros K. apply Nb. exact (head_unique s b a m (i_struct _ I) K Hh). }
      eapply (same_mk _ s _ oe); auto.
      * intros e a0 m0 E K. destruct Ho as [->|[r ->]]; [discriminate|]. injection E as <-. cbn in K.
        injection K as <- <-. auto.
      * exists []. rewrite E1, app_nil_r. auto.
      * intros m' K. apply Hm. intros ->. contradiction.
    + intros q. now rewrite E4.
    + intros b x Nb K. destruct (Hmw b x K) as [|[? _]]; [assumption|contradiction].
  - apply (glob_write s s' oe m); auto; [apply I|now apply begun_started|..].
    + intros m' o ->. destruct Ho as [?|[r ?]]; discriminate.
    + intros a' m' c v ->. destruct Ho as [?|[r ?]]; discriminate.
    + eapply (waiting_sub s s' t l'); eauto.
      * intros x K. eapply w_fl; eauto.
      * intros b x K. rewrite E2 in K. eapply w_out; eauto.
      * intros x K. rewrite E3 in K. now apply w_tm.
      * intros b m0 r x K. rewrite E1 in K. eapply w_box; eauto.
    + intros x b K. destruct (Hmw b x K) as [|[_ ?]]; auto.
Qed.

Ltac own := first [intros ? []; fail | intros; proj; unfold upd; try reflexivity; auto].
Ltac solve_m := let m' := fresh in let N := fresh in intros m' N; proj; rewrite ?(upd_other _ _ _ _ N); auto.

Lemma good_return (s : state) t a m c v r s' :
  inv s -> struct s' -> todo s t = [IRun a m c v] -> s' = on_return vfalse t a m r s -> good s'.
Proof.
  intros I St Ht Es.
  destruct (ph_todo s t (IRun a m c v) a (PhRun m c v) (i_ph _ I)) as (Hh & Hr & c0 & Hc); [rewrite Ht; now left|reflexivity|].
  assert (Hb : begun m (log s)). { apply running_begun in Hr. exists a, c, v. assumption. }
  assert (Hb' : begun m (log s')).
  { destruct Hb as (a1 & c1 & v1 & K). exists a1, c1, v1. subst s'. unfold on_return.
    destruct r; proj; try (now right). destruct (catch s a) as [|[? ?] ?]; now right. }
  pose proof (bk_catch _ (i_book _ I) a) as Hcatch.
  assert (Eq : forall A (x y : A), (if a =? a then x else y) = x) by (intros; now rewrite Nat.eqb_refl).
  assert (Eqm : forall A (x y : A), (if m =? m then x else y) = x) by (intros; now rewrite Nat.eqb_refl).
  destruct r as [w|c' w|e|c' x]; unfold on_return in Es.
  - subst s'. eapply (good_own s _ t a m (Some (EReturn a m (RDone w))) [IFlush a; ISetVal a m (OVal w)]); eauto; try (own; fail).
    + intros i b ph N [<-|[<-|[]]] E; [discriminate|]. injection E as <- <-. congruence.
    + exists (PhSet m (OVal w)). split; [eapply (at_todo _ _ t); proj; [rewrite upd_same; right; left; reflexivity|reflexivity]|].
      cbn [P_Rts3.phase_ok]. split; [|split; [exists c0; exact Hc|]].
      * split; [exact Hh|]. proj. cbn [running S_Rts.expect]. rewrite !Eq. auto.
      * exists a, (RDone w), (log s). proj. cbn [last_return]. rewrite Eqm. auto.
  - subst s'. eapply (good_own s _ t a m (Some (EReturn a m (RCont c' w))) [IReady a]); eauto; try (own; fail).
    + intros i b ph N [<-|[]] E. injection E as <- <-. congruence.
    + solve_m.
    + exists c'. proj. apply upd_same.
    + exists PhReady. split; [eapply (at_todo _ _ t); proj; [rewrite upd_same; left; reflexivity|reflexivity]|].
      exists m, c'. split; [exact Hh|]. proj. rewrite !upd_same. split; [reflexivity|]. unfold next_ok. cbn [running S_Rts.expect].
      rewrite !Eq. auto.
  - proj. destruct (catch s a) as [|[c' x] tl] eqn:Ec.
    + subst s'. eapply (good_own s _ t a m (Some (EReturn a m (RFail e))) [IFlush a; ISetVal a m (OExc e)]); eauto; try (own; fail).
      * intros i b ph N [<-|[<-|[]]] E; [discriminate|]. injection E as <- <-. congruence.
      * exists (PhSet m (OExc e)). split; [eapply (at_todo _ _ t); proj; [rewrite upd_same; right; left; reflexivity|reflexivity]|].
        cbn [P_Rts3.phase_ok]. split; [|split; [exists c0; exact Hc|]].
        -- split; [exact Hh|]. proj. cbn [running S_Rts.expect]. rewrite !Eq, <- Hcatch. auto.
        -- exists a, (RFail e), (log s). proj. cbn [last_return]. rewrite Eqm. auto.
    + subst s'. eapply (good_own s _ t a m (Some (EReturn a m (RFail e))) [IReady a]); eauto; try (own; fail).
      * intros i b ph N [<-|[]] E. injection E as <- <-. congruence.
      * solve_m.
      * exists c'. proj. apply upd_same.
      * exists PhReady. split; [eapply (at_todo _ _ t); proj; [rewrite upd_same; left; reflexivity|reflexivity]|].
        exists m, c'. split; [exact Hh|]. proj. rewrite !upd_same. split; [reflexivity|]. unfold next_ok. cbn [running S_Rts.expect].
        rewrite !Eq, <- Hcatch. auto.
  - subst s'. eapply (good_own s _ t a m (Some (EReturn a m (RWait c' x))) [IAdd a m x]); eauto; try (own; fail).
    + intros i b ph N [<-|[]] E. injection E as <- <-. congruence.
    + solve_m.
    + exists c'. proj. apply upd_same.
    + exists (PhAdd m x). split; [eapply (at_todo _ _ t); proj; [rewrite upd_same; left; reflexivity|reflexivity]|].
      exists c'. split; [exact Hh|]. proj. rewrite !upd_same. split; [reflexivity|]. cbn [running S_Rts.expect].
      rewrite !Eq. auto.
Qed.


Lemma good_begin (s : state) t a rest s' :
  inv s -> struct s' -> todo s t = IBegin a :: rest -> exec t (IBegin a) rest s = Some s' -> good s'.
Proof.
  intros I St Ht E. cbn [exec] in E. injection E as <-.
  destruct (ph_todo s t (IBegin a) a PhReady (i_ph _ I)) as (m & c & Hh & Hc & Hr & Hn); [rewrite Ht; now left|reflexivity|].
  pose proof Hh as [r Hbox]. rewrite Hbox, Hc in *.
  assert (Hu : forall b, b <> a -> ~ head s b m).
  { intros b N K. apply N. exact (head_unique s b a m (i_struct _ I) K Hh). }
  split; [|split; [|exact (i_ok _ I)]].
  - eapply (phases_one vfalse vdone a s _ t (IRun a m c (mval s m) :: rest)); [apply I|exact St| | |reflexivity|auto|reflexivity|].
    + exists (PhRun m c (mval s m)). split; [eapply (at_todo _ _ t); proj; [rewrite upd_same; left; reflexivity|reflexivity]|].
      split; [exact Hh|]. proj. cbn [running]. rewrite Nat.eqb_refl. eauto.
    + intros b N. eapply (same_mk _ s _ (Some (EBegin a m c (mval s m)))); [reflexivity| |exists []; proj; rewrite app_nil_r; auto|auto|reflexivity].
      intros e a0 m0 [= <-] [= <- <-]. auto.
    + intros i b ph N [<-|Hi] E; [injection E as <- _; congruence|]. rewrite Ht. now right.
  - eapply (glob_same s _ (Some (EBegin a m c (mval s m)))); [apply I|reflexivity..|noev| | |auto].
    + intros a' m' c' v' [= <- <- <- <-]. split; [eapply head_lt; eauto; apply I|eapply head_not_waiting; eauto; apply I].
    + wsub s t. intros x K. apply (w_fl s t). rewrite Ht. exact K.
Qed.

Lemma good_ready (s : state) t a rest s' :
  inv s -> struct s' -> todo s t = IReady a :: rest -> exec t (IReady a) rest s = Some s' -> good s'.
Proof.
  intros I St Ht E. cbn [exec] in E. injection E as <-. split; [|split; [|exact (i_ok _ I)]].
  - eapply (phases_none vfalse vdone s _ t rest); [apply I|exact St|sm s (@None event)| |reflexivity|reflexivity|].
    + intros b q H. proj. unfold upd in H. destruct (Nat.eqb_spec q (aff s a)) as [Eq|Nq]; [subst q|econstructor; exact H].
      apply in_snoc in H. destruct H as [H| ->]; [econstructor; exact H|].
      eapply (at_todo _ _ t (IReady a)); [rewrite Ht; now left|reflexivity].
    + intros i b ph Hi E. eapply (at_todo _ _ t); [rewrite Ht; right; exact Hi|exact E].
  - apply (glob_same s _ None); [apply I|reflexivity..|noev|noev| |auto].
    wsub s t. intros x K. apply (w_fl s t). rewrite Ht. exact K.
Qed.

Lemma good_flush (s : state) t a rest s' :
  inv s -> struct s' -> todo s t = IFlush a :: rest -> exec t (IFlush a) rest s = Some s' -> good s'.
Proof.
  intros I St Ht E. cbn [exec] in E. injection E as <-. split; [|split; [|exact (i_ok _ I)]].
  - eapply (phases_none vfalse vdone s _ t (map (ISend a) (rev (out s a)) ++ rest)); [apply I|exact St|sm s (@None event)| |reflexivity|reflexivity|].
    + intros b q H. econstructor; exact H.
    + intros i b ph Hi E. apply in_app_iff in Hi. destruct Hi as [Hi|Hi].
      * apply in_map_iff in Hi. destruct Hi as (x & <- & _). discriminate.
      * eapply (at_todo _ _ t); [rewrite Ht; right; exact Hi|exact E].
  - apply (glob_same s _ None); [apply I|reflexivity..|noev|noev| |auto].
    wsub s t.
    + intros x K. rewrite flat_map_app, fls_sends in K. apply in_app_iff in K. destruct K as [K|K].
      * apply in_rev in K. eapply w_out; eauto.
      * apply (w_fl s t). rewrite Ht. exact K.
    + intros b x. unfold upd. destruct (Nat.eqb_spec b a); [intros []|apply w_out].
Qed.

(** A message arrives. *)
Lemma good_enq (s : state) t i m rest s' :
  inv s -> struct s' -> todo s t = i :: rest -> fl i = [m] -> iphase i = None -> s' = enq_msg t m rest s -> good s'.
Proof.
  intros I St Ht Hf Hi ->.
  assert (Wm : waiting s m). { apply (w_fl s t). rewrite Ht. cbn. rewrite Hf. now left. }
  assert (Hu : unstarted m (log s)) by now apply (gl_un _ _ (i_gl _ I)).
  assert (Lt : m < next s) by (eapply waiting_lt; eauto; apply I).
  set (B := mto s m).
  split; [|split; [|exact (i_ok _ I)]].
  - assert (Same : forall b, b <> B \/ mbox s B <> [] -> same_for b s (enq_msg t m rest s)).
    { intros b Hb. eapply (same_mk _ s _ (Some (EArrive B m (clock s)))); [reflexivity|intros ? ? ? [= <-]; discriminate| |auto|reflexivity].
      unfold enq_msg. proj. fold B. unfold upd. destruct (Nat.eqb_spec b B) as [->|N].
      - exists [m]. split; [reflexivity|]. destruct Hb; congruence.
      - exists []. rewrite app_nil_r. auto. }
    assert (Old : forall i b ph, In i rest -> iphase i = Some (b, ph) -> at_phase s b ph).
    { intros j b ph Hj E. eapply (at_todo _ _ t); [rewrite Ht; right; exact Hj|exact E]. }
    destruct (mbox s B) as [|m0 r] eqn:Eb.
    + eapply (phases_one vfalse vdone B s _ t (IReady B :: rest)); [apply I|exact St| |auto|reflexivity|auto| |].
      * exists PhReady. split.
        -- eapply (at_todo _ _ t (IReady B)); [|reflexivity]. unfold enq_msg. proj. fold B. rewrite upd_same, Eb. now left.
        -- destruct (i_ph _ I B PhIdle) as [Hr Hx]; [now constructor|].
           destruct (gl_pr _ _ (i_gl _ I) m Lt Hu) as (c & K1 & K2 & K3).
           exists m, c. unfold enq_msg. proj. fold B. split; [exists []; proj; now rewrite upd_same, Eb|].
           split; [assumption|]. cbn [running]. split; [assumption|]. unfold next_ok. cbn [S_Rts.expect]. rewrite Hx.
           split; [now apply created_quiet|]. split; [assumption|].
           intros a' c' v' [K|K]; [discriminate|]. eapply Hu; eauto.
      * unfold enq_msg. proj. fold B. rewrite Eb. reflexivity.
      * intros j b ph N [<-|Hj] E; [injection E as <- _; congruence|]. rewrite Ht. now right.
    + eapply (phases_none vfalse vdone s _ t rest); [apply I|exact St| | |reflexivity| |].
      * intros b. apply Same. right. congruence.
      * intros b q H. econstructor; exact H.
      * unfold enq_msg. proj. fold B. rewrite Eb. reflexivity.
      * intros j b ph Hj E. eauto.
  - eapply (glob_same s _ (Some (EArrive B m (clock s)))); [apply I|reflexivity..|noev|noev| |auto].
    assert (Wr : forall x, In x (flat_map fl rest) -> waiting s x).
    { intros x K. apply (w_fl s t). rewrite Ht. cbn. apply in_app_iff. now right. }
    unfold enq_msg. wsub s t.
    + fold B. destruct (mbox s B); exact Wr.
    + intros b m1 r1 x K. fold B in K. unfold upd in K. destruct (Nat.eqb_spec b B) as [->|N]; [|eapply w_box; eauto].
      destruct (mbox s B) as [|m2 r2] eqn:Eb; cbn in K; injection K as <- <-; intros K; [destruct K|].
      apply in_snoc in K. destruct K as [K| ->]; [eapply w_box; eauto|assumption].
Qed.

Lemma good_timed (s : state) t a m rest s' :
  inv s -> struct s' -> todo s t = ISend a m :: rest ->
  s' = logev (ETimed m) (set_timerQ (enq_timed (mbase s) m (timerQ s)) (set_todo (upd (todo s) t rest) s)) -> good s'.
Proof.
  intros I St Ht ->. split; [|split; [|exact (i_ok _ I)]].
  - eapply (phases_none vfalse vdone s _ t rest); [apply I|exact St|sm s (Some (@ETimed U V m))| |reflexivity|reflexivity|].
    + intros b q H. econstructor; exact H.
    + intros i b ph Hi E. eapply (at_todo _ _ t); [rewrite Ht; right; exact Hi|exact E].
  - apply (glob_same s _ (Some (ETimed m))); [apply I|reflexivity..|noev|noev| |auto].
    wsub s t.
    + intros x K. apply (w_fl s t). rewrite Ht. right. exact K.
    + intros x K. apply enq_timed_in in K. destruct K as [K| ->]; [now apply w_tm|]. apply (w_fl s t). rewrite Ht. now left.
Qed.

Lemma good_setval (s : state) t a m o rest s' :
  inv s -> struct s' -> todo s t = ISetVal a m o :: rest -> exec t (ISetVal a m o) rest s = Some s' -> good s'.
Proof.
  intros I St Ht E. cbn [exec] in E. injection E as <-.
  destruct (ph_todo s t (ISetVal a m o) a (PhSet m o) (i_ph _ I)) as ((Hh & Hr & Hx & Hb) & (c & Hc) & He); [rewrite Ht; now left|reflexivity|].
  eapply (good_own s _ t a m None (IFreeze a m o :: rest)); eauto; try (own; fail).
  - intros i b ph N [<-|Hi] E; [injection E as <- _; congruence|]. rewrite Ht. now right.
  - rewrite Ht. auto.
  - solve_m.
  - exists (PhFreeze m o). split; [eapply (at_todo _ _ t); proj; [rewrite upd_same; left; reflexivity|reflexivity]|].
    split; [repeat split; assumption|]. split; [eauto|]. split; [assumption|]. proj. apply upd_same.
Qed.

Lemma good_add (s : state) t a m x rest s' :
  inv s -> struct s' -> todo s t = IAdd a m x :: rest -> exec t (IAdd a m x) rest s = Some s' -> good s'.
Proof.
  intros I St Ht E. cbn [exec] in E. injection E as <-.
  assert (Hin : In (IAdd a m x) (todo s t)) by (rewrite Ht; now left).
  pose proof (ph_todo s t (IAdd a m x) a (PhAdd m x) (i_ph _ I) Hin eq_refl) as Hw.
  pose proof Hw as (c & Hh & Hc & Hr & Hx & Hb).
  assert (Lx : x < next s) by exact (proj2 (i_waits _ I) _ _ _ _ Hin).
  destruct (frozen (mcnt s x)) eqn:Fz.
  - eapply (good_own s _ t a m None (IFlush a :: IResume a m x :: rest)); eauto; try (own; fail).
    + intros i b ph N [<-|[<-|Hi]] E; [discriminate|injection E as <- _; congruence|]. rewrite Ht. now right.
    + rewrite Ht. auto.
    + exists (PhRes m x). split; [eapply (at_todo _ _ t); proj; [rewrite upd_same; right; left; reflexivity|reflexivity]|].
      split; [exact Hw|]. exact (gl_fz _ _ (i_gl _ I) x Lx Fz).
  - eapply (good_own s _ t a m None (IFlush a :: rest)); eauto; try (own; fail).
    + intros i b ph N [<-|Hi] E; [discriminate|]. rewrite Ht. now right.
    + rewrite Ht. auto.
    + intros b N. proj. now apply upd_other.
    + intros b y K. proj. unfold upd in K. destruct (Nat.eqb_spec y x) as [Ey|Ny]; [subst y|auto].
      destruct K as [->|K]; auto.
    + exists (PhWait x). split; [apply at_wait; proj; rewrite upd_same; now left|].
      exists m. split; [exact Hw|]. proj. apply upd_same.
Qed.

Lemma good_resume (s : state) t a m x rest s' :
  inv s -> struct s' -> todo s t = IResume a m x :: rest -> exec t (IResume a m x) rest s = Some s' -> good s'.
Proof.
  intros I St Ht E. cbn [exec] in E. injection E as <-.
  assert (Hin : In (IResume a m x) (todo s t)) by (rewrite Ht; now left).
  destruct (ph_todo s t (IResume a m x) a (PhRes m x) (i_ph _ I) Hin eq_refl) as (Hw & o & Ho).
  pose proof Hw as (c & Hh & Hc & Hr & Hx & Hb).
  destruct (gl_fin _ _ (i_gl _ I) x o Ho) as (Lx & Em & Ev).
  assert (Hl : forall i b ph, b <> a -> In i (IReady a :: rest) -> iphase i = Some (b, ph) -> In i (todo s t)).
  { intros i b ph N [<-|Hi] E; [injection E as <- _; congruence|]. rewrite Ht. now right. }
  rewrite Em in *. destruct o as [w|e]; cbn [mark] in *.
  - eapply (good_own s _ t a m None (IReady a :: rest)); eauto; try (own; fail).
    + rewrite Ht. auto.
    + solve_m.
    + exists PhReady. split; [eapply (at_todo _ _ t); proj; [rewrite upd_same; left; reflexivity|reflexivity]|].
      exists m, c. proj. split; [exact Hh|]. split; [assumption|]. split; [assumption|].
      unfold next_ok. rewrite Hx. split; [reflexivity|]. exists (OVal w). rewrite upd_same. auto.
  - eapply (good_own s _ t a m None (IReady a :: rest)); eauto; try (own; fail).
    + rewrite Ht. auto.
    + solve_m.
    + exists CFail. proj. apply upd_same.
    + exists PhReady. split; [eapply (at_todo _ _ t); proj; [rewrite upd_same; left; reflexivity|reflexivity]|].
      exists m, CFail. proj. split; [exact Hh|]. rewrite !upd_same. split; [reflexivity|]. split; [assumption|].
      unfold next_ok. rewrite Hx. split; [reflexivity|]. exists (OExc e). auto.
Qed.

Lemma good_wake (s : state) t x o b rest s' :
  inv s -> struct s' -> todo s t = IWake x o b :: rest -> exec t (IWake x o b) rest s = Some s' -> good s'.
Proof.
  intros I St Ht E. cbn [exec] in E. injection E as <-.
  assert (Hin : In (IWake x o b) (todo s t)) by (rewrite Ht; now left).
  destruct (ph_todo s t (IWake x o b) b (PhWake x o) (i_ph _ I) Hin eq_refl) as ((m & Hw & _) & Ho).
  pose proof Hw as (c & Hh & Hc & Hr & Hx & Hb).
  pose proof Hh as [r Hbox]. rewrite Hbox in *.
  assert (Hl : forall i b' ph, b' <> b -> In i (IReady b :: rest) -> iphase i = Some (b', ph) -> In i (todo s t)).
  { intros i b' ph N [<-|Hi] E; [injection E as <- _; congruence|]. rewrite Ht. now right. }
  destruct o as [w|e].
  - eapply (good_own s _ t b m None (IReady b :: rest)); eauto; try (own; fail).
    + rewrite Ht. auto.
    + intros b' N. proj. now apply upd_other.
    + solve_m.
    + exists PhReady. split; [eapply (at_todo _ _ t); proj; [rewrite upd_same; left; reflexivity|reflexivity]|].
      exists m, c. proj. split; [exact Hh|]. split; [assumption|]. split; [assumption|].
      unfold next_ok. rewrite Hx. split; [reflexivity|]. exists (OVal w). rewrite upd_same. auto.
  - eapply (good_own s _ t b m None (IReady b :: rest)); eauto; try (own; fail).
    + rewrite Ht. auto.
    + intros b' N. proj. now apply upd_other.
    + solve_m.
    + exists CFail. proj. apply upd_same.
    + exists PhReady. split; [eapply (at_todo _ _ t); proj; [rewrite upd_same; left; reflexivity|reflexivity]|].
      exists m, CFail. proj. split; [exact Hh|]. rewrite !upd_same. split; [reflexivity|]. split; [assumption|].
      unfold next_ok. rewrite Hx. split; [reflexivity|]. exists (OExc e). auto.
Qed.


Lemma good_freeze (s : state) t a m o rest s' :
  inv s -> struct s' -> todo s t = IFreeze a m o :: rest -> exec t (IFreeze a m o) rest s = Some s' -> good s'.
Proof.
  intros I St Ht E. cbn [exec] in E. injection E as <-.
  assert (Hin : In (IFreeze a m o) (todo s t)) by (rewrite Ht; now left).
  destruct (ph_todo s t (IFreeze a m o) a (PhFreeze m o) (i_ph _ I) Hin eq_refl) as ((Hh & Hr & Hx & Hb) & (c & Hc) & He & Hv).
  assert (Lm : m < next s) by (eapply head_lt; eauto; apply I).
  assert (Na : forall x, ~ In a (mwait s x)).
  { intros x K. pose proof (phase_unique _ _ _ _ (i_struct _ I) (at_wait s a x K) (at_todo s a t _ _ Hin eq_refl)). discriminate. }
  assert (Same : forall b, b <> a -> same_for b s (logev (EFinish m o)
        (set_mcnt (upd (mcnt s) m (match o with OVal _ => MarkResult | OExc _ => MarkException end))
          (set_mwait (upd (mwait s) m [])
            (set_todo (upd (todo s) t (map (IWake m o) (mwait s m) ++ IDeq a m :: rest)) s))))).
  { intros b N. eapply (same_mk _ s _ (Some (EFinish m o))); [reflexivity|intros ? ? ? [= <-]; discriminate| | |reflexivity].
    - exists []. proj. rewrite app_nil_r. auto.
    - intros m' K. proj. rewrite upd_other; [auto|]. intros ->. apply N. exact (head_unique s b a m (i_struct _ I) K Hh). }
  split; [|split; [|exact (i_ok _ I)]].
  - eapply (phases_step vfalse vdone (fun b => b = a \/ In b (mwait s m)) s _ t (map (IWake m o) (mwait s m) ++ IDeq a m :: rest)); [apply I|exact St| | | | |reflexivity| |].
    + intros b [->|Hbw].
      * exists (PhDeq m). split.
        -- eapply (at_todo _ _ t (IDeq a m)); [|reflexivity]. proj. rewrite upd_same. apply in_app_iff. right. now left.
        -- split; [|exists o; proj; now left]. split; [exact Hh|]. proj. cbn [running S_Rts.expect].
           split; [assumption|]. split; [assumption|]. eapply begun_mono; [|exact Hb]. apply incl_tl, incl_refl.
      * exists (PhWake m o). split.
        -- eapply (at_todo _ _ t (IWake m o b)); [|reflexivity]. proj. rewrite upd_same. apply in_app_iff. left. now apply in_map.
        -- split; [|proj; now left].
           assert (N : b <> a) by (intros ->; eapply Na; eauto).
           pose proof (phase_ok_same vfalse vdone b _ _ _ (Same b N) (i_ph _ I b _ (at_wait s b m Hbw))) as K. exact K.
    + intros b Nb. apply Same. tauto.
    + intros b q _ K. econstructor; exact K.
    + intros b x _ K. proj. unfold upd in K. destruct (Nat.eqb_spec x m); [destruct K|]. now constructor.
    + intros i b ph Nb Hi E. apply in_app_iff in Hi. destruct Hi as [Hi|[<-|Hi]].
      * apply in_map_iff in Hi. destruct Hi as (b' & <- & Hb'). injection E as -> _. tauto.
      * injection E as <- _. tauto.
      * eapply (at_todo _ _ t); [rewrite Ht; right; exact Hi|exact E].
    + intros b. destruct (Nat.eq_dec b a); [tauto|]. destruct (in_dec Nat.eq_dec b (mwait s m)); tauto.
  - destruct (i_gl _ I) as [G1 G2 G3 G4 G5 G6].
    assert (Nb : forall x, unstarted x (EFinish m o :: log s) <-> unstarted x (log s)).
    { intros x. split; intros H a' c' v Hi; [eapply H; right; eauto|].
      destruct Hi as [Hi|Hi]; [discriminate|eapply H; eauto]. }
    constructor; proj.
    + intros m' o' [K|K].
      * injection K as <- <-. rewrite upd_same. auto.
      * destruct (G1 _ _ K) as (K1 & K2 & K3). assert (m' <> m) by (intros ->; rewrite Hc in K2; destruct o'; discriminate).
        rewrite upd_other by assumption. auto.
    + intros m' Hm Fz. destruct (Nat.eq_dec m' m) as [->|N]; [exists o; now left|].
      rewrite upd_other in Fz by assumption. destruct (G2 m' Hm Fz) as [o' K]. exists o'. now right.
    + intros x K. apply Nb, G3. revert x K. wsub s t.
      intros x K. apply (w_fl s t). rewrite Ht. cbn. rewrite flat_map_app, fls_wakes in K. exact K.
    + intros x Hl Hu. apply Nb in Hu. destruct (G4 x Hl Hu) as (c' & K1 & K2 & K3).
      assert (x <> m) by (intros ->; eapply begun_started; eauto).
      rewrite upd_other by assumption. exists c'. split; [assumption|]. split; [now apply created_quiet|assumption].
    + intros x b K. unfold upd in *. destruct (Nat.eqb_spec x m); [destruct K|]. eauto.
    + intros a' m' c' v [K|K]; [discriminate|eauto].
Qed.

Lemma good_deqm (s : state) t a m rest s' :
  inv s -> struct s' -> todo s t = IDeq a m :: rest -> exec t (IDeq a m) rest s = Some s' -> good s'.
Proof.
  intros I St Ht E. cbn [exec] in E. injection E as <-.
  assert (Hin : In (IDeq a m) (todo s t)) by (rewrite Ht; now left).
  destruct (ph_todo s t (IDeq a m) a (PhDeq m) (i_ph _ I) Hin eq_refl) as ((Hh & Hr & Hx & Hb) & o & Ho).
  destruct Hh as [r Hbox]. rewrite Hbox in *.
  set (l' := match r with [] => rest | _ => IReady a :: rest end) in *.
  split; [|split; [|exact (i_ok _ I)]].
  - eapply (phases_one vfalse vdone a s _ t l'); [apply I|exact St| | |reflexivity|auto|reflexivity|].
    + destruct r as [|m1 r].
      * exists PhIdle. split; [constructor; proj; apply upd_same|]. split; assumption.
      * exists PhReady. split; [eapply (at_todo _ _ t (IReady a)); [|reflexivity]; proj; rewrite upd_same; now left|].
        assert (Wm : waiting s m1) by (eapply w_box; [exact Hbox|now left]).
        assert (Hu : unstarted m1 (log s)) by now apply (gl_un _ _ (i_gl _ I)).
        assert (Lt : m1 < next s) by (eapply waiting_lt; eauto; apply I).
        assert (Eto : mto s m1 = a).
        { destruct (i_struct _ I) as (loc & place & _ & P & _). apply (pl_to _ _ P). apply (pl_box _ _ P).
          rewrite Hbox. right. now left. }
        destruct (gl_pr _ _ (i_gl _ I) m1 Lt Hu) as (c & K1 & K2 & K3). rewrite Eto in K2.
        exists m1, c. split; [exists r; proj; apply upd_same|]. proj. split; [assumption|]. split; [assumption|].
        unfold next_ok. rewrite Hx. auto.
    + intros b N. eapply (same_mk _ s _ None); [reflexivity|noev| |auto|reflexivity].
      exists []. proj. rewrite upd_other, app_nil_r by assumption. auto.
    + intros i b ph N Hi E. rewrite Ht. right. unfold l' in Hi. destruct r; [assumption|].
      destruct Hi as [<-|Hi]; [injection E as <- _; congruence|assumption].
  - apply (glob_same s _ None); [apply I|reflexivity..|noev|noev| |auto].
    wsub s t.
    + intros x K. apply (w_fl s t). rewrite Ht. unfold l' in K. destruct r; exact K.
    + intros b m0 r0 x K1 K2. unfold upd in K1. destruct (Nat.eqb_spec b a); [|eapply w_box; eauto].
      eapply w_box; [exact Hbox|]. rewrite K1. now right.
Qed.

Lemma good_ext (s : state) t B c s' :
  inv s -> struct s' -> todo s t = [] ->
  s' = logev (EExt B (next s) (clock s) c) (set_todo (upd (todo s) t [IEnq (next s)]) (new_msg vdone B c (clock s) s)) -> good s'.
Proof.
  intros I St Ht ->. split; [|split; [|exact (i_ok _ I)]].
  - eapply (phases_none vfalse vdone s _ t [IEnq (next s)]); [apply I|exact St| | | |reflexivity|].
    + intros b. eapply (same_mk _ s _ (Some (EExt B (next s) (clock s) c))).
      * reflexivity.
      * intros ? ? ? [= <-] H. discriminate.
      * exists []. split; [proj; now rewrite app_nil_r|reflexivity].
      * intros x H. apply (head_lt _ _ _ (i_struct _ I)) in H. proj. rewrite !upd_other by lia. auto.
      * reflexivity.
    + intros b q H. econstructor; exact H.
    + intros x. proj. destruct (Nat.eq_dec x (next s)) as [->|N].
      * rewrite upd_same. symmetry. apply (i_waits _ I). lia.
      * now apply upd_other.
    + intros i b ph [<-|[]] E. discriminate.
  - eapply (glob_new vdone s _ B c (EExt B (next s) (clock s) c)); [apply I|apply I|reflexivity..| |noev|noev|].
    + apply created_cons. eauto.
    + eapply (waiting_new s _ t [IEnq (next s)]); [reflexivity|proj..].
      * intros x [->|[]]. auto.
      * intros b x H. left. eapply w_out; eauto.
      * exact (w_tm s).
      * exact (w_box s).
Qed.

Lemma good_fire (s : state) t m r s' :
  inv s -> struct s' -> todo s t = [] -> timerQ s = m :: r ->
  s' = logev (EFire m (clock s)) (set_timerQ r (set_todo (upd (todo s) t [IEnq m]) s)) -> good s'.
Proof.
  intros I St Ht Hq ->. split; [|split; [|exact (i_ok _ I)]].
  - eapply (phases_none vfalse vdone s _ t [IEnq m]); [apply I|exact St|sm s (Some (@EFire U V m (clock s)))| |reflexivity|reflexivity|].
    + intros b q H. econstructor; exact H.
    + intros i b ph [<-|[]] E. discriminate.
  - apply (glob_same s _ (Some (EFire m (clock s)))); [apply I|reflexivity..|noev|noev| |auto].
    wsub s t.
    + intros x [->|[]]. apply w_tm. rewrite Hq. now left.
    + intros x K. apply w_tm. rewrite Hq. now right.
Qed.

Lemma flush_head (s : state) t a : G -> struct s -> flushing s t a -> exists m r, mbox s a = m :: r.
Proof.
  intros g (loc & place & I & _ & _) F. destruct (ti_flush _ _ I _ _ (conj g F)) as [N _]. eapply box_ne; eauto.
Qed.

(** In a race-free schedule nothing goes wrong. *)
Lemma no_crash s l s' : inv s -> G -> step s l s' -> crashed s' = false.
Proof.
  intros I g St. pose proof (i_ok _ I) as Ok.
  assert (Hhd : forall t i a ph, In i (todo s t) -> iphase i = Some (a, ph) ->
            match ph with PhIdle => True | _ => exists m r, mbox s a = m :: r end).
  { intros t i a ph Hi E. pose proof (ph_todo s t i a ph (i_ph _ I) Hi E) as P.
    destruct ph; cbn in P; auto;
      repeat match goal with
      | H : exists _, _ |- _ => destruct H
      | H : _ /\ _ |- _ => destruct H
      | H : wait_ok _ _ _ _ _ |- _ => destruct H
      | H : done_ok _ _ _ _ |- _ => destruct H
      | H : head _ _ _ |- _ => destruct H
      end; eauto. }
  step_cases St; try (injection E as <-); try exact Ok.
  - destruct (Hhd t _ a (PhRun m c v) ltac:(rewrite Ht; now left) eq_refl) as (m0 & r & ->). exact Ok.
  - destruct (Hhd t _ a (PhRun m c v) ltac:(rewrite Ht; now left) eq_refl) as (m0 & r & ->). exact Ok.
  - destruct (catch s a) as [|[c' x] tl]; [discriminate|]. injection E as <-. exact Ok.
  - unfold on_return. destruct r; try exact Ok. destruct (catch _ a) as [|[? ?] ?]; exact Ok.
  - destruct (ph_todo s t (IBegin a) a PhReady (i_ph _ I) ltac:(rewrite Ht; now left) eq_refl) as (m & c & (r & Hb) & Hm & _).
    rewrite Hb, Hm. exact Ok.
  - destruct (flush_head s t a g (i_struct _ I)) as (m0 & r & Hbox). { right. exists m. rewrite Ht. now left. }
    rewrite Hbox. destruct (mbase s m =? mbase s m0)%Z; exact Ok.
  - destruct (Hhd t _ b (PhWake x o) ltac:(rewrite Ht; now left) eq_refl) as (m0 & r & ->). destruct o; exact Ok.
  - destruct (mbox s a); exact Ok.
  - destruct (frozen (mcnt s x)); exact Ok.
  - destruct (mcnt s x); exact Ok.
Qed.

Lemma inv_step s l s' : inv s -> (G -> no_race s l) -> crashed s' = false -> step s l s' -> inv s'.
Proof.
  intros I Gr Nc St.
  assert (S' : struct s') by (eapply struct_step; eauto; apply I).
  assert (W' : waits s') by (eapply waits_pres; eauto; apply I).
  assert (B' : book s') by (eapply book_step; eauto; apply I).
  assert (Good : good s'); [|destruct Good as (? & ? & ?); constructor; assumption].
  step_cases St.
  - eapply good_deq; eauto.
  - injection E as <-.
    destruct (ph_todo s t (IRun a m c v) a (PhRun m c v) (i_ph _ I)) as ((r & Hbox) & _); [rewrite Ht; now left|reflexivity|].
    rewrite Hbox in *. eapply (good_push s t a m c v); eauto.
  - injection E as <-.
    destruct (ph_todo s t (IRun a m c v) a (PhRun m c v) (i_ph _ I)) as ((r & Hbox) & _); [rewrite Ht; now left|reflexivity|].
    rewrite Hbox in *. eapply (good_push s t a m c v); eauto.
  - injection E as <-. eapply (good_misc s t _ (Some (EPush a c'))); eauto; reflexivity.
  - destruct (catch s a) as [|[c' x] tl]; [discriminate|]. injection E as <-.
    eapply (good_misc s t _ (Some (EPop a x))); eauto; reflexivity.
  - injection E as <-. eapply (good_misc s t _ None); eauto; reflexivity.
  - injection E as <-. eapply good_return; eauto.
  - eapply good_begin; eauto.
  - eapply good_ready; eauto.
  - eapply good_flush; eauto.
  - injection E as <-.
    destruct (mbox s a) as [|m0 r] eqn:Hbox; [discriminate Nc|]. destruct (mbase s m =? mbase s m0)%Z.
    + eapply (good_enq s t (ISend a m)); eauto; reflexivity.
    + eapply good_timed; eauto.
  - injection E as <-. eapply (good_enq s t (IEnq m)); eauto; reflexivity.
  - eapply good_setval; eauto.
  - eapply good_freeze; eauto.
  - eapply good_wake; eauto.
  - eapply good_deqm; eauto.
  - eapply good_add; eauto.
  - eapply good_resume; eauto.
  - eapply good_ext; eauto.
  - unfold deq_timed in E. destruct (timerQ s) as [|m0 r0] eqn:Eq; [discriminate|].
    destruct (mbase s m0 <=? clock s)%Z; [|discriminate]. injection E as -> ->. eapply good_fire; eauto.
  - eapply (good_misc s 0 _ None); eauto; reflexivity.
Qed.

Lemma inv_init v0 t0 aff0 : inv (init v0 t0 aff0).
Proof.
  constructor.
  - exists (fun _ => LNone), (fun _ => PUnborn). split; [|split].
    + constructor; cbn; intros; try (split; [contradiction|discriminate]); try (constructor; fail); try tauto.
      * eapply sh_sends with (a := 0). constructor. constructor.
      * destruct H as [_ [[]|[? []]]].
      * destruct H as [_ [[]|[? []]]].
    + constructor; cbn; intros; try (split; [contradiction|discriminate]); try (constructor; fail); try discriminate.
      split; [reflexivity|lia].
    + intros t i a m [].
  - split; cbn; [reflexivity|]. intros ? ? ? ? [].
  - apply book_init.
  - intros a ph H. inversion H; subst; cbn in *; try contradiction. split; reflexivity.
  - constructor; cbn; try contradiction; try lia.
    intros m [(a & [])|[(t & [])|[[]|(a & m0 & r & K & _)]]]. discriminate.
  - reflexivity.
Qed.

End L4.

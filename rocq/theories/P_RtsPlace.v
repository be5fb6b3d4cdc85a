(** Invariant of the runtime, part 2: every message is in exactly one place. *)
From Verif Require Import Base S_Rts M_Rts P_RtsTok.
Local Open Scope nat_scope.

Section Place.
Context {U V : Type}.
Notation instr := (instr U V).
Notation state := (state U V).

Inductive place_t := PUnborn | POut (a : aid) | PFlight (t : tid) | PTimer | PMbox (a : aid) | PDone.

Record pl_inv (place : mid -> place_t) (s : state) : Prop := {
  pl_out : forall a m, In m (out s a) <-> place m = POut a;
  pl_out_nd : forall a, NoDup (out s a);
  pl_fl : forall t m, In m (fls (todo s t)) <-> place m = PFlight t;
  pl_fl_nd : forall t, NoDup (fls (todo s t));
  pl_tm : forall m, In m (timerQ s) <-> place m = PTimer;
  pl_tm_nd : NoDup (timerQ s);
  pl_box : forall a m, In m (mbox s a) <-> place m = PMbox a;
  pl_box_nd : forall a, NoDup (mbox s a);
  pl_new : forall m, next s <= m <-> place m = PUnborn;
  pl_to : forall a m, place m = PMbox a -> mto s m = a
}.

Lemma enq_timed_in base m q x : In x (enq_timed base m q) <-> In x q \/ x = m.
Proof.
  induction q as [|y q IH]; cbn; [intuition|].
  destruct (base y <=? base m)%Z; cbn; [rewrite IH|]; intuition.
Qed.
Lemma enq_timed_nd base m q : NoDup q -> ~ In m q -> NoDup (enq_timed base m q).
Proof.
  induction q as [|y q IH]; cbn; intros Hn Hm; [repeat constructor; auto|].
  inversion Hn; subst. destruct (base y <=? base m)%Z.
  - constructor; [rewrite enq_timed_in; intuition|apply IH; intuition].
  - constructor; [cbn; intuition|assumption].
Qed.

Lemma pl_move place place' (s s' : state) t l' :
  pl_inv place s ->
  (forall t', todo s' t' = upd (todo s) t l' t') ->
  (forall a m, In m (out s' a) <-> place' m = POut a) -> (forall a, NoDup (out s' a)) ->
  (forall m, In m (fls l') <-> place' m = PFlight t) -> NoDup (fls l') ->
  (forall t' m, t' <> t -> (place' m = PFlight t' <-> place m = PFlight t')) ->
  (forall m, In m (timerQ s') <-> place' m = PTimer) -> NoDup (timerQ s') ->
  (forall a m, In m (mbox s' a) <-> place' m = PMbox a) -> (forall a, NoDup (mbox s' a)) ->
  (forall m, next s' <= m <-> place' m = PUnborn) ->
  (forall a m, place' m = PMbox a -> mto s' m = a) ->
  pl_inv place' s'.
Proof.
  intros I Ht Ho Hon Hf Hfn Hfo Htm Htn Hb Hbn Hnew Hto.
  constructor; try assumption; intros t'; rewrite Ht; unfold upd;
    destruct (Nat.eqb_spec t' t) as [->|N]; try assumption.
  - intros m. rewrite (pl_fl _ _ I). symmetry. auto.
  - apply (pl_fl_nd _ _ I).
Qed.

Lemma pl_same place (s s' : state) t l' :
  pl_inv place s ->
  (forall t', todo s' t' = upd (todo s) t l' t') ->
  fls l' = fls (todo s t) ->
  (forall a, out s' a = out s a) -> timerQ s' = timerQ s -> (forall a, mbox s' a = mbox s a) -> next s' = next s ->
  (forall m, mto s' m = mto s m) ->
  pl_inv place s'.
Proof.
  intros I Ht Hf Ho Htm Hb Hn Hto. eapply (pl_move place place s s' t l'); try tauto; intros;
    rewrite ?Ho, ?Hf, ?Htm, ?Hb, ?Hn, ?Hto.
  - apply (pl_out _ _ I).
  - apply (pl_out_nd _ _ I).
  - apply (pl_fl _ _ I).
  - apply (pl_fl_nd _ _ I).
  - apply (pl_tm _ _ I).
  - apply (pl_tm_nd _ _ I).
  - apply (pl_box _ _ I).
  - apply (pl_box_nd _ _ I).
  - apply (pl_new _ _ I).
  - now apply (pl_to _ _ I).
Qed.

Lemma pl_same_todo place (s s' : state) :
  pl_inv place s -> (forall t', todo s' t' = todo s t') ->
  (forall a, out s' a = out s a) -> timerQ s' = timerQ s -> (forall a, mbox s' a = mbox s a) -> next s' = next s ->
  (forall m, mto s' m = mto s m) ->
  pl_inv place s'.
Proof.
  intros I Ht. intros. eapply (pl_same place s s' 0 (todo s 0)); auto.
  intros t'. rewrite Ht. unfold upd. destruct (Nat.eqb_spec t' 0) as [->|]; reflexivity.
Qed.

Ltac plr I := rewrite ?(pl_out _ _ I), ?(pl_fl _ _ I), ?(pl_tm _ _ I), ?(pl_box _ _ I), ?(pl_new _ _ I).

(** A message is created in the outgoing list of a. *)
Lemma pl_push place (s s' : state) a B :
  pl_inv place s -> (forall t', todo s' t' = todo s t') ->
  (forall b, out s' b = upd (out s) a (next s :: out s a) b) -> timerQ s' = timerQ s ->
  (forall b, mbox s' b = mbox s b) -> next s' = S (next s) ->
  (forall m, mto s' m = upd (mto s) (next s) B m) ->
  pl_inv (upd place (next s) (POut a)) s'.
Proof.
  intros I Ht Ho Htm Hb Hn Hto.
  assert (Ln : place (next s) = PUnborn) by now apply (pl_new _ _ I).
  eapply (pl_move place _ s s' 0 (todo s 0)); eauto.
  - intros t'. rewrite Ht. unfold upd. destruct (Nat.eqb_spec t' 0) as [->|]; reflexivity.
  - intros b m. rewrite Ho. unfold upd. destruct (Nat.eqb_spec b a), (Nat.eqb_spec m (next s)); subst; cbn; plr I; intuition congruence.
  - intros b. rewrite Ho. updc; [constructor|]; try apply (pl_out_nd _ _ I). plr I. congruence.
  - intros m. plr I. updc; intuition congruence.
  - apply (pl_fl_nd _ _ I).
  - intros t' m N. updc; intuition congruence.
  - intros m. rewrite Htm. plr I. updc; intuition congruence.
  - rewrite Htm. apply (pl_tm_nd _ _ I).
  - intros b m. rewrite Hb. plr I. updc; intuition congruence.
  - intros b. rewrite Hb. apply (pl_box_nd _ _ I).
  - intros m. rewrite Hn. unfold upd. destruct (Nat.eqb_spec m (next s)); subst.
    + split; [lia|discriminate].
    + rewrite <- (pl_new _ _ I). lia.
  - intros b m. rewrite Hto. unfold upd. destruct (Nat.eqb_spec m (next s)); [discriminate|].
    apply (pl_to _ _ I).
Qed.

(** A message is created by an event loop. *)
Lemma pl_ext place (s s' : state) t B :
  pl_inv place s -> todo s t = [] -> (forall t', todo s' t' = upd (todo s) t [IEnq (next s)] t') ->
  (forall b, out s' b = out s b) -> timerQ s' = timerQ s ->
  (forall b, mbox s' b = mbox s b) -> next s' = S (next s) ->
  (forall m, mto s' m = upd (mto s) (next s) B m) ->
  pl_inv (upd place (next s) (PFlight t)) s'.
Proof.
  intros I Ht0 Ht Ho Htm Hb Hn Hto.
  assert (Ln : place (next s) = PUnborn) by now apply (pl_new _ _ I).
  assert (Hf : forall m, place m <> PFlight t).
  { intros m E. apply (pl_fl _ _ I) in E. rewrite Ht0 in E. destruct E. }
  eapply (pl_move place _ s s' t); eauto.
  - intros b m. rewrite Ho. plr I. updc; intuition congruence.
  - intros b. rewrite Ho. apply (pl_out_nd _ _ I).
  - intros m. cbn. specialize (Hf m). unfold upd. destruct (Nat.eqb_spec m (next s)); intuition congruence.
  - repeat constructor; cbn; tauto.
  - intros t' m N. updc; intuition congruence.
  - intros m. rewrite Htm. plr I. updc; intuition congruence.
  - rewrite Htm. apply (pl_tm_nd _ _ I).
  - intros b m. rewrite Hb. plr I. updc; intuition congruence.
  - intros b. rewrite Hb. apply (pl_box_nd _ _ I).
  - intros m. rewrite Hn. unfold upd. destruct (Nat.eqb_spec m (next s)); subst.
    + split; [lia|discriminate].
    + rewrite <- (pl_new _ _ I). lia.
  - intros b m. rewrite Hto. unfold upd. destruct (Nat.eqb_spec m (next s)); [discriminate|].
    apply (pl_to _ _ I).
Qed.

(** FLUSH_outgoing_local starts. *)
Lemma pl_flush place (s s' : state) t a rest :
  pl_inv place s -> todo s t = IFlush a :: rest -> fls rest = [] ->
  (forall t', todo s' t' = upd (todo s) t (map (ISend a) (rev (out s a)) ++ rest) t') ->
  (forall b, out s' b = upd (out s) a [] b) -> timerQ s' = timerQ s ->
  (forall b, mbox s' b = mbox s b) -> next s' = next s -> (forall m, mto s' m = mto s m) ->
  pl_inv (fun m => match place m with POut b => if b =? a then PFlight t else POut b | p => p end) s'.
Proof.
  intros I Ht0 Hrest Ht Ho Htm Hb Hn Hto.
  set (place' := fun m => _).
  assert (Hf : forall m, place m <> PFlight t).
  { intros m E. apply (pl_fl _ _ I) in E. rewrite Ht0 in E. cbn in E. rewrite Hrest in E. destruct E. }
  assert (L : forall m, (place m = POut a /\ place' m = PFlight t) \/ (place m <> POut a /\ place' m = place m)).
  { intros m. unfold place'. destruct (place m) eqn:E; try (right; split; congruence).
    destruct (Nat.eqb_spec a0 a) as [->|N]; [left; auto|right; split; congruence]. }
  clearbody place'.
  eapply (pl_move place place' s s' t); eauto.
  - intros b m. rewrite Ho. destruct (L m) as [[L1 L2]|[L1 L2]]; rewrite L2; updc; cbn; plr I; intuition congruence.
  - intros b. rewrite Ho. updc; [constructor|apply (pl_out_nd _ _ I)].
  - intros m. rewrite flat_map_app, fls_sends, Hrest, app_nil_r, <- in_rev. plr I. specialize (Hf m).
    destruct (L m) as [[L1 L2]|[L1 L2]]; rewrite L2; intuition congruence.
  - rewrite flat_map_app, fls_sends, Hrest, app_nil_r. apply NoDup_rev, (pl_out_nd _ _ I).
  - intros t' m N. destruct (L m) as [[L1 L2]|[L1 L2]]; rewrite L2; [rewrite L1|tauto]; split; congruence.
  - intros m. rewrite Htm. plr I. destruct (L m) as [[L1 L2]|[L1 L2]]; rewrite L2; [rewrite L1|tauto]; split; congruence.
  - rewrite Htm. apply (pl_tm_nd _ _ I).
  - intros b m. rewrite Hb. plr I. destruct (L m) as [[L1 L2]|[L1 L2]]; rewrite L2; [rewrite L1|tauto]; split; congruence.
  - intros b. rewrite Hb. apply (pl_box_nd _ _ I).
  - intros m. rewrite Hn. plr I. destruct (L m) as [[L1 L2]|[L1 L2]]; rewrite L2; [rewrite L1|tauto]; split; congruence.
  - intros b m E. rewrite Hto. destruct (L m) as [[L1 L2]|[L1 L2]]; [congruence|]. apply (pl_to _ _ I). congruence.
Qed.

(** A message arrives. *)
Lemma pl_arrive place (s s' : state) t i rest l' m :
  pl_inv place s -> todo s t = i :: rest -> fl i = [m] -> fls l' = fls rest ->
  (forall t', todo s' t' = upd (todo s) t l' t') ->
  (forall b, out s' b = out s b) -> timerQ s' = timerQ s ->
  (forall b, mbox s' b = upd (mbox s) (mto s m) (mbox s (mto s m) ++ [m]) b) -> next s' = next s ->
  (forall x, mto s' x = mto s x) ->
  pl_inv (upd place m (PMbox (mto s m))) s'.
Proof.
  intros I Ht0 Hi Hl' Ht Ho Htm Hb Hn Hto.
  assert (Hf : forall x, place x = PFlight t <-> x = m \/ In x (fls rest)).
  { intros x. rewrite <- (pl_fl _ _ I t x), Ht0. cbn. rewrite Hi. cbn. intuition. }
  assert (Lm : place m = PFlight t) by (apply Hf; now left).
  pose proof (pl_fl_nd _ _ I t) as Nd. rewrite Ht0 in Nd. cbn in Nd. rewrite Hi in Nd. cbn in Nd.
  assert (Hn' : ~ In m (fls rest)) by now inversion Nd.
  eapply (pl_move place _ s s' t); eauto.
  - intros b x. rewrite Ho. plr I. updc; intuition congruence.
  - intros b. rewrite Ho. apply (pl_out_nd _ _ I).
  - intros x. rewrite Hl'. specialize (Hf x). unfold upd. destruct (Nat.eqb_spec x m); subst; intuition congruence.
  - rewrite Hl'. now inversion Nd.
  - intros t' x N. updc; intuition congruence.
  - intros x. rewrite Htm. plr I. updc; intuition congruence.
  - rewrite Htm. apply (pl_tm_nd _ _ I).
  - intros b x. rewrite Hb. unfold upd. destruct (Nat.eqb_spec b (mto s m)), (Nat.eqb_spec x m); subst;
      rewrite ?in_snoc; plr I; intuition congruence.
  - intros b. rewrite Hb. updc; [apply nodup_snoc|]; try apply (pl_box_nd _ _ I). plr I. congruence.
  - intros x. rewrite Hn. plr I. updc; intuition congruence.
  - intros b x. rewrite Hto. unfold upd. destruct (Nat.eqb_spec x m); [congruence|]. apply (pl_to _ _ I).
Qed.

(** A message goes to the timer queue. *)
Lemma pl_timed place (s s' : state) t i rest m base :
  pl_inv place s -> todo s t = i :: rest -> fl i = [m] ->
  (forall t', todo s' t' = upd (todo s) t rest t') ->
  (forall b, out s' b = out s b) -> timerQ s' = enq_timed base m (timerQ s) ->
  (forall b, mbox s' b = mbox s b) -> next s' = next s -> (forall x, mto s' x = mto s x) ->
  pl_inv (upd place m PTimer) s'.
Proof.
  intros I Ht0 Hi Ht Ho Htm Hb Hn Hto.
  assert (Hf : forall x, place x = PFlight t <-> x = m \/ In x (fls rest)).
  { intros x. rewrite <- (pl_fl _ _ I t x), Ht0. cbn. rewrite Hi. cbn. intuition. }
  assert (Lm : place m = PFlight t) by (apply Hf; now left).
  pose proof (pl_fl_nd _ _ I t) as Nd. rewrite Ht0 in Nd. cbn in Nd. rewrite Hi in Nd. cbn in Nd.
  assert (Hn' : ~ In m (fls rest)) by now inversion Nd.
  eapply (pl_move place _ s s' t); eauto.
  - intros b x. rewrite Ho. plr I. updc; intuition congruence.
  - intros b. rewrite Ho. apply (pl_out_nd _ _ I).
  - intros x. specialize (Hf x). unfold upd. destruct (Nat.eqb_spec x m); subst; intuition congruence.
  - now inversion Nd.
  - intros t' x N. updc; intuition congruence.
  - intros x. rewrite Htm, enq_timed_in. plr I. unfold upd. destruct (Nat.eqb_spec x m); intuition congruence.
  - rewrite Htm. apply enq_timed_nd; [apply (pl_tm_nd _ _ I)|]. plr I. congruence.
  - intros b x. rewrite Hb. plr I. updc; intuition congruence.
  - intros b. rewrite Hb. apply (pl_box_nd _ _ I).
  - intros x. rewrite Hn. plr I. updc; intuition congruence.
  - intros b x. rewrite Hto. unfold upd. destruct (Nat.eqb_spec x m); [discriminate|]. apply (pl_to _ _ I).
Qed.

(** The timer lets a message go. *)
Lemma pl_fire place (s s' : state) t m r :
  pl_inv place s -> todo s t = [] -> timerQ s = m :: r ->
  (forall t', todo s' t' = upd (todo s) t [IEnq m] t') ->
  (forall b, out s' b = out s b) -> timerQ s' = r ->
  (forall b, mbox s' b = mbox s b) -> next s' = next s -> (forall x, mto s' x = mto s x) ->
  pl_inv (upd place m (PFlight t)) s'.
Proof.
  intros I Ht0 Hq Ht Ho Htm Hb Hn Hto.
  assert (Hf : forall x, place x <> PFlight t).
  { intros x E. apply (pl_fl _ _ I) in E. rewrite Ht0 in E. destruct E. }
  pose proof (pl_tm_nd _ _ I) as Nd. rewrite Hq in Nd.
  assert (Lm : place m = PTimer). { apply (pl_tm _ _ I). rewrite Hq. now left. }
  assert (Hr : forall x, In x r <-> place x = PTimer /\ x <> m).
  { intros x. rewrite (in_tail m r x Nd), <- Hq, (pl_tm _ _ I). tauto. }
  eapply (pl_move place _ s s' t); eauto.
  - intros b x. rewrite Ho. plr I. updc; intuition congruence.
  - intros b. rewrite Ho. apply (pl_out_nd _ _ I).
  - intros x. cbn. specialize (Hf x). unfold upd. destruct (Nat.eqb_spec x m); intuition congruence.
  - repeat constructor; cbn; tauto.
  - intros t' x N. updc; intuition congruence.
  - intros x. rewrite Htm, Hr. unfold upd. destruct (Nat.eqb_spec x m); intuition congruence.
  - rewrite Htm. now inversion Nd.
  - intros b x. rewrite Hb. plr I. updc; intuition congruence.
  - intros b. rewrite Hb. apply (pl_box_nd _ _ I).
  - intros x. rewrite Hn. plr I. updc; intuition congruence.
  - intros b x. rewrite Hto. unfold upd. destruct (Nat.eqb_spec x m); [discriminate|]. apply (pl_to _ _ I).
Qed.

(** The first message of a mailbox is done. *)
Lemma pl_deq place (s s' : state) t a m r l' :
  pl_inv place s -> mbox s a = m :: r ->
  (forall t', todo s' t' = upd (todo s) t l' t') -> fls l' = fls (todo s t) ->
  (forall b, out s' b = out s b) -> timerQ s' = timerQ s ->
  (forall b, mbox s' b = upd (mbox s) a r b) -> next s' = next s -> (forall x, mto s' x = mto s x) ->
  pl_inv (upd place m PDone) s'.
Proof.
  intros I Hq Ht Hl' Ho Htm Hb Hn Hto.
  pose proof (pl_box_nd _ _ I a) as Nd. rewrite Hq in Nd.
  assert (Lm : place m = PMbox a). { apply (pl_box _ _ I). rewrite Hq. now left. }
  assert (Hr : forall x, In x r <-> place x = PMbox a /\ x <> m).
  { intros x. rewrite (in_tail m r x Nd), <- Hq, (pl_box _ _ I). tauto. }
  eapply (pl_move place _ s s' t); eauto.
  - intros b x. rewrite Ho. plr I. updc; intuition congruence.
  - intros b. rewrite Ho. apply (pl_out_nd _ _ I).
  - intros x. rewrite Hl'. plr I. updc; intuition congruence.
  - rewrite Hl'. apply (pl_fl_nd _ _ I).
  - intros t' x N. updc; intuition congruence.
  - intros x. rewrite Htm. plr I. updc; intuition congruence.
  - rewrite Htm. apply (pl_tm_nd _ _ I).
  - intros b x. rewrite Hb. unfold upd. destruct (Nat.eqb_spec b a), (Nat.eqb_spec x m); subst;
      rewrite ?Hr; plr I; intuition congruence.
  - intros b. rewrite Hb. updc; [now inversion Nd|apply (pl_box_nd _ _ I)].
  - intros x. rewrite Hn. plr I. updc; intuition congruence.
  - intros b x. rewrite Hto. unfold upd. destruct (Nat.eqb_spec x m); [discriminate|]. apply (pl_to _ _ I).
Qed.

End Place.

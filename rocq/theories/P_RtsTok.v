(** Invariant of the runtime, part 1: where actors and messages are. *)
From Verif Require Import Base S_Rts M_Rts.
Local Open Scope nat_scope.

Lemma upd_same {A} (f : nat -> A) k x : upd f k x k = x.
Proof. unfold upd. now rewrite Nat.eqb_refl. Qed.
Lemma upd_other {A} (f : nat -> A) k x k' : k' <> k -> upd f k x k' = f k'.
Proof. unfold upd. intros. destruct (Nat.eqb_spec k' k); congruence. Qed.

Ltac updc :=
  repeat match goal with
  | |- context [upd ?f ?k ?x ?k'] =>
      first [ rewrite (upd_same f k x)
            | rewrite (upd_other f k x k') by congruence
            | let E := fresh "E" in destruct (Nat.eq_dec k' k) as [E|E];
              [ rewrite E in *; rewrite (upd_same f k x) | rewrite (upd_other f k x k' E) ] ]
  end.

Lemma in_tail {A} (a : A) r x : NoDup (a :: r) -> (In x r <-> In x (a :: r) /\ x <> a).
Proof.
  intros H. inversion H; subst. cbn. split.
  - intros Hx. split; [now right|]. intros ->. contradiction.
  - intros [[->|?] ?]; [congruence|assumption].
Qed.
Lemma in_snoc {A} (a : A) r x : In x (r ++ [a]) <-> In x r \/ x = a.
Proof. rewrite in_app_iff. cbn. intuition. Qed.
Lemma nodup_snoc {A} (a : A) r : NoDup r -> ~ In a r -> NoDup (r ++ [a]).
Proof.
  intros H Ha. apply NoDup_rev in H. rewrite <- (rev_involutive (r ++ [a])).
  apply NoDup_rev. rewrite rev_app_distr. cbn. constructor; [now rewrite <- in_rev|assumption].
Qed.

Ltac proj := cbn [mto mcnt mval mwait mbase mbox out waitsfor catch aff rq timerQ todo next clock log crashed
                  set_mcnt set_mval set_mwait set_mbox set_out set_waitsfor set_catch set_aff set_rq
                  set_timerQ set_todo set_clock logev crash new_msg enq_ready] in *.

Section Tok.
Context {U V : Type}.
(** Facts about flushing are claimed for race-free schedules only: [G] says that the
    schedule is one. *)
Context {G : Prop}.
Notation instr := (instr U V).
Notation state := (state U V).

(** Locations of an actor with a non-empty mailbox. *)
Inductive loc_t := LNone | LReady (q : nat) | LPark (t : tid) | LExec (t : tid) | LWait (x : mid).

(** Instructions that hold an actor: a thread executes it (x), or is about to enqueue it (p). *)
Definition xtok (i : instr) : list aid :=
  match i with
  | IBegin a | IRun a _ _ _ | ISetVal a _ _ | IFreeze a _ _ | IDeq a _ | IAdd a _ _ | IResume a _ _ => [a]
  | _ => []
  end.
Definition ptok (i : instr) : list aid :=
  match i with IReady a => [a] | IWake _ _ b => [b] | _ => [] end.
Definition fl (i : instr) : list mid :=
  match i with ISend _ m => [m] | IEnq m => [m] | _ => [] end.
Notation xtoks := (flat_map xtok).
Notation ptoks := (flat_map ptok).
Notation fls := (flat_map fl).

Lemma xtoks_sends a l : xtoks (map (@ISend U V a) l) = [].
Proof. induction l; cbn; auto. Qed.
Lemma ptoks_sends a l : ptoks (map (@ISend U V a) l) = [].
Proof. induction l; cbn; auto. Qed.
Lemma fls_sends a l : fls (map (@ISend U V a) l) = l.
Proof. induction l; cbn; congruence. Qed.
Lemma xtoks_wakes x o l : xtoks (map (@IWake U V x o) l) = [].
Proof. induction l; cbn; auto. Qed.
Lemma ptoks_wakes x o l : ptoks (map (@IWake U V x o) l) = l.
Proof. induction l; cbn; congruence. Qed.
Lemma fls_wakes x o l : fls (map (@IWake U V x o) l) = [].
Proof. induction l; cbn; auto. Qed.

(** ** Shape of a thread's pending work *)
Inductive fin (a : aid) : list instr -> Prop :=
| fin_nil : fin a []
| fin_set m o : fin a [ISetVal a m o]
| fin_res m x : fin a [IResume a m x].
Inductive sends (a : aid) : list instr -> Prop :=
| sends_fin f : fin a f -> sends a f
| sends_cons m l : sends a l -> sends a (ISend a m :: l).
Inductive wakes (a : aid) (m : mid) : list instr -> Prop :=
| wakes_deq : wakes a m [IDeq a m]
| wakes_cons x o b l : wakes a m l -> wakes a m (IWake x o b :: l).
Inductive shape : list instr -> Prop :=
| sh_sends a l : sends a l -> shape l
| sh_rsends B a l : sends a l -> shape (IReady B :: l)
| sh_wakes a m l : wakes a m l -> shape l
| sh_rwakes B a m l : wakes a m l -> shape (IReady B :: l)
| sh_begin a : shape [IBegin a]
| sh_run a m c v : shape [IRun a m c v]
| sh_add a m x : shape [IAdd a m x]
| sh_enq m : shape [IEnq m]
| sh_freeze a m o : shape [IFreeze a m o]
| sh_flush a f : fin a f -> shape (IFlush a :: f).

Definition is_flush (a : aid) (i : instr) : Prop := G /\ (i = IFlush a \/ exists m, i = ISend a m).
Definition fling (s : state) (t : tid) (a : aid) : Prop := G /\ flushing s t a.

Lemma flushing_in s t a : fling s t a <-> exists i, In i (todo s t) /\ is_flush a i.
Proof.
  unfold fling, flushing, is_flush. split.
  - intros [g [H|[m H]]]; eauto 6.
  - intros (i & H & g & [->|[m ->]]); eauto.
Qed.

Lemma fin_noflush a f b i : fin a f -> In i f -> ~ is_flush b i.
Proof. intros H Hi [_ [->|[m ->]]]; inversion H; subst; cbn in Hi; intuition discriminate. Qed.
Lemma sends_flush a l b i : sends a l -> In i l -> is_flush b i -> b = a.
Proof.
  induction 1 as [f Hf|m l Hl IH]; intros Hi Hfl.
  - exfalso. eapply fin_noflush; eauto.
  - destruct Hi as [<-|Hi]; [|auto]. destruct Hfl as [_ [?|[? ?]]]; congruence.
Qed.
Lemma wakes_noflush a m l b i : wakes a m l -> In i l -> ~ is_flush b i.
Proof.
  induction 1 as [|x o b' l Hl IH]; intros Hi.
  - destruct Hi as [<-|[]]. intros [_ [?|[? ?]]]; congruence.
  - destruct Hi as [<-|Hi]; [|auto]. intros [_ [?|[? ?]]]; congruence.
Qed.
Lemma sends_map a l f : fin a f -> sends a (map (ISend a) l ++ f).
Proof. induction l; cbn; intros; [now constructor|apply sends_cons; auto]. Qed.
Lemma wakes_map a m x o l : wakes a m (map (IWake x o) l ++ [IDeq a m]).
Proof. induction l; cbn; constructor; auto. Qed.

(** What remains after the first instruction. *)
Lemma shape_ready B rest : shape (IReady B :: rest) -> (exists a, sends a rest) \/ (exists a m, wakes a m rest).
Proof.
  inversion 1; subst; eauto.
  - match goal with H : sends _ _ |- _ => inversion H; subst end.
    match goal with H : fin _ _ |- _ => inversion H end.
  - match goal with H : wakes _ _ _ |- _ => inversion H end.
Qed.
Ltac shinv H := inversion H; subst;
  repeat match goal with
  | H : sends _ (_ :: _) |- _ => inversion H; subst; clear H
  | H : fin _ (_ :: _) |- _ => inversion H; subst; clear H
  | H : wakes _ _ (_ :: _) |- _ => inversion H; subst; clear H
  end; try discriminate.
Lemma shape_flush a rest : shape (IFlush a :: rest) -> fin a rest.
Proof. intros H. shinv H. assumption. Qed.
Lemma shape_send a m rest : shape (ISend a m :: rest) -> sends a rest.
Proof. intros H. shinv H. assumption. Qed.
Lemma shape_begin a rest : shape (IBegin a :: rest) -> rest = [].
Proof. intros H. shinv H. reflexivity. Qed.
Lemma shape_run a m c v rest : shape (IRun a m c v :: rest) -> rest = [].
Proof. intros H. shinv H. reflexivity. Qed.
Lemma shape_add a m x rest : shape (IAdd a m x :: rest) -> rest = [].
Proof. intros H. shinv H. reflexivity. Qed.
Lemma shape_enq m rest : shape (IEnq m :: rest) -> rest = [].
Proof. intros H. shinv H. reflexivity. Qed.
Lemma shape_set a m o rest : shape (ISetVal a m o :: rest) -> rest = [].
Proof. intros H. shinv H; reflexivity. Qed.
Lemma shape_freeze a m o rest : shape (IFreeze a m o :: rest) -> rest = [].
Proof. intros H. shinv H. reflexivity. Qed.
Lemma shape_res a m o rest : shape (IResume a m o :: rest) -> rest = [].
Proof. intros H. shinv H; reflexivity. Qed.
Lemma shape_deq a m rest : shape (IDeq a m :: rest) -> rest = [].
Proof. intros H. shinv H; reflexivity. Qed.
Lemma shape_wake x o b rest : shape (IWake x o b :: rest) -> exists a m, wakes a m rest.
Proof. intros H. shinv H; eauto. Qed.

Lemma shape_tail i rest : shape (i :: rest) -> (exists a, sends a rest) \/ (exists a m, wakes a m rest).
Proof.
  intros H. destruct i.
  - rewrite (shape_begin _ _ H). left. exists 0. repeat constructor.
  - rewrite (shape_run _ _ _ _ _ H). left. exists 0. repeat constructor.
  - eapply shape_ready; eauto.
  - left. exists a. constructor. now apply shape_flush.
  - left. exists a. eapply shape_send; eauto.
  - rewrite (shape_enq _ _ H). left. exists 0. repeat constructor.
  - rewrite (shape_set _ _ _ _ H). left. exists 0. repeat constructor.
  - rewrite (shape_freeze _ _ _ _ H). left. exists 0. repeat constructor.
  - right. eapply shape_wake; eauto.
  - rewrite (shape_deq _ _ _ H). left. exists 0. repeat constructor.
  - rewrite (shape_add _ _ _ _ H). left. exists 0. repeat constructor.
  - rewrite (shape_res _ _ _ _ H). left. exists 0. repeat constructor.
Qed.
Lemma shape_of_tail l : (exists a, sends a l) \/ (exists a m, wakes a m l) -> shape l.
Proof. intros [[a H]|(a & m & H)]; [eapply sh_sends|eapply sh_wakes]; eauto. Qed.
Lemma shape_ready_tail B l : (exists a, sends a l) \/ (exists a m, wakes a m l) -> shape (IReady B :: l).
Proof. intros [[a H]|(a & m & H)]; [eapply sh_rsends|eapply sh_rwakes]; eauto. Qed.

(** ** The invariant *)
Record tok_inv (loc : aid -> loc_t) (s : state) : Prop := {
  ti_rq : forall q a, In a (rq s q) <-> loc a = LReady q;
  ti_rq_nd : forall q, NoDup (rq s q);
  ti_x : forall t a, In a (xtoks (todo s t)) <-> loc a = LExec t;
  ti_x_nd : forall t, NoDup (xtoks (todo s t));
  ti_p : forall t a, In a (ptoks (todo s t)) <-> loc a = LPark t;
  ti_p_nd : forall t, NoDup (ptoks (todo s t));
  ti_w : forall x a, In a (mwait s x) <-> loc a = LWait x;
  ti_w_nd : forall x, NoDup (mwait s x);
  ti_box : forall a, mbox s a = [] <-> loc a = LNone;
  ti_shape : forall t, shape (todo s t);
  ti_flush : forall t a, fling s t a -> loc a <> LNone /\ (forall t', loc a = LExec t' -> t' = t);
  ti_one : forall t t' a, fling s t a -> fling s t' a -> t = t'
}.


(** A step of thread t that replaces its pending work. *)
Record moves (loc loc' : aid -> loc_t) (s s' : state) (t : tid) (l' : list instr) : Prop := {
  mv_todo : forall t', todo s' t' = upd (todo s) t l' t';
  mv_shape : shape l';
  (* the flushes it is left with were there before, or concern an actor it executes *)
  mv_flush : forall a, (exists i, In i l' /\ is_flush a i) ->
     fling s t a \/ (loc a = LExec t /\ forall t', ~ fling s t' a);
  (* actors it moves are not being flushed by another thread, or do not become executed *)
  mv_loc : forall a, loc' a = loc a \/
     (loc' a <> LNone /\ (forall t', loc' a <> LExec t') ) \/
     (loc' a = LExec t /\ loc a = LExec t) \/
     ((forall t', ~ fling s t' a) /\ ~ (exists i, In i l' /\ is_flush a i))
}.

Lemma flushing_upd s s' t l' t' a :
  (forall t', todo s' t' = upd (todo s) t l' t') ->
  (fling s' t' a <-> (t' = t /\ exists i, In i l' /\ is_flush a i) \/ (t' <> t /\ fling s t' a)).
Proof.
  intros E. rewrite !flushing_in, E. unfold upd. destruct (Nat.eqb_spec t' t) as [->|N].
  - split; [intros H; left; auto|intros [[_ H]|[H _]]; [assumption|congruence]].
  - split; [intros H; right; auto|intros [[H _]|[_ H]]; [congruence|assumption]].
Qed.

Lemma moves_flush loc loc' s s' t l' :
  tok_inv loc s -> moves loc loc' s s' t l' ->
  (forall t' a, fling s' t' a -> loc' a <> LNone /\ (forall u, loc' a = LExec u -> u = t')) /\
  (forall t1 t2 a, fling s' t1 a -> fling s' t2 a -> t1 = t2).
Proof.
  intros I [Ht Hs Hf Hl]. split.
  - intros t' a H. pose proof H as H0. rewrite (flushing_upd _ _ _ _ _ _ Ht) in H.
    assert (K : loc a <> LNone /\ (forall u, loc a = LExec u -> u = t')).
    { destruct H as [[-> H]|[Hn H]].
      - destruct (Hf a H) as [H1|[H1 H2]].
        + exact (ti_flush _ _ I _ _ H1).
        + rewrite H1. split; [discriminate|congruence].
      - exact (ti_flush _ _ I _ _ H). }
    destruct (Hl a) as [E|[[E1 E2]|[[E1 E2]|[E1 E2]]]].
    + rewrite E. exact K.
    + split; [assumption|]. intros u E. exfalso. eapply E2; eauto.
    + rewrite E1. split; [discriminate|]. intros u E. apply (proj2 K). congruence.
    + exfalso. destruct H as [[-> H]|[Hn H]]; [apply E2; exact H|eapply E1; eauto].
  - intros t1 t2 a H1 H2. rewrite (flushing_upd _ _ _ _ _ _ Ht) in H1. rewrite (flushing_upd _ _ _ _ _ _ Ht) in H2.
    destruct H1 as [[-> H1]|[N1 H1]], H2 as [[-> H2]|[N2 H2]]; [reflexivity| | |exact (ti_one _ _ I _ _ _ H1 H2)].
    + destruct (Hf a H1) as [H|[_ H]]; [exact (ti_one _ _ I _ _ _ H H2)|exfalso; eapply H; eauto].
    + destruct (Hf a H2) as [H|[_ H]]; [exact (ti_one _ _ I _ _ _ H1 H)|exfalso; eapply H; eauto].
Qed.

Lemma sub_flush s t i rest l' (loc : aid -> loc_t) :
  todo s t = i :: rest -> (forall j, In j l' -> In j (i :: rest) \/ (forall a, ~ is_flush a j)) ->
  forall a, (exists j, In j l' /\ is_flush a j) ->
  fling s t a \/ (loc a = LExec t /\ forall t', ~ fling s t' a).
Proof.
  intros E H a (j & Hj & Hf). left. rewrite flushing_in, E. exists j. split; [|assumption].
  destruct (H j Hj) as [?|Hn]; [assumption|exfalso; eapply Hn; eauto].
Qed.

Lemma exec_noflush loc s t a :
  tok_inv loc s -> loc a = LExec t -> ~ fling s t a -> forall t', ~ fling s t' a.
Proof.
  intros I E N t' H. destruct (ti_flush _ _ I _ _ H) as [_ H2]. rewrite <- (H2 _ E) in H. contradiction.
Qed.

Lemma fin_xtoks a f : fin a f -> xtoks f = [] \/ xtoks f = [a].
Proof. destruct 1; cbn; auto. Qed.

Ltac tk0 := intros; proj; updc; rewrite ?in_snoc;
  repeat match goal with
  | H : tok_inv _ ?s |- context [In ?a (rq ?s ?q)] => rewrite (ti_rq _ _ H q a)
  | H : tok_inv _ ?s |- context [In ?a (mwait ?s ?q)] => rewrite (ti_w _ _ H q a)
  | H : tok_inv _ ?s |- context [In ?a (flat_map xtok (todo ?s ?q))] => rewrite (ti_x _ _ H q a)
  | H : tok_inv _ ?s |- context [In ?a (flat_map ptok (todo ?s ?q))] => rewrite (ti_p _ _ H q a)
  | H : tok_inv _ ?s |- context [mbox ?s ?a = []] => rewrite (ti_box _ _ H a)
  end; try (intuition congruence).
Ltac nd0 := intros; proj; updc; try (match goal with H : tok_inv _ _ |- _ =>
  solve [apply (ti_rq_nd _ _ H)|apply (ti_x_nd _ _ H)|apply (ti_p_nd _ _ H)|apply (ti_w_nd _ _ H)] end).
Ltac sh0 := intros; proj; updc; try (match goal with H : tok_inv _ _ |- _ => solve [apply (ti_shape _ _ H)] end).

Lemma tok_move loc loc' s s' t l' :
  tok_inv loc s -> moves loc loc' s s' t l' ->
  (forall q a, In a (rq s' q) <-> loc' a = LReady q) -> (forall q, NoDup (rq s' q)) ->
  (forall a, In a (xtoks l') <-> loc' a = LExec t) -> NoDup (xtoks l') ->
  (forall a, In a (ptoks l') <-> loc' a = LPark t) -> NoDup (ptoks l') ->
  (forall a t', t' <> t -> (loc' a = LExec t' <-> loc a = LExec t')) ->
  (forall a t', t' <> t -> (loc' a = LPark t' <-> loc a = LPark t')) ->
  (forall x a, In a (mwait s' x) <-> loc' a = LWait x) -> (forall x, NoDup (mwait s' x)) ->
  (forall a, mbox s' a = [] <-> loc' a = LNone) ->
  tok_inv loc' s'.
Proof.
  intros I M Hrq Hrqn Hx Hxn Hp Hpn Hxo Hpo Hw Hwn Hb.
  destruct (moves_flush _ _ _ _ _ _ I M) as [F1 F2].
  constructor; try assumption; intros t'; rewrite (mv_todo _ _ _ _ _ _ M); unfold upd;
    destruct (Nat.eqb_spec t' t) as [->|N]; try assumption;
    try (intros a; rewrite ?(ti_x _ _ I), ?(ti_p _ _ I); symmetry; auto);
    try apply (ti_x_nd _ _ I); try apply (ti_p_nd _ _ I); try apply (ti_shape _ _ I).
  apply (mv_shape _ _ _ _ _ _ M).
Qed.

(** No actor moves. *)
Lemma tok_same loc s s' t l' :
  tok_inv loc s ->
  (forall t', todo s' t' = upd (todo s) t l' t') -> shape l' ->
  (forall a, (exists i, In i l' /\ is_flush a i) ->
     fling s t a \/ (loc a = LExec t /\ forall t', ~ fling s t' a)) ->
  xtoks l' = xtoks (todo s t) -> ptoks l' = ptoks (todo s t) ->
  (forall q, rq s' q = rq s q) -> (forall x, mwait s' x = mwait s x) -> (forall a, mbox s' a = [] <-> mbox s a = []) ->
  tok_inv loc s'.
Proof.
  intros I Ht Hs Hf Hx Hp Hrq Hw Hb.
  eapply (tok_move loc loc s s' t l'); try assumption; try tauto.
  - constructor; auto.
  - intros. rewrite Hrq. apply (ti_rq _ _ I).
  - intros. rewrite Hrq. apply (ti_rq_nd _ _ I).
  - intros. rewrite Hx. apply (ti_x _ _ I).
  - rewrite Hx. apply (ti_x_nd _ _ I).
  - intros. rewrite Hp. apply (ti_p _ _ I).
  - rewrite Hp. apply (ti_p_nd _ _ I).
  - intros. rewrite Hw. apply (ti_w _ _ I).
  - intros. rewrite Hw. apply (ti_w_nd _ _ I).
  - intros. rewrite Hb. apply (ti_box _ _ I).
Qed.

Lemma tok_same_todo loc s s' :
  tok_inv loc s -> (forall t', todo s' t' = todo s t') ->
  (forall q, rq s' q = rq s q) -> (forall x, mwait s' x = mwait s x) -> (forall a, mbox s' a = [] <-> mbox s a = []) ->
  tok_inv loc s'.
Proof.
  intros I Ht Hrq Hw Hb. eapply (tok_same loc s s' 0 (todo s 0)); auto.
  - intros t'. rewrite Ht. unfold upd. destruct (Nat.eqb_spec t' 0) as [->|]; reflexivity.
  - apply (ti_shape _ _ I).
  - intros a H. left. rewrite flushing_in. exact H.
Qed.

Lemma flush_only s t a i rest : todo s t = i :: rest -> (forall b j, In j (i :: rest) -> ~ is_flush b j) ->
  ~ fling s t a.
Proof. intros E H F. rewrite flushing_in, E in F. destruct F as (j & Hj & Hf). eapply H; eauto. Qed.

Ltac noflush := let b := fresh in let i := fresh in let Hi := fresh in let m := fresh in
  intros b i Hi [_ [->|[m ->]]]; cbn in Hi; intuition discriminate.

(** Dequeueing a ready actor. *)
Lemma tok_deq loc s s' t q a r :
  tok_inv loc s -> todo s t = [] -> rq s q = a :: r -> (forall t', ~ fling s t' a) ->
  (forall t', todo s' t' = upd (todo s) t [IBegin a] t') ->
  (forall q', rq s' q' = upd (rq s) q r q') ->
  (forall x, mwait s' x = mwait s x) -> (forall b, mbox s' b = mbox s b) ->
  tok_inv (upd loc a (LExec t)) s'.
Proof.
  intros I Ht Hq Hnf Htd Hrq Hw Hb.
  assert (La : loc a = LReady q). { apply (ti_rq _ _ I). rewrite Hq. now left. }
  assert (Nd : NoDup (a :: r)). { rewrite <- Hq. apply (ti_rq_nd _ _ I). }
  assert (Hx : forall b, loc b <> LExec t). { intros b E. apply (ti_x _ _ I) in E. rewrite Ht in E. destruct E. }
  assert (Hp : forall b, loc b <> LPark t). { intros b E. apply (ti_p _ _ I) in E. rewrite Ht in E. destruct E. }
  assert (Hr : forall b, In b r <-> loc b = LReady q /\ b <> a).
  { intros b. rewrite (in_tail a r b Nd), <- Hq, (ti_rq _ _ I). tauto. }
  eapply (tok_move loc (upd loc a (LExec t)) s s' t [IBegin a]); try assumption.
  - constructor; [assumption|constructor| |].
    + intros b (i & [<-|[]] & [_ [?|[? ?]]]); discriminate.
    + intros b. updc; [|now left]. right. right. right. split; [assumption|].
      intros (i & [<-|[]] & [_ [?|[? ?]]]); discriminate.
  - intros q' b. rewrite Hrq. updc; rewrite ?Hr, ?(ti_rq _ _ I); intuition congruence.
  - intros q'. rewrite Hrq. updc; [now inversion Nd|apply (ti_rq_nd _ _ I)].
  - intros b. cbn. specialize (Hx b). updc; intuition congruence.
  - repeat constructor; cbn; tauto.
  - intros b. cbn. specialize (Hp b). updc; intuition congruence.
  - constructor.
  - intros b t' N. updc; intuition congruence.
  - intros b t' N. updc; intuition congruence.
  - intros x b. rewrite Hw, (ti_w _ _ I). updc; intuition congruence.
  - intros x. rewrite Hw. apply (ti_w_nd _ _ I).
  - intros b. rewrite Hb, (ti_box _ _ I). updc; intuition congruence.
Qed.

(** A thread executing only [a] is left with enqueueing it. *)
Lemma tok_park loc s s' t i a :
  tok_inv loc s -> todo s t = [i] -> xtok i = [a] -> 
  (forall t', todo s' t' = upd (todo s) t [IReady a] t') ->
  (forall q, rq s' q = rq s q) -> (forall x, mwait s' x = mwait s x) -> (forall b, mbox s' b = [] <-> mbox s b = []) ->
  tok_inv (upd loc a (LPark t)) s'.
Proof.
  intros I Ht Hi Htd Hrq Hw Hb.
  assert (Hx : forall b, loc b = LExec t <-> a = b).
  { intros b. rewrite <- (ti_x _ _ I t b), Ht. cbn. rewrite Hi. cbn. tauto. }
  assert (La : loc a = LExec t) by now apply Hx.
  assert (Hp : forall b, loc b <> LPark t).
  { intros b E. apply (ti_p _ _ I) in E. rewrite Ht in E. destruct i; cbn in *; try discriminate; contradiction. }
  eapply (tok_move loc (upd loc a (LPark t)) s s' t [IReady a]); try assumption.
  - constructor; [assumption| | |].
    + apply shape_ready_tail. left. exists 0. repeat constructor.
    + intros b (j & [<-|[]] & [_ [?|[? ?]]]); discriminate.
    + intros b. updc; [|now left]. right. left. split; [discriminate|intros; discriminate].
  - intros q b. rewrite Hrq, (ti_rq _ _ I). updc; intuition congruence.
  - intros q'. rewrite Hrq. apply (ti_rq_nd _ _ I).
  - intros b. cbn. specialize (Hx b). updc; intuition congruence.
  - constructor.
  - intros b. cbn. specialize (Hp b). updc; intuition congruence.
  - repeat constructor; cbn; tauto.
  - intros b t' N. updc; intuition congruence.
  - intros b t' N. updc; intuition congruence.
  - intros x b. rewrite Hw, (ti_w _ _ I). updc; intuition congruence.
  - intros x. rewrite Hw. apply (ti_w_nd _ _ I).
  - intros b. rewrite Hb, (ti_box _ _ I). updc; intuition congruence.
Qed.

(** ENQ_ready. *)
Lemma tok_ready loc s s' t a rest q :
  tok_inv loc s -> todo s t = IReady a :: rest ->
  (forall t', todo s' t' = upd (todo s) t rest t') ->
  (forall q', rq s' q' = upd (rq s) q (rq s q ++ [a]) q') ->
  (forall x, mwait s' x = mwait s x) -> (forall b, mbox s' b = mbox s b) ->
  tok_inv (upd loc a (LReady q)) s'.
Proof.
  intros I Ht Htd Hrq Hw Hb.
  assert (Hp : forall b, loc b = LPark t <-> a = b \/ In b (ptoks rest)).
  { intros b. rewrite <- (ti_p _ _ I t b), Ht. reflexivity. }
  assert (Hx : forall b, loc b = LExec t <-> In b (xtoks rest)).
  { intros b. rewrite <- (ti_x _ _ I t b), Ht. reflexivity. }
  assert (La : loc a = LPark t) by (apply Hp; now left).
  pose proof (ti_p_nd _ _ I t) as Nd. rewrite Ht in Nd. cbn in Nd.
  pose proof (ti_x_nd _ _ I t) as Ndx. rewrite Ht in Ndx. cbn in Ndx.
  assert (Hn : ~ In a (ptoks rest)) by now inversion Nd.
  pose proof (ti_shape _ _ I t) as Sh. rewrite Ht in Sh.
  eapply (tok_move loc (upd loc a (LReady q)) s s' t rest); try assumption.
  - constructor; [assumption| | |].
    + apply shape_of_tail. eapply shape_tail; eauto.
    + intros b (j & Hj & Hf). left. rewrite flushing_in, Ht. exists j. split; [now right|assumption].
    + intros b. updc; [|now left]. right. left. split; [discriminate|intros; discriminate].
  - intros q' b. rewrite Hrq. updc; rewrite ?in_snoc, ?(ti_rq _ _ I); intuition congruence.
  - intros q'. rewrite Hrq. updc; [|apply (ti_rq_nd _ _ I)].
    apply nodup_snoc; [apply (ti_rq_nd _ _ I)|]. rewrite (ti_rq _ _ I). congruence.
  - intros b. rewrite <- Hx. updc; intuition congruence.
  - intros b. specialize (Hp b). updc; intuition congruence.
  - now inversion Nd.
  - intros b t' N. updc; intuition congruence.
  - intros b t' N. updc; intuition congruence.
  - intros x b. rewrite Hw, (ti_w _ _ I). updc; intuition congruence.
  - intros x. rewrite Hw. apply (ti_w_nd _ _ I).
  - intros b. rewrite Hb, (ti_box _ _ I). updc; intuition congruence.
Qed.

(** A message arrives at an actor with an empty mailbox. *)
Lemma tok_arrive loc s s' t i rest B l :
  tok_inv loc s -> todo s t = i :: rest -> xtok i = [] -> ptok i = [] ->
  mbox s B = [] -> l <> [] ->
  (forall t', todo s' t' = upd (todo s) t (IReady B :: rest) t') ->
  (forall q, rq s' q = rq s q) -> (forall x, mwait s' x = mwait s x) -> (forall b, mbox s' b = upd (mbox s) B l b) ->
  tok_inv (upd loc B (LPark t)) s'.
Proof.
  intros I Ht Hix Hip Hbox Hl Htd Hrq Hw Hb.
  assert (Hp : forall b, loc b = LPark t <-> In b (ptoks rest)).
  { intros b. rewrite <- (ti_p _ _ I t b), Ht. cbn. now rewrite Hip. }
  assert (Hx : forall b, loc b = LExec t <-> In b (xtoks rest)).
  { intros b. rewrite <- (ti_x _ _ I t b), Ht. cbn. now rewrite Hix. }
  assert (La : loc B = LNone) by now apply (ti_box _ _ I).
  pose proof (ti_p_nd _ _ I t) as Nd. rewrite Ht in Nd. cbn in Nd. rewrite Hip in Nd. cbn in Nd.
  pose proof (ti_x_nd _ _ I t) as Ndx. rewrite Ht in Ndx. cbn in Ndx. rewrite Hix in Ndx. cbn in Ndx.
  pose proof (ti_shape _ _ I t) as Sh. rewrite Ht in Sh.
  eapply (tok_move loc (upd loc B (LPark t)) s s' t (IReady B :: rest)); try assumption.
  - constructor; [assumption| | |].
    + apply shape_ready_tail. eapply shape_tail; eauto.
    + intros b (j & Hj & Hf). left. rewrite flushing_in, Ht. exists j. split; [|assumption].
      destruct Hj as [<-|Hj]; [|now right]. destruct Hf as [_ [?|[? ?]]]; discriminate.
    + intros b. updc; [|now left]. right. left. split; [discriminate|intros; discriminate].
  - intros q b. rewrite Hrq, (ti_rq _ _ I). updc; intuition congruence.
  - intros q'. rewrite Hrq. apply (ti_rq_nd _ _ I).
  - intros b. cbn. rewrite <- Hx. updc; intuition congruence.
  - intros b. cbn. rewrite <- Hp. updc; intuition congruence.
  - cbn. constructor; [|assumption]. rewrite <- Hp. congruence.
  - intros b t' N. updc; intuition congruence.
  - intros b t' N. updc; intuition congruence.
  - intros x b. rewrite Hw, (ti_w _ _ I). updc; intuition congruence.
  - intros x. rewrite Hw. apply (ti_w_nd _ _ I).
  - intros b. rewrite Hb. updc; [intuition congruence|]. rewrite (ti_box _ _ I). tauto.
Qed.

(** FREEZE_waiting. *)
Lemma tok_freeze loc s s' t a m o :
  tok_inv loc s -> todo s t = [IFreeze a m o] ->
  (forall t', todo s' t' = upd (todo s) t (map (IWake m o) (mwait s m) ++ [IDeq a m]) t') ->
  (forall q, rq s' q = rq s q) -> (forall x, mwait s' x = upd (mwait s) m [] x) -> (forall b, mbox s' b = mbox s b) ->
  tok_inv (fun b => match loc b with LWait x => if x =? m then LPark t else loc b | _ => loc b end) s'.
Proof.
  intros I Ht Htd Hrq Hw Hb.
  set (loc' := fun b => _).
  assert (Hx : forall b, loc b = LExec t <-> a = b).
  { intros b. rewrite <- (ti_x _ _ I t b), Ht. cbn. tauto. }
  assert (Hp : forall b, loc b <> LPark t).
  { intros b E. apply (ti_p _ _ I) in E. rewrite Ht in E. destruct E. }
  assert (L : forall b, (loc b = LWait m /\ loc' b = LPark t) \/ (loc b <> LWait m /\ loc' b = loc b)).
  { intros b. unfold loc'. destruct (loc b) eqn:E; try (right; split; congruence).
    destruct (Nat.eqb_spec x m) as [->|N]; [left; auto|right; split; congruence]. }
  clearbody loc'.
  eapply (tok_move loc loc' s s' t); try eassumption.
  - constructor; [eassumption| | |].
    + eapply sh_wakes. apply wakes_map.
    + intros b (j & Hj & Hf). exfalso. eapply wakes_noflush; [apply wakes_map|exact Hj|exact Hf].
    + intros b. destruct (L b) as [[L1 L2]|[L1 L2]]; [|now left].
      right. left. rewrite L2. split; [discriminate|intros; discriminate].
  - intros q b. rewrite Hrq, (ti_rq _ _ I). destruct (L b) as [[L1 L2]|[L1 L2]]; [rewrite ?L1, ?L2 in *; intuition congruence|rewrite L2; intuition congruence].
  - intros q'. rewrite Hrq. apply (ti_rq_nd _ _ I).
  - intros b. rewrite flat_map_app, xtoks_wakes. cbn. specialize (Hx b).
    destruct (L b) as [[L1 L2]|[L1 L2]]; [rewrite ?L1, ?L2 in *; intuition congruence|rewrite L2; intuition congruence].
  - rewrite flat_map_app, xtoks_wakes. repeat constructor; cbn; tauto.
  - intros b. rewrite flat_map_app, ptoks_wakes. cbn. rewrite app_nil_r, (ti_w _ _ I). specialize (Hp b).
    destruct (L b) as [[L1 L2]|[L1 L2]]; [rewrite ?L1, ?L2 in *; intuition congruence|rewrite L2; intuition congruence].
  - rewrite flat_map_app, ptoks_wakes. cbn. rewrite app_nil_r. apply (ti_w_nd _ _ I).
  - intros b t' N. destruct (L b) as [[L1 L2]|[L1 L2]]; [rewrite ?L1, ?L2 in *; intuition congruence|rewrite L2; intuition congruence].
  - intros b t' N. destruct (L b) as [[L1 L2]|[L1 L2]]; [rewrite ?L1, ?L2 in *; intuition congruence|rewrite L2; intuition congruence].
  - intros x b. rewrite Hw. unfold upd. destruct (Nat.eqb_spec x m) as [->|N]; [cbn|rewrite (ti_w _ _ I)]; (destruct (L b) as [[L1 L2]|[L1 L2]]; [rewrite ?L1, ?L2 in *; intuition congruence|rewrite L2; intuition congruence]).
  - intros x. rewrite Hw. updc; [constructor|apply (ti_w_nd _ _ I)].
  - intros b. rewrite Hb, (ti_box _ _ I). destruct (L b) as [[L1 L2]|[L1 L2]]; [rewrite ?L1, ?L2 in *; intuition congruence|rewrite L2; intuition congruence].
Qed.

(** DEQ_msg of the last message. *)
Lemma tok_last loc s s' t a m :
  tok_inv loc s -> todo s t = [IDeq a m] ->
  (forall t', todo s' t' = upd (todo s) t [] t') ->
  (forall q, rq s' q = rq s q) -> (forall x, mwait s' x = mwait s x) -> (forall b, mbox s' b = upd (mbox s) a [] b) ->
  tok_inv (upd loc a LNone) s'.
Proof.
  intros I Ht Htd Hrq Hw Hb.
  assert (Hx : forall b, loc b = LExec t <-> a = b).
  { intros b. rewrite <- (ti_x _ _ I t b), Ht. cbn. tauto. }
  assert (La : loc a = LExec t) by now apply Hx.
  assert (Hp : forall b, loc b <> LPark t).
  { intros b E. apply (ti_p _ _ I) in E. rewrite Ht in E. destruct E. }
  eapply (tok_move loc (upd loc a LNone) s s' t []); try assumption.
  - constructor; [assumption| | |].
    + eapply (sh_sends 0). repeat constructor.
    + intros b (j & [] & ?).
    + intros b. updc; [|now left]. right. right. right. split; [|intros (j & [] & ?)].
      eapply exec_noflush; eauto. eapply flush_only; eauto. noflush.
  - intros q b. rewrite Hrq, (ti_rq _ _ I). updc; intuition congruence.
  - intros q'. rewrite Hrq. apply (ti_rq_nd _ _ I).
  - intros b. cbn. specialize (Hx b). updc; intuition congruence.
  - constructor.
  - intros b. cbn. specialize (Hp b). updc; intuition congruence.
  - constructor.
  - intros b t' N. updc; intuition congruence.
  - intros b t' N. updc; intuition congruence.
  - intros x b. rewrite Hw, (ti_w _ _ I). updc; intuition congruence.
  - intros x. rewrite Hw. apply (ti_w_nd _ _ I).
  - intros b. rewrite Hb. updc; [tauto|]. rewrite (ti_box _ _ I). tauto.
Qed.

(** ADD_waiting. *)
Lemma tok_add loc s s' t a m x :
  tok_inv loc s -> todo s t = [IAdd a m x] ->
  (forall t', todo s' t' = upd (todo s) t [IFlush a] t') ->
  (forall q, rq s' q = rq s q) -> (forall y, mwait s' y = upd (mwait s) x (a :: mwait s x) y) ->
  (forall b, mbox s' b = mbox s b) ->
  tok_inv (upd loc a (LWait x)) s'.
Proof.
  intros I Ht Htd Hrq Hw Hb.
  assert (Hx : forall b, loc b = LExec t <-> a = b).
  { intros b. rewrite <- (ti_x _ _ I t b), Ht. cbn. tauto. }
  assert (La : loc a = LExec t) by now apply Hx.
  assert (Hp : forall b, loc b <> LPark t).
  { intros b E. apply (ti_p _ _ I) in E. rewrite Ht in E. destruct E. }
  eapply (tok_move loc (upd loc a (LWait x)) s s' t [IFlush a]); try assumption.
  - constructor; [assumption| | |].
    + apply sh_flush. constructor.
    + intros b (j & [<-|[]] & [_ [E|[? E]]]); [|discriminate]. injection E as <-. right. split; [assumption|].
      eapply exec_noflush; eauto. eapply flush_only; eauto. noflush.
    + intros b. updc; [|now left]. right. left. split; [discriminate|intros; discriminate].
  - intros q b. rewrite Hrq, (ti_rq _ _ I). updc; intuition congruence.
  - intros q'. rewrite Hrq. apply (ti_rq_nd _ _ I).
  - intros b. cbn. specialize (Hx b). updc; intuition congruence.
  - constructor.
  - intros b. cbn. specialize (Hp b). updc; intuition congruence.
  - constructor.
  - intros b t' N. updc; intuition congruence.
  - intros b t' N. updc; intuition congruence.
  - intros y b. rewrite Hw. unfold upd. destruct (Nat.eqb_spec y x), (Nat.eqb_spec b a); subst; cbn;
      rewrite ?(ti_w _ _ I); intuition congruence.
  - intros y. rewrite Hw. updc; [|apply (ti_w_nd _ _ I)].
    constructor; [rewrite (ti_w _ _ I); congruence|apply (ti_w_nd _ _ I)].
  - intros b. rewrite Hb, (ti_box _ _ I). updc; intuition congruence.
Qed.

End Tok.
Notation xtoks := (flat_map xtok).
Notation ptoks := (flat_map ptok).
Notation fls := (flat_map fl).

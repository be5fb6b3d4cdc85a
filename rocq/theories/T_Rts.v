(** Property theorems C20-C26: actors and messages.

    [run ... (init v0 t0 aff0) ls s]: the runtime, with any number of threads and any
    programs, gets from its initial state to [s] by making the choices [ls].  A race in the
    handling of await (see M_Rts.v, [flushing]) makes three of the properties false in
    general; they are proved for executions in which the race does not happen
    ([race_free]), which includes all executions of programs that never await and
    all executions in which each ready queue is served by one thread only. *)
From Verif Require Import Base S_Rts M_Rts S_RtsState P_RtsRun P_Rts2 P_Rts3 P_Rts4 P_Rts7 P_Rts8 P_Rts9 P_Rts10 P_Rts11 P_RtsFree.
Local Open Scope nat_scope.

Section Theorems.
Context {U V : Type}.
Variable vfalse vdone : V.
Variable shared : nat.
Variable v0 : V.
Variable t0 : Z.
Variable aff0 : aid -> nat.
Notation start := (@init U V v0 t0 aff0).
Notation run := (@run U V vfalse vdone shared).
Notation race_free := (@race_free U V vfalse vdone shared).
Notation legal := (@legal U V vfalse vdone).

Ltac by_run R := destruct (run_inv _ _ _ _ _ _ _ _ R) as (s0 & W & [->| ->]).

(** ** What happens is legal, whatever the schedule (see S_Rts.v for [legal]) *)
Theorem C21_C23_C26_legal : forall ls s, run start ls s -> legal (log s).
Proof. intros ls s R. by_run R; exact (w_legal _ _ _ W). Qed.
Let always_legal := C21_C23_C26_legal.

(** ** C20 *)
Theorem C20_fifo_partial : forall ls s, race_free start ls s -> fifo (log s).
Proof. intros ls s R. destruct (nice_inv _ _ _ _ _ _ _ _ R) as [_ N]. exact (o_fifo _ (n_ordd _ N)). Qed.

Theorem C20_fifo_no_await : forall ls s, run start ls s -> Forall no_await ls -> fifo (log s).
Proof. intros ls s R F. apply (C20_fifo_partial ls). now apply no_await_free. Qed.

Theorem C20_fifo_one_thread_per_queue : forall (T : tid -> Prop) ls s,
  (forall t t' q, T t -> T t' -> serves shared t q = true -> serves shared t' q = true -> t = t') ->
  run start ls s -> Forall (confined shared T) ls -> fifo (log s).
Proof. intros T ls s A R F. apply (C20_fifo_partial ls). eapply confined_free; eauto. Qed.

(** ** C21 *)
Theorem C21_one_place : forall ls s, run start ls s ->
  (forall m B c, created m B c (log s) -> exists! p, is_at s m p) /\
  (forall a m, In m (mbox s a) -> exists c, created m a c (log s)) /\
  (forall a, NoDup (mbox s a)) /\ (forall a, NoDup (out s a)) /\ NoDup (timerQ s).
Proof.
  intros ls s R. by_run R.
  all: destruct (boxes vfalse vdone s0 W) as (B1 & B2 & B3 & B4).
  all: split; [exact (fun m B c => located vfalse vdone s0 m B c W)|].
  all: split; [exact B4|]; split; [exact B1|]; split; [exact B3|]; exact B2.
Qed.

Theorem C21_at_most_once : forall ls s, run start ls s ->
  (forall m, starts vfalse m (log s) <= 1) /\ (forall m, finishes m (log s) <= 1) /\
  (forall m o, In (EFinish m o) (log s) -> exists a c v, In (EBegin a m c v) (log s)).
Proof.
  intros ls s R. pose proof (always_legal _ _ R) as L.
  split; [intros m; exact (starts_once vfalse vdone _ m L)|].
  split; [intros m; exact (finishes_once vfalse vdone _ m L)|].
  intros m o; exact (finished_begun vfalse vdone _ m o L).
Qed.

(** When nothing is left to do, every message has finished, waits for its time, or is in the
    mailbox of an actor that waits for a message that has not finished; all outgoing messages
    have been sent. *)
Theorem C21_nothing_lost : forall ls s, run start ls s -> quiescent s ->
  (forall m B c, created m B c (log s) ->
     (exists o, In (EFinish m o) (log s)) \/ In m (timerQ s) \/
     (In m (mbox s B) /\ exists m' x, blocked_on vfalse (log s) B m' x)) /\
  (forall a, out s a = [] /\
     ((mbox s a = [] /\ running a (log s) = None /\ expect vfalse a (log s) = XNext) \/
      exists m r x, mbox s a = m :: r /\ blocked_on vfalse (log s) a m x)).
Proof.
  intros ls s R Q. by_run R.
  all: split; [exact (fun m B c => rest_message vfalse vdone s0 m B c W Q)|exact (fun a => rest_actor vfalse vdone s0 a W Q)].
Qed.

(** An actor with mail is being executed, will be, waits for an unfinished message, or its
    current message is just being finished. *)
Theorem C21_mail_not_forgotten : forall ls s a m r, run start ls s -> mbox s a = m :: r ->
  (exists t, executing s t a) \/ will_run s a \/ (exists m x, blocked_on vfalse (log s) a m x) \/
  (exists t o, In (ISetVal a m o) (todo s t) \/ In (IFreeze a m o) (todo s t) \/ In (IDeq a m) (todo s t)).
Proof. intros ls s a m r R H. by_run R; exact (mail_not_forgotten vfalse vdone s0 a m r W H). Qed.

(** A thread that has something to do, other than executing actor code, can do it. *)
Theorem C21_threads_not_stuck : forall ls s t i rest, run start ls s -> todo s t = i :: rest ->
  (exists s', step vfalse vdone shared s (LStep t) s') \/ exists a m c v, i = IRun a m c v.
Proof.
  intros ls s t i rest R E. destruct i; try (left; eexists; eapply step_step; [exact E|reflexivity]). right. eauto 6.
Qed.

(** ** C22 *)
Theorem C22_one_at_a_time : forall ls s, run start ls s ->
  (forall t t' a, executing s t a -> executing s t' a -> t = t') /\
  (forall t a a', executing s t a -> executing s t a' -> a = a') /\
  (forall q, NoDup (rq s q)) /\
  (forall a q q', ready_in s a q -> ready_in s a q' -> q = q') /\
  (forall a q t, ready_in s a q -> ~ executing s t a) /\
  (forall a m x, blocked_on vfalse (log s) a m x -> (forall q, ~ ready_in s a q) /\ forall t, ~ executing s t a).
Proof.
  intros ls s R. by_run R.
  all: pose proof (i_struct _ _ _ (w_inv _ _ _ W)) as S.
  all: split; [exact (fun t t' a => exec_unique (G:=False) s0 t t' a S)|].
  all: split; [intros t a a' (m & c & v & H) (m' & c' & v' & H');
    assert (K : todo s0 t = [IRun a m c v]) by exact (exec_one (G:=False) 0 s0 t a m c v S H);
    change (In (IRun a' m' c' v') (todo s0 t)) in H'; rewrite K in H'; destruct H' as [H'|[]]; congruence|].
  all: split; [exact (fun q => ready_nodup (G:=False) s0 q S)|].
  all: split; [exact (fun a q q' => ready_unique (G:=False) s0 q q' a S)|].
  all: split; [exact (fun a q t => ready_not_exec (G:=False) s0 q t a S)|].
  all: exact (fun a m x => blocked_idle vfalse vdone s0 a m x W).
Qed.

(** The same as seen in the history: an actor begins to execute only when it is not executing. *)
Theorem C22_history : forall ls s newer older a m c v, run start ls s ->
  log s = newer ++ EBegin a m c v :: older -> running a older = None.
Proof.
  intros ls s newer older a m c v R E. pose proof (always_legal _ _ R) as L. rewrite E in L.
  apply legal_at in L. apply L.
Qed.

(** ** C23 *)
(** When an actor that awaited [x] executes again, x has finished, it goes on with the same
    message, and its argument is the outcome. *)
Theorem C23_await_outcome : forall ls s a m c v newer older m' c' x, run start ls s ->
  log s = newer ++ EBegin a m c v :: older -> expect vfalse a older = XWait m' c' x ->
  running a older = None /\ m = m' /\
  exists o, In (EFinish x o) older /\ (forall o', In (EFinish x o') (log s) -> o' = o) /\
    match o with OVal r => c = c' /\ v = r | OExc e => c = CFail /\ v = e end.
Proof.
  intros ls s a m c v newer older m' c' x R E X. pose proof (always_legal _ _ R) as L. pose proof L as L'. rewrite E in L'.
  apply legal_at in L'. destruct L' as [R0 L']. rewrite X in L'. destruct L' as (-> & o & F & K).
  split; [assumption|]. split; [reflexivity|]. exists o. split; [assumption|]. split; [|assumption].
  intros o' F'. eapply finish_unique; eauto. rewrite E. apply in_app_iff. right. now right.
Qed.

Theorem C23_not_forgotten : forall ls s a m c x o, run start ls s -> running a (log s) = None ->
  expect vfalse a (log s) = XWait m c x -> In (EFinish x o) (log s) -> will_run s a.
Proof.
  intros ls s a m c x o R R0 X F. by_run R; exact (not_forgotten vfalse vdone s0 a m c x o W R0 X F).
Qed.

(** ** C24 *)
Theorem C24_visible_when_committed_partial : forall ls s, race_free start ls s -> discreet (log s).
Proof. intros ls s R. destruct (nice_inv _ _ _ _ _ _ _ _ R) as [_ N]. exact (n_discreet _ N). Qed.

Theorem C24_visible_when_committed_no_await : forall ls s, run start ls s -> Forall no_await ls -> discreet (log s).
Proof. intros ls s R F. apply (C24_visible_when_committed_partial ls). now apply no_await_free. Qed.

Theorem C24_visible_when_committed_one_thread_per_queue : forall (T : tid -> Prop) ls s,
  (forall t t' q, T t -> T t' -> serves shared t q = true -> serves shared t' q = true -> t = t') ->
  run start ls s -> Forall (confined shared T) ls -> discreet (log s).
Proof. intros T ls s A R F. apply (C24_visible_when_committed_partial ls). eapply confined_free; eauto. Qed.

(** ** C25 *)
Theorem C25_not_early : forall ls s A m d c newer older, run start ls s ->
  log s = newer ++ EAfter A m d c :: older ->
  exists m0 c0 v0, running A older = Some (m0, c0, v0) /\
    forall B now, In (EArrive B m now) (log s) -> B = A /\ (ltime m0 older + d <= now)%Z.
Proof. intros ls s A m d c newer older R. apply (after_not_early vfalse vdone). eapply always_legal; eauto. Qed.

Theorem C25_due_order : forall ls s, run start ls s -> fires_in_order (log s).
Proof. intros ls s R. by_run R; exact (timer_fires vfalse vdone s0 W). Qed.

Theorem C25_not_lost : forall ls s, run start ls s ->
  (forall m, In (ETimed m) (log s) -> In m (timerQ s) \/ exists now, In (EFire m now) (log s)) /\
  (forall m, ~ (In m (timerQ s) /\ exists now, In (EFire m now) (log s))) /\
  (forall m now newer older, log s = newer ++ EFire m now :: older ->
     In (ETimed m) older /\ (forall now', ~ In (EFire m now') older) /\ (ltime m older <= now)%Z).
Proof.
  intros ls s R. pose proof (always_legal _ _ R) as L. split; [|split].
  - by_run R; exact (t_in _ (w_tms _ _ _ W)).
  - by_run R; intros m (K & n & F); apply (a_fd _ (w_arr _ _ _ W)) in F; tauto.
  - intros m now newer older E. rewrite E in L. apply legal_at in L. destruct L as (L1 & L2 & _ & L3). auto.
Qed.

(** Delayed calls of one actor that are due at the same time fire in the order of the calls. *)
Theorem C25_sent_order_partial : forall ls s A m1 d1 c1 m2 d2 c2 now newer older, race_free start ls s ->
  precedes (EAfter A m1 d1 c1) (EAfter A m2 d2 c2) (log s) ->
  log s = newer ++ EFire m2 now :: older -> In (ETimed m1) older -> ltime m1 older = ltime m2 older ->
  exists now', In (EFire m1 now') older.
Proof.
  intros ls s A m1 d1 c1 m2 d2 c2 now newer older R P E T1 Eq.
  pose proof (race_free_run _ _ _ _ _ _ R) as R'. pose proof (always_legal _ _ R') as L.
  pose proof (C25_due_order _ _ R') as F. refine (F m1 m2 now newer older E T1 _). right. split; [assumption|].
  destruct (nice_inv _ _ _ _ _ _ _ _ R) as [_ N].
  pose proof (tord_inv _ _ _ _ _ _ _ _ R) as D.
  assert (T2 : In (ETimed m2) older) by (rewrite E in L; apply legal_at in L; apply L).
  assert (Lt : m1 < m2) by (eapply (o_inc _ (n_ordd _ N)); [exact P|reflexivity..]).
  apply precedes_in in P. destruct P as [P1 P2].
  assert (Q : precedes (ETimed m1) (ETimed m2) (log s)).
  { apply (d_ord _ D A); [..|rewrite E; apply in_app_iff; right; now right|rewrite E; apply in_app_iff; right; now right].
    - eexists. split; [exact P1|]. right. eauto.
    - eexists. split; [exact P2|]. right. eauto.
    - exact Lt. }
  eapply (timed_older vfalse vdone newer older m1 m2 (EFire m2 now)); rewrite <- ?E; auto. lia.
Qed.

(** ** C26 *)
(** A message finishes with an exception only if its last execution raised it outside of all try
    blocks, and with a result only if its last execution returned it. *)
Theorem C26_outcome : forall ls s m o newer older, run start ls s -> log s = newer ++ EFinish m o :: older ->
  exists a r h', last_return m older = Some (a, r, h') /\
    match o with OVal v => r = RDone v | OExc e => r = RFail e /\ handlers a h' = [] end.
Proof.
  intros ls s m o newer older R E. pose proof (always_legal _ _ R) as L. rewrite E in L. apply legal_at in L.
  destruct L as (_ & a & r & h' & L & K). exists a, r, h'. split; [assumption|].
  destruct r, o; try contradiction; [now subst|]. destruct K as [-> K]. auto.
Qed.

(** After an exception inside a try block the actor goes on with the innermost handler. *)
Theorem C26_innermost_handler : forall ls s a m m1 c v newer older e newer0 older0 c' y r, run start ls s ->
  log s = newer ++ EBegin a m1 c v :: older ->
  older = newer0 ++ EReturn a m (RFail e) :: older0 ->
  (forall m' r', ~ In (EReturn a m' r') newer0) ->
  handlers a older0 = (c', y) :: r ->
  m1 = m /\ c = c' /\ v = vfalse.
Proof.
  intros ls s a m m1 c v newer older e newer0 older0 c' y r R E E0 N H. pose proof (always_legal _ _ R) as L. rewrite E in L. apply legal_at in L.
  destruct L as [_ L].
  assert (X : expect vfalse a older = XCall m c' vfalse).
  { subst older. clear -N H. induction newer0 as [|ev n IH]; cbn [app expect].
    - rewrite Nat.eqb_refl, H. reflexivity.
    - assert (IH' : expect vfalse a (n ++ EReturn a m (RFail e) :: older0) = XCall m c' vfalse).
      { apply IH. intros m' r' K. apply (N m' r'). now right. }
      destruct ev; try exact IH'. destruct (Nat.eqb_spec a0 a) as [->|]; [|exact IH'].
      exfalso. apply (N m0 r0). now left. }
  rewrite X in L. tauto.
Qed.

(** ... and that handler obtains the exception when the block is left. *)
Theorem C26_handler_gets_exception : forall ls s a x newer older, run start ls s ->
  log s = newer ++ EPop a x :: older -> exists c r, handlers a older = (c, x) :: r.
Proof.
  intros ls s a x newer older R E. pose proof (always_legal _ _ R) as L. rewrite E in L. apply legal_at in L. apply L.
Qed.

(** After an exception outside of all try blocks the actor takes its next message: the next
    execution is the first one of a message all of whose predecessors have finished. *)
Theorem C26_actor_continues : forall ls s a m m1 c v newer older e newer0 older0, run start ls s ->
  log s = newer ++ EBegin a m1 c v :: older ->
  older = newer0 ++ EReturn a m (RFail e) :: older0 ->
  (forall m' r', ~ In (EReturn a m' r') newer0) ->
  handlers a older0 = [] ->
  m1 <> m /\ created m1 a c older /\ v = vdone /\
  (exists before after, arrivals a older = before ++ m1 :: after /\ forall m', In m' before -> exists o, In (EFinish m' o) older).
Proof.
  intros ls s a m m1 c v newer older e newer0 older0 R E E0 N H. pose proof (always_legal _ _ R) as L0. pose proof L0 as L. rewrite E in L. apply legal_at in L.
  destruct L as [_ L].
  assert (X : expect vfalse a older = XNext).
  { subst older. clear -N H. induction newer0 as [|ev n IH]; cbn [app expect].
    - rewrite Nat.eqb_refl, H. reflexivity.
    - assert (IH' : expect vfalse a (n ++ EReturn a m (RFail e) :: older0) = XNext).
      { apply IH. intros m' r' K. apply (N m' r'). now right. }
      destruct ev; try exact IH'. destruct (Nat.eqb_spec a0 a) as [->|]; [|exact IH'].
      exfalso. apply (N m0 r). now left. }
  rewrite X in L. destruct L as (L1 & L2 & L3 & L4). split; [|auto].
  intros ->. assert (Lr : legal (EReturn a m (RFail e) :: older0)).
  { rewrite E, E0 in L0. apply legal_older with (newer := newer ++ EBegin a m c v :: newer0).
    rewrite <- app_assoc. exact L0. }
  destruct (last_return_begun vfalse vdone (EReturn a m (RFail e) :: older0) m (a, RFail e, older0) Lr) as (b & c2 & v2 & K).
  - cbn [last_return]. now rewrite Nat.eqb_refl.
  - apply (L4 b c2 v2). rewrite E0. apply in_app_iff. now right.
Qed.

(** ** C56: no crash *)
Theorem C56_no_null_dereference_partial : forall ls s, race_free start ls s -> crashed s = false.
Proof. intros ls s R. destruct (nice_inv _ _ _ _ _ _ _ _ R) as [W _]. exact (i_ok _ _ _ (w_inv _ _ _ W)). Qed.

Theorem C56_no_null_dereference_no_await : forall ls s, run start ls s -> Forall no_await ls -> crashed s = false.
Proof. intros ls s R F. apply (C56_no_null_dereference_partial ls). now apply no_await_free. Qed.

Theorem C56_no_null_dereference_one_thread_per_queue : forall (T : tid -> Prop) ls s,
  (forall t t' q, T t -> T t' -> serves shared t q = true -> serves shared t' q = true -> t = t') ->
  run start ls s -> Forall (confined shared T) ls -> crashed s = false.
Proof. intros T ls s A R F. apply (C56_no_null_dereference_partial ls). eapply confined_free; eauto. Qed.
End Theorems.

Print Assumptions C21_C23_C26_legal.
Print Assumptions C20_fifo_partial.
Print Assumptions C20_fifo_no_await.
Print Assumptions C20_fifo_one_thread_per_queue.
Print Assumptions C21_one_place.
Print Assumptions C21_at_most_once.
Print Assumptions C21_nothing_lost.
Print Assumptions C21_mail_not_forgotten.
Print Assumptions C21_threads_not_stuck.
Print Assumptions C22_one_at_a_time.
Print Assumptions C22_history.
Print Assumptions C23_await_outcome.
Print Assumptions C23_not_forgotten.
Print Assumptions C24_visible_when_committed_partial.
Print Assumptions C24_visible_when_committed_no_await.
Print Assumptions C24_visible_when_committed_one_thread_per_queue.
Print Assumptions C25_not_early.
Print Assumptions C25_due_order.
Print Assumptions C25_not_lost.
Print Assumptions C25_sent_order_partial.
Print Assumptions C26_outcome.
Print Assumptions C26_innermost_handler.
Print Assumptions C26_handler_gets_exception.
Print Assumptions C26_actor_continues.
Print Assumptions C56_no_null_dereference_partial.
Print Assumptions C56_no_null_dereference_no_await.
Print Assumptions C56_no_null_dereference_one_thread_per_queue.

(** ** What the race does *)
Notation start2 := (init 0 0%Z (fun _ => 256)).

(** Actor 0 calls actor 2 twice; the second call is executed, the first one is not. *)
Theorem C20_fifo_refuted : exists ls (s : state nat nat), run 0 1 256 start2 ls s /\
  precedes (EAsync 0 2 3 (CUser 3)) (EAsync 0 2 4 (CUser 5)) (log s) /\
  In (EBegin 2 4 (CUser 5) 1) (log s) /\ (forall c v, ~ In (EBegin 2 3 c v) (log s)) /\ ~ fifo (log s).
Proof.
  destruct (go bad_order) as [s|] eqn:E; [|vm_compute in E; discriminate].
  exists bad_order, s. split; [now apply go_ok|]. vm_compute in E. injection E as <-. cbn [log].
  assert (P : forall h, precedes (EAsync 0 2 3 (CUser 3)) (EAsync 0 2 4 (CUser 5))
     (EBegin 2 4 (CUser 5) 1 :: EFinish 2 (OVal 8) :: EArrive 2 4 0%Z :: EReturn 0 2 (RDone 8) :: @EAsync nat nat 0 2 4 (CUser 5) ::
      EBegin 0 2 (CUser 4) 7 :: EFinish 1 (OVal 7) :: EReturn 1 1 (RDone 7) :: EReturn 0 2 (RWait (CUser 4) 1) :: EAsync 0 2 3 (CUser 3) :: h)).
  { intros h. eexists [_; _; _; _], [_; _; _; _], h. reflexivity. }
  split; [apply P|]. split; [now left|]. split.
  - intros c v H. repeat (destruct H as [H|H]; [discriminate H|]). destruct H.
  - intros F. destruct (F 0 2 3 (CUser 3) 4 (CUser 5) (CUser 5) 1 [] _ (P _) eq_refl) as (o & H).
    repeat (destruct H as [H|H]; [discriminate H|]). destruct H.
Qed.
Print Assumptions C20_fifo_refuted.

Theorem C56_no_null_dereference_refuted : exists ls (s : state nat nat), run 0 1 256 start2 ls s /\ crashed s = true.
Proof.
  destruct (go (bad_order ++ [LStep 1])) as [s|] eqn:E; [|vm_compute in E; discriminate].
  eexists _, s. split; [exact (go_ok _ _ E)|]. vm_compute in E. injection E as <-. reflexivity.
Qed.
Print Assumptions C56_no_null_dereference_refuted.

(** Message 3 arrives although its sender has not come to an end or an await since it was sent. *)
Theorem C24_visible_when_committed_refuted : exists ls (s : state nat nat), run 0 1 256 start2 ls s /\ ~ discreet (log s).
Proof.
  destruct (go bad_visible) as [s|] eqn:E; [|vm_compute in E; discriminate].
  eexists _, s. split; [exact (go_ok _ _ E)|]. vm_compute in E. injection E as <-. cbn [log].
  intros D. inversion D as [|? ? _ C]; subst. cbn [discreet_event] in C. destruct C as [(B & n & c & C)|C].
  - repeat (destruct C as [C|C]; [discriminate C|]). destruct C.
  - destruct C as (A & sd & nw & bt & ol & m0 & r & Sb & C & _).
    destruct nw as [|x nw]; [discriminate C|]. injection C as _ C.
    assert (K : In sd (nw ++ EReturn A m0 r :: bt ++ sd :: ol)).
    { apply in_app_iff. right. right. apply in_app_iff. right. now left. }
    rewrite <- C in K. destruct Sb as [(B & c & ->)|(d & c & ->)];
      repeat (destruct K as [K|K]; [discriminate K|]); destruct K.
Qed.
Print Assumptions C24_visible_when_committed_refuted.

(** Two delayed calls by actor 0, due at the same time: the second one fires and the first one does not. *)
Theorem C25_sent_order_refuted : exists ls (s : state nat nat), run 0 1 256 start2 ls s /\
  precedes (EAfter 0 3 5%Z (CUser 6)) (EAfter 0 5 5%Z (CUser 7)) (log s) /\
  ltime 3 (log s) = ltime 5 (log s) /\ In 3 (timerQ s) /\ In (EFire 5 5%Z) (log s).
Proof.
  destruct (go bad_timer) as [s|] eqn:E; [|vm_compute in E; discriminate].
  eexists _, s. split; [exact (go_ok _ _ E)|]. vm_compute in E. injection E as <-. cbn [log timerQ].
  split; [eexists [_; _; _; _; _; _], [_; _; _; _; _; _], _; reflexivity|]. split; [reflexivity|]. split; [now left|]. right. now left.
Qed.
Print Assumptions C25_sent_order_refuted.

(** ** The hypotheses are met *)
Lemma good_run : exists s, run 0 1 256 start2 P_RtsRun.good s /\ race_free 0 1 256 start2 P_RtsRun.good s /\ go P_RtsRun.good = Some s.
Proof.
  destruct (go P_RtsRun.good) as [s|] eqn:E; [|vm_compute in E; discriminate]. exists s. pose proof (go_ok _ _ E) as R.
  split; [exact R|]. split; [|reflexivity]. eapply (confined_free 0 1 256 (fun t => t = 0 \/ t = 1)); [| |exact R].
  - intros t t' q [->| ->] [->| ->] H H'; try reflexivity; unfold serves in *; cbn [Nat.eqb negb andb orb] in *; exfalso.
    + rewrite orb_false_r in H. apply Nat.eqb_eq in H. subst. discriminate.
    + rewrite orb_false_r in H'. apply Nat.eqb_eq in H'. subst. discriminate.
  - repeat (apply Forall_cons; [split; [intros t H; cbn in H; try contradiction; lia|exact I]|]). apply Forall_nil.
Qed.

(** One worker besides the main thread; two calls from actor 0 to actor 1 which are both executed,
    a delayed call, an await, an exception; everything comes to rest. *)
Example C20_C26_case : exists s, run 0 1 256 start2 P_RtsRun.good s /\ race_free 0 1 256 start2 P_RtsRun.good s /\
  precedes (EAsync 0 1 1 (CUser 1)) (EAsync 0 1 2 (CUser 2)) (log s) /\ In (EBegin 1 2 (CUser 2) 1) (log s) /\
  In (EBegin 0 0 (CUser 4) 7) (log s) /\ In (EFinish 0 (OExc 9)) (log s) /\ In (EFire 3 10%Z) (log s) /\
  starts 0 2 (log s) = 1 /\ mbox s 0 = [] /\ mbox s 1 = [] /\ timerQ s = [] /\ rq s 256 = [] /\ todo s 0 = [] /\ todo s 1 = [].
Proof.
  destruct good_run as (s & R & F & E). exists s. split; [exact R|]. split; [exact F|]. clear R F.
  vm_compute in E. injection E as <-. cbn [log mbox timerQ rq todo].
  split; [eexists (_ :: _ :: _ :: _ :: _ :: _ :: _ :: _ :: _ :: _ :: _ :: _ :: _ :: _ :: _ :: _ :: _ :: _ :: _ :: []), [], _; reflexivity|].
  repeat split; cbn; tauto.
Qed.

(** The same execution, when the shared queue has number 2, meets the hypothesis of C21_nothing_lost. *)
Example C21_case : let ls := map (fun l => match l with LDeq t _ => LDeq t 2 | _ => l end) P_RtsRun.good in
  exists s, run 0 1 2 (init 0 0%Z (fun _ => 2)) ls s /\ quiescent s /\ created 3 0 (CUser 3) (log s).
Proof.
  intros ls. destruct (runf Nat.eqb 0 1 2 (init 0 0%Z (fun _ => 2)) ls) as [s|] eqn:E; [|vm_compute in E; discriminate].
  exists s. split; [eapply (runf_ok Nat.eqb); [|exact E]; intros x y H; now apply Nat.eqb_eq|].
  vm_compute in E. injection E as <-. split.
  - split; [intros [|[|t]]; reflexivity|]. intros [|[|[|q]]]; reflexivity.
  - right. left. exists 10%Z. cbn [log]. repeat (first [left; reflexivity|right]).
Qed.

(** An exception in a try block: the handler runs and gets it, and the next message is not affected. *)
Example C26_case : exists s, run 0 1 256 start2 trying s /\ exists newer older0,
  log s = newer ++ EBegin 0 0 (CUser 5) 0 :: ([] ++ EReturn 0 0 (RFail 9) :: older0) /\
  handlers 0 older0 = [(CUser 5, None)] /\ In (EPop 0 (Some 9)) newer /\ In (EFinish 0 (OVal 3)) newer /\ mbox s 0 = [1] /\ rq s 256 = [0].
Proof.
  destruct (go trying) as [s|] eqn:E; [|vm_compute in E; discriminate]. exists s. split; [exact (go_ok _ _ E)|].
  vm_compute in E. injection E as <-. cbn [log mbox rq].
  eexists [_; _; _], _. repeat split; cbn; tauto.
Qed.

(** Actor 0 waits for message 1, actor 1 is ready to execute it. *)
Example C23_case : exists s, run 0 1 256 start2 P_RtsRun.waiting s /\
  blocked_on 0 (log s) 0 0 1 /\ mbox s 0 = [0] /\ rq s 256 = [1] /\ mbox s 1 = [1].
Proof.
  destruct (go P_RtsRun.waiting) as [s|] eqn:E; [|vm_compute in E; discriminate]. exists s. split; [exact (go_ok _ _ E)|].
  vm_compute in E. injection E as <-. cbn [log mbox rq].
  split; [|repeat split]. split; [reflexivity|]. split; [exists (CUser 4); reflexivity|].
  intros o H. cbn in H. intuition discriminate.
Qed.

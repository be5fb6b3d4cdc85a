(** Consequences of the invariant of the runtime. *)
From Verif Require Import Base S_Rts M_Rts S_RtsState P_RtsTok P_RtsPlace P_Rts1 P_Rts2 P_Rts3 P_Rts4 P_Rts5 P_Rts6 P_Rts7 P_Rts8 P_Rts9.
Local Open Scope nat_scope.

(** ** Facts about legal histories *)
Section Hist.
Context {U V : Type}.
Variable vfalse vdone : V.
Notation event := (event U V).
Notation legal := (@legal U V vfalse vdone).
Notation expect := (expect vfalse).

(** Executions that resume after an await had something to resume with. *)
Lemma running_waited (h : list event) a m c x r : legal h -> running a h = Some r ->
  expect a h = XWait m c x -> exists o, In (EFinish x o) h.
Proof.
  induction 1 as [|e h L IH Le]; intros R X; [discriminate|].
  assert (K : running a h = Some r -> expect a h = XWait m c x -> exists o, In (EFinish x o) (e :: h)).
  { intros A B. destruct (IH A B) as [o K]. exists o. now right. }
  destruct e; cbn [running S_Rts.expect] in R, X; auto.
  - destruct (Nat.eqb_spec a0 a) as [->|N]; [|auto]. destruct Le as [_ Le]. rewrite X in Le.
    destruct Le as (_ & o & Le & _). exists o. now right.
  - destruct (Nat.eqb_spec a0 a) as [->|N]; [discriminate|auto].
Qed.

Lemma starts_begun (h : list event) m : starts vfalse m h <> 0 -> exists a c v, In (EBegin a m c v) h.
Proof.
  induction h as [|e h IH]; cbn [starts]; [congruence|]. intros H.
  destruct e; try (destruct (IH H) as (a' & c' & v' & K); exists a', c', v'; now right).
  destruct (Nat.eqb_spec m0 m) as [->|N]; [exists a, c, v; now left|].
  destruct (IH H) as (a' & c' & v' & K). exists a', c', v'. now right.
Qed.
Lemma starts_once (h : list event) m : legal h -> starts vfalse m h <= 1.
Proof.
  induction 1 as [|e h L IH Le]; cbn [starts]; [lia|]. destruct e; auto.
  destruct (Nat.eqb_spec m0 m) as [->|N]; [|assumption].
  destruct Le as [_ Le]. destruct (expect a h); [|assumption..].
  destruct Le as (_ & _ & _ & Le).
  destruct (Nat.eq_dec (starts vfalse m h) 0) as [E|E]; [lia|].
  apply starts_begun in E. destruct E as (a' & c' & v' & K). exfalso. eapply Le; eauto.
Qed.
Lemma finishes_in (h : list event) m : finishes m h <> 0 -> exists o, In (EFinish m o) h.
Proof.
  induction h as [|e h IH]; cbn [finishes]; [congruence|]. intros H.
  destruct e; try (destruct (IH H) as (o' & K); exists o'; now right).
  destruct (Nat.eqb_spec m0 m) as [->|N]; [exists o; now left|].
  destruct (IH H) as (o' & K). exists o'. now right.
Qed.
Lemma finishes_once (h : list event) m : legal h -> finishes m h <= 1.
Proof.
  induction 1 as [|e h L IH Le]; cbn [finishes]; [lia|]. destruct e; auto.
  destruct (Nat.eqb_spec m0 m) as [->|N]; [|assumption].
  destruct Le as [Le _].
  destruct (Nat.eq_dec (finishes m h) 0) as [E|E]; [lia|].
  apply finishes_in in E. destruct E as (o' & K). exfalso. eapply Le; eauto.
Qed.

Lemma legal_older (newer older : list event) : legal (newer ++ older) -> legal older.
Proof. induction newer as [|e n IH]; cbn; [auto|]. intros H. inversion H; subst. auto. Qed.
Lemma legal_at (newer older : list event) e : legal (newer ++ e :: older) -> legal_event vfalse vdone older e.
Proof. intros H. apply legal_older in H. now inversion H. Qed.

Lemma finish_unique (h : list event) m o o' : legal h -> In (EFinish m o) h -> In (EFinish m o') h -> o = o'.
Proof.
  induction 1 as [|e h L IH Le]; [contradiction|]. intros [->|H1] [E|H2].
  - congruence.
  - exfalso. destruct Le as [Le _]. eapply Le; eauto.
  - subst. exfalso. destruct Le as [Le _]. eapply Le; eauto.
  - auto.
Qed.

Lemma last_return_begun (h : list event) m r : legal h -> last_return m h = Some r -> exists a c v, In (EBegin a m c v) h.
Proof.
  assert (R : forall (h : list event) a m (c : cont U) (v : V), running a h = Some (m, c, v) -> In (EBegin a m c v) h).
  { clear. induction h as [|e h IH]; cbn [running]; [discriminate|]. intros a m c v H.
    destruct e; try (right; auto; fail).
    - destruct (Nat.eqb_spec a0 a) as [->|N]; [injection H as -> -> ->; now left|right; auto].
    - destruct (Nat.eqb_spec a0 a) as [->|N]; [discriminate|right; auto]. }
  induction 1 as [|e h L IH Le]; cbn [last_return]; [discriminate|]. intros H.
  destruct e; try (destruct (IH H) as (a' & c' & v' & K); exists a', c', v'; now right).
  destruct (Nat.eqb_spec m0 m) as [->|N].
  - destruct Le as (c & v & Le & _). exists a, c, v. right. auto.
  - destruct (IH H) as (a' & c' & v' & K). exists a', c', v'. now right.
Qed.
Lemma finished_begun (h : list event) m o : legal h -> In (EFinish m o) h -> exists a c v, In (EBegin a m c v) h.
Proof.
  induction 1 as [|e h L IH Le]; [contradiction|]. intros [->|H].
  - destruct Le as (_ & a & r & h' & Le & _). eapply last_return_begun in Le; [|assumption].
    destruct Le as (a' & c & v & K). exists a', c, v. now right.
  - destruct (IH H) as (a' & c' & v' & K). exists a', c', v'. now right.
Qed.
Lemma in_precedes (e1 e2 : event) h : In e1 h -> In e2 h -> e1 <> e2 -> precedes e1 e2 h \/ precedes e2 e1 h.
Proof.
  induction h as [|e h IH]; [contradiction|]. intros K1 K2 N. rewrite !precedes_cons.
  destruct K1 as [->|K1], K2 as [->|K2]; [contradiction|right; right; auto|left; right; auto|].
  destruct (IH K1 K2 N); auto.
Qed.
Lemma timed_older (newer older : list event) m1 m2 e : legal (newer ++ e :: older) ->
  In (ETimed m1) older -> In (ETimed m2) older -> precedes (ETimed m1) (ETimed m2) (newer ++ e :: older) ->
  m1 <> m2 -> precedes (ETimed m1) (ETimed m2) older.
Proof.
  intros L K1 K2 P N. destruct (in_precedes (ETimed m1) (ETimed m2) older K1 K2) as [Q|Q]; [congruence|exact Q|].
  exfalso. eapply legal_timed_once; [exact L|exact P|].
  destruct Q as (nw & bt & ol & ->). exists (newer ++ e :: nw), bt, ol. now rewrite <- app_assoc.
Qed.

(** The logical time of a message does not change. *)
Lemma ltime_stable (newer h : list event) m B c : legal (newer ++ h) -> created m B c h -> ltime m (newer ++ h) = ltime m h.
Proof.
  intros L C. induction newer as [|e n IH]; [reflexivity|]. cbn [app] in *. inversion L as [|? ? L' Le]; subst.
  assert (C' : created m B c (n ++ h)).
  { eapply created_mono; [|exact C]. intros x K. apply in_app_iff. now right. }
  rewrite <- (IH L'). destruct e; cbn [ltime]; try reflexivity.
  - destruct (Nat.eqb_spec m0 m) as [->|]; [|reflexivity]. destruct Le as [Le _]. exfalso. eapply Le; eauto.
  - destruct (Nat.eqb_spec m0 m) as [->|]; [|reflexivity]. destruct Le as [Le _]. exfalso. eapply Le; eauto.
  - destruct (Nat.eqb_spec m0 m) as [->|]; [|reflexivity]. exfalso. eapply Le; eauto.
Qed.

Lemma created_to (h : list event) m B c B' c' : legal h -> created m B c h -> created m B' c' h -> B = B' /\ c = c'.
Proof.
  intros L C C'.
  assert (K : forall B c, created m B c h -> exists e, In e h /\ creates m e /\
     match e with EAsync _ B0 _ c0 | EAfter B0 _ _ c0 | EExt B0 _ _ c0 => B0 = B /\ c0 = c | _ => False end).
  { clear. intros B c [(A & K)|[(d & K)|(n & K)]]; (eexists; split; [exact K|]); cbn; auto. }
  destruct (K _ _ C) as (e & I & Cr & M). destruct (K _ _ C') as (e' & I' & Cr' & M').
  assert (e = e') by (eapply legal_uniq; eauto). subst e'. destruct e; try contradiction; destruct M, M'; split; congruence.
Qed.

Lemma legal_inv (h : list event) e : legal h -> In e h -> exists newer older, h = newer ++ e :: older /\ legal_event vfalse vdone older e.
Proof.
  intros L K. apply in_split in K. destruct K as (n & o & ->). exists n, o. split; [reflexivity|]. eapply legal_at; eauto.
Qed.

Lemma after_not_early (h : list event) A m d c newer older : legal h -> h = newer ++ EAfter A m d c :: older ->
  exists m0 c0 v0, running A older = Some (m0, c0, v0) /\
    forall B now, In (EArrive B m now) h -> B = A /\ (ltime m0 older + d <= now)%Z.
Proof.
  intros L E. pose proof L as L0. rewrite E in L. pose proof (legal_at _ _ _ L) as (_ & [[m0 c0] v0] & R).
  exists m0, c0, v0. split; [assumption|]. intros B now K.
  assert (C0 : created m A c (EAfter A m d c :: older)) by (right; left; exists d; now left).
  assert (C : created m A c h).
  { rewrite E. eapply created_mono; [|exact C0]. intros x J. apply in_app_iff. now right. }
  pose proof L0 as L1. apply (legal_inv h) in K; [|exact L0]. destruct K as (n1 & o1 & E1 & (c1 & C1) & _ & T).
  assert (C1' : created m B c1 h).
  { rewrite E1. eapply created_mono; [|exact C1]. intros x J. apply in_app_iff. right. now right. }
  destruct (created_to _ _ _ _ _ _ L0 C1' C) as [-> _]. split; [reflexivity|].
  assert (T1 : ltime m h = ltime m o1).
  { rewrite E1. change (n1 ++ EArrive A m now :: o1) with (n1 ++ [EArrive A m now] ++ o1). rewrite app_assoc.
    eapply ltime_stable; [|exact C1]. rewrite <- app_assoc. cbn. now rewrite <- E1. }
  assert (T2 : ltime m h = (ltime m0 older + d)%Z).
  { rewrite E. erewrite ltime_stable; [|exact L|exact C0]. cbn [ltime]. now rewrite Nat.eqb_refl, R. }
  lia.
Qed.
End Hist.

Section L10.
Context {U V : Type} {G : Prop}.
Variable vfalse vdone : V.
Variable shared : nat.
Notation struct := (@struct U V G).
Notation instr := (instr U V).
Notation state := (state U V).
Notation event := (event U V).
Notation whole := (@whole U V G vfalse vdone).

Lemma some_phase (s : state) a : struct s -> exists ph, at_phase s a ph.
Proof.
  intros (loc & place & I & _ & _). destruct (loc a) as [|q|t|t|x] eqn:L.
  - exists PhIdle. constructor. now apply (ti_box _ _ I).
  - exists PhReady. apply (at_rq _ _ q). now apply (ti_rq _ _ I).
  - apply (ti_p _ _ I) in L. apply in_flat_map in L. destruct L as (i & Hi & K).
    destruct i; cbn in K; try (destruct K; fail); destruct K as [->|[]]; eexists; (eapply at_todo; [exact Hi|reflexivity]).
  - apply (ti_x _ _ I) in L. apply in_flat_map in L. destruct L as (i & Hi & K).
    destruct i; cbn in K; try (destruct K; fail); destruct K as [->|[]]; eexists; (eapply at_todo; [exact Hi|reflexivity]).
  - exists (PhWait x). constructor. now apply (ti_w _ _ I).
Qed.

Lemma exec_unique (s : state) t t' a : struct s -> executing s t a -> executing s t' a -> t = t'.
Proof.
  intros (loc & place & I & _ & _) (m & c & v & H) (m' & c' & v' & H').
  pose proof (xtok_loc _ _ _ _ a I H eq_refl). pose proof (xtok_loc _ _ _ _ a I H' eq_refl). congruence.
Qed.
Lemma exec_one (s : state) t a m c v : struct s -> In (IRun a m c v) (todo s t) -> todo s t = [IRun a m c v].
Proof.
  intros (loc & place & I & _ & _) H. pose proof (ti_shape _ _ I t) as Sh.
  assert (F : forall b f, fin b f -> In (IRun a m c v) f -> False) by (intros b f []; cbn; intuition discriminate).
  assert (Sd : forall b f, sends b f -> In (IRun a m c v) f -> False).
  { induction 1; [eauto|]. intros [?|?]; [discriminate|auto]. }
  assert (Wk : forall b n f, wakes b n f -> In (IRun a m c v) f -> False).
  { induction 1; intros [?|?]; try discriminate; auto. }
  destruct Sh; try (exfalso; eauto; fail); try (destruct H as [H|H]; try discriminate; try (exfalso; eauto; fail));
    try (destruct H; fail). now rewrite H.
Qed.
Lemma ready_unique (s : state) q q' a : struct s -> ready_in s a q -> ready_in s a q' -> q = q'.
Proof.
  intros (loc & place & I & _ & _) H H'. apply (ti_rq _ _ I) in H. apply (ti_rq _ _ I) in H'. congruence.
Qed.
Lemma ready_nodup (s : state) q : struct s -> NoDup (rq s q).
Proof. intros (loc & place & I & _ & _). apply (ti_rq_nd _ _ I). Qed.
Lemma ready_not_exec (s : state) q t a : struct s -> ready_in s a q -> ~ executing s t a.
Proof.
  intros (loc & place & I & _ & _) H (m & c & v & H'). apply (ti_rq _ _ I) in H.
  pose proof (xtok_loc _ _ _ _ a I H' eq_refl). congruence.
Qed.

Lemma blocked_idle (s : state) a m x : whole s -> blocked_on vfalse (log s) a m x ->
  (forall q, ~ ready_in s a q) /\ (forall t, ~ executing s t a).
Proof.
  intros W (R & (c & X) & N). pose proof (i_ph _ _ _ (w_inv _ _ _ W)) as P. split.
  - intros q H. assert (K : phase_ok vfalse vdone s a PhReady) by (apply P; econstructor; exact H).
    destruct K as (m' & c' & _ & _ & _ & K). unfold next_ok in K. rewrite X in K.
    destruct K as (_ & o & K & _). eapply N; eauto.
  - intros t (m' & c' & v' & H).
    assert (K : phase_ok vfalse vdone s a (PhRun m' c' v')) by (apply P; eapply at_todo; [exact H|reflexivity]).
    destruct K as (_ & K & _). congruence.
Qed.

(** ** Places of messages *)
Lemma located (s : state) m B c : whole s -> created m B c (log s) -> exists! p, is_at s m p.
Proof.
  intros W C. pose proof (w_inv _ _ _ W) as Iv.
  destruct (bk_old _ (i_book _ _ _ Iv) _ _ _ C) as [Hm Eto].
  pose proof (i_struct _ _ _ Iv) as S. destruct S as (loc & place & I & P & Hh).
  assert (At : forall p, is_at s m p -> match p with
     | AtSender a => place m = POut a | AtThread t => place m = PFlight t | AtTimer => place m = PTimer
     | AtMailbox a => place m = PMbox a | Gone => (exists o, In (EFinish m o) (log s)) /\ forall a, ~ In m (mbox s a) end).
  { intros [a|t| |a|] H; cbn in H.
    - now apply (pl_out _ _ P).
    - apply (pl_fl _ _ P). apply in_flat_map. destruct H as [(a & H)|H]; eexists; (split; [exact H|now left]).
    - now apply (pl_tm _ _ P).
    - now apply (pl_box _ _ P).
    - exact H. }
  assert (Ng : (exists o, In (EFinish m o) (log s)) -> ~ pend s m).
  { intros (o & F) Hp. destruct (finished_begun _ _ _ _ _ (w_legal _ _ _ W) F) as (a' & c' & v' & Bg).
    assert (Un : unstarted m (log s)).
    { apply (gl_un _ _ (i_gl _ _ _ Iv)). unfold waiting. destruct Hp as [Hp|[(a & t & Hp)|[(t & Hp)|Hp]]]; auto.
      - right. left. exists t. apply in_flat_map. eexists. split; [exact Hp|now left].
      - right. left. exists t. apply in_flat_map. eexists. split; [exact Hp|now left]. }
    exact (Un _ _ _ Bg). }
  assert (Uq : forall p p', is_at s m p -> is_at s m p' -> p = p').
  { intros p p' H H'. pose proof (At _ H) as A. pose proof (At _ H') as A'.
    destruct p, p'; try congruence; try reflexivity;
      try (exfalso; destruct A as [F A]; first [eapply A; exact H'|apply (Ng F); unfold pend, sending, enqing; cbn in H'; destruct H' as [(? & ?)|?]; eauto 6|apply (Ng F); unfold pend; cbn in H'; eauto 6]);
      try (exfalso; destruct A' as [F A']; first [eapply A'; exact H|apply (Ng F); unfold pend, sending, enqing; cbn in H; destruct H as [(? & ?)|?]; eauto 6|apply (Ng F); unfold pend; cbn in H; eauto 6]). }
  assert (Ex : exists p, is_at s m p).
  { destruct (w_tracked _ _ _ W m Hm) as [Ar|[(a & K)|[(a & t & K)|[(t & K)|K]]]].
    - destruct (a_all _ (w_arr _ _ _ W) (mto s m)) as (dn & Ea & Fd). rewrite Ea in Ar. apply in_app_iff in Ar.
      destruct (in_dec Nat.eq_dec m (mbox s (mto s m))) as [Hb|Nb]; [exists (AtMailbox (mto s m)); exact Hb|].
      destruct Ar as [Ar|Ar]; [|contradiction]. exists Gone. split; [auto|].
      intros a Hb. apply (pl_box _ _ P) in Hb. pose proof (pl_to _ _ P _ _ Hb) as Et. subst a.
      apply (pl_box _ _ P) in Hb. contradiction.
    - exists (AtSender a). exact K.
    - exists (AtThread t). left. eauto.
    - exists (AtThread t). right. exact K.
    - exists AtTimer. exact K. }
  destruct Ex as [p Hp]. exists p. split; [exact Hp|]. intros p' Hp'. eauto.
Qed.

Lemma boxes (s : state) : whole s ->
  (forall a, NoDup (mbox s a)) /\ NoDup (timerQ s) /\ (forall a, NoDup (out s a)) /\
  (forall a m, In m (mbox s a) -> exists c, created m a c (log s)).
Proof.
  intros W. pose proof (w_inv _ _ _ W) as Iv. pose proof (i_struct _ _ _ Iv) as (loc & place & I & P & Hh).
  split; [apply (pl_box_nd _ _ P)|]. split; [apply (pl_tm_nd _ _ P)|]. split; [apply (pl_out_nd _ _ P)|].
  intros a m H. apply (pl_box _ _ P) in H. rewrite <- (pl_to _ _ P _ _ H).
  apply (bk_new _ (i_book _ _ _ Iv)).
  destruct (Nat.lt_ge_cases m (next s)) as [L|L]; [assumption|]. apply (pl_new _ _ P) in L. congruence.
Qed.

(** ** Nobody is forgotten *)
Lemma not_forgotten (s : state) a m c x o : whole s -> running a (log s) = None ->
  expect vfalse a (log s) = XWait m c x -> In (EFinish x o) (log s) -> will_run s a.
Proof.
  intros W R X F. pose proof (w_inv _ _ _ W) as Iv. pose proof (i_ph _ _ _ Iv) as P. pose proof (i_gl _ _ _ Iv) as Gl.
  destruct (some_phase s a (i_struct _ _ _ Iv)) as [ph Hp]. pose proof (P _ _ Hp) as K. unfold will_run, ready_in.
  destruct Hp as [H|q H|x' H|t i ph H E].
  - destruct K as [_ K]. congruence.
  - left. eauto.
  - destruct K as (m' & (c' & _ & _ & _ & K & _) & _). rewrite X in K. injection K as -> -> ->.
    apply (gl_wt _ _ Gl) in H. destruct (gl_fin _ _ Gl _ _ F) as (_ & E & _). rewrite E in H. destruct o; discriminate.
  - right. exists t, i. split; [assumption|].
    destruct i; cbn in E; try discriminate; injection E as -> <-; eauto 8.
    + destruct K as (_ & K & _). congruence.
    + destruct K as ((_ & _ & K & _) & _). congruence.
    + destruct K as ((_ & _ & K & _) & _). congruence.
    + destruct K as ((_ & _ & K & _) & _). congruence.
Qed.

(** An actor with something to do will run, or is running. *)
Lemma mail_not_forgotten (s : state) a m r : whole s -> mbox s a = m :: r ->
  (exists t, executing s t a) \/ will_run s a \/ (exists m x, blocked_on vfalse (log s) a m x) \/
  (exists t o, In (ISetVal a m o) (todo s t) \/ In (IFreeze a m o) (todo s t) \/ In (IDeq a m) (todo s t)).
Proof.
  intros W B. pose proof (w_inv _ _ _ W) as Iv. pose proof (i_ph _ _ _ Iv) as P. pose proof (i_gl _ _ _ Iv) as Gl.
  pose proof (i_struct _ _ _ Iv) as S.
  assert (Hd : forall t i a' m', In i (todo s t) -> works_on i = Some (a', m') -> exists r, mbox s a' = m' :: r).
  { destruct S as (? & ? & _ & _ & H). exact H. }
  destruct (some_phase s a S) as [ph Hp]. pose proof (P _ _ Hp) as K. unfold will_run, ready_in, executing.
  destruct Hp as [H|q H|x' H|t i ph H E].
  - congruence.
  - right. left. left. eauto.
  - right. right. left. destruct K as (m' & (c' & _ & _ & R & K & _) & _). exists m', x'. split; [assumption|]. split; [eauto|].
    intros o F. apply (gl_wt _ _ Gl) in H. destruct (gl_fin _ _ Gl _ _ F) as (_ & E & _). rewrite E in H. destruct o; discriminate.
  - destruct i; cbn in E; try discriminate; injection E as -> <-; eauto 12.
    + destruct (Hd t _ a m0 H eq_refl) as [r' E]. rewrite B in E. injection E as <- _. eauto 12.
    + destruct (Hd t _ a m0 H eq_refl) as [r' E]. rewrite B in E. injection E as <- _. eauto 12.
    + destruct (Hd t _ a m0 H eq_refl) as [r' E]. rewrite B in E. injection E as <- _.
      do 3 right. exists t, (OVal vfalse). auto.
    + right. left. right. exists t. eexists. split; [exact H|]. eauto 8.
    + right. left. right. exists t. eexists. split; [exact H|]. eauto 8.
Qed.

(** ** When everything has come to rest *)
Lemma rest_actor (s : state) a : whole s -> quiescent s ->
  out s a = [] /\
  ((mbox s a = [] /\ running a (log s) = None /\ expect vfalse a (log s) = XNext) \/
   exists m r x, mbox s a = m :: r /\ blocked_on vfalse (log s) a m x).
Proof.
  intros W [Q1 Q2]. pose proof (w_inv _ _ _ W) as Iv. pose proof (i_ph _ _ _ Iv) as P. pose proof (i_gl _ _ _ Iv) as Gl.
  destruct (some_phase s a (i_struct _ _ _ Iv)) as [ph Hp]. pose proof (P _ _ Hp) as K.
  pose proof (w_settled _ _ _ W a) as St.
  assert (So : running a (log s) = None -> (forall m c v, expect vfalse a (log s) <> XCall m c v) -> out s a = []).
  { intros R X. destruct St as [St|[St|[(m & c & v & St)|(t & St)]]]; [assumption|congruence|exfalso; eapply X; eauto|].
    rewrite Q1 in St. destruct St as [[]|(? & ? & [])]. }
  destruct Hp as [H|q H|x H|t i ph H E].
  - destruct K as [R X]. split; [apply So; [assumption|congruence]|]. now left.
  - rewrite Q2 in H. destruct H.
  - destruct K as (m & (c & (r & Hm) & _ & R & X & _) & _). split; [apply So; [assumption|congruence]|].
    right. exists m, r, x. split; [assumption|]. split; [assumption|]. split; [eauto|].
    intros o F. apply (gl_wt _ _ Gl) in H. destruct (gl_fin _ _ Gl _ _ F) as (_ & E & _). rewrite E in H. destruct o; discriminate.
  - rewrite Q1 in H. destruct H.
Qed.

Lemma rest_message (s : state) m B c : whole s -> quiescent s -> created m B c (log s) ->
  (exists o, In (EFinish m o) (log s)) \/ In m (timerQ s) \/
  (In m (mbox s B) /\ exists m' x, blocked_on vfalse (log s) B m' x).
Proof.
  intros W Q C. destruct (located s m B c W C) as (p & Hp & _). destruct p as [a|t| |a|]; cbn in Hp.
  - destruct (rest_actor s a W Q) as [E _]. rewrite E in Hp. destruct Hp.
  - destruct Q as [Q _]. rewrite Q in Hp. destruct Hp as [(? & [])|[]].
  - auto.
  - destruct (boxes s W) as (_ & _ & _ & Bx). destruct (Bx _ _ Hp) as [c' C'].
    pose proof (w_inv _ _ _ W) as Iv. destruct (bk_old _ (i_book _ _ _ Iv) _ _ _ C) as [_ E].
    destruct (bk_old _ (i_book _ _ _ Iv) _ _ _ C') as [_ E']. rewrite <- E', E in Hp.
    destruct (rest_actor s B W Q) as [_ [[E0 _]|(m' & r & x & _ & K)]]; [rewrite E0 in Hp; destruct Hp|]. eauto 7.
  - left. apply Hp.
Qed.

(** ** Timers *)
Lemma timer_fires (s : state) : whole s -> fires_in_order (log s).
Proof.
  intros W m1 m2 n nw ol E K1 Bf.
  pose proof (t_order _ (w_tms _ _ _ W)) as T. pose proof (w_legal _ _ _ W) as L. rewrite E in L.
  destruct (legal_at _ _ _ _ _ L) as (K2 & _). eapply T; eauto.
Qed.
End L10.

(** ** All executions *)
Section Runs10.
Context {U V : Type}.
Variable vfalse vdone : V.
Variable shared : nat.
Notation state := (state U V).

Lemma run_inv (v0 : V) t0 aff0 ls (s : state) : run vfalse vdone shared (init v0 t0 aff0) ls s ->
  exists s0, @whole U V False vfalse vdone s0 /\ (s = s0 \/ s = crash s0).
Proof. intros R. eapply run_whole; eauto. apply whole_init. exact shared. Qed.

Lemma nice_inv (v0 : V) t0 aff0 ls (s : state) : race_free vfalse vdone shared (init v0 t0 aff0) ls s ->
  @whole U V True vfalse vdone s /\ nice s.
Proof. intros R. eapply race_free_nice; eauto. - apply whole_init. exact shared. - apply nice_init. Qed.

Lemma race_free_run (s : state) ls s' : race_free vfalse vdone shared s ls s' -> run vfalse vdone shared s ls s'.
Proof. induction 1; econstructor; eauto. Qed.
End Runs10.

(** Delayed calls of one actor reach the timer in the order of the calls (race-free executions). *)
From Verif Require Import Base S_Rts M_Rts S_RtsState P_RtsTok P_RtsPlace P_Rts1 P_Rts2 P_Rts3 P_Rts4 P_Rts5 P_Rts6 P_Rts7 P_Rts8 P_Rts9 P_Rts10.
From Coq Require Import Sorted.
Local Open Scope nat_scope.

Section L11.
Context {U V : Type} {G : Prop}.
Variable vfalse vdone : V.
Variable shared : nat.
Notation struct := (@struct U V G).
Notation instr := (instr U V).
Notation state := (state U V).
Notation event := (event U V).
Notation step := (step vfalse vdone shared).
Notation inv := (@inv U V G vfalse vdone).
Notation trans := (trans vfalse vdone).
Notation legal := (legal vfalse vdone).

Definition held (s : state) (A : aid) (m : mid) : Prop := In m (out s A) \/ sending s A m.
Definition sentlog (A : aid) (m : mid) (h : list event) : Prop := exists e, In e h /\ sent_by A m e.

Record tord (s : state) : Prop := {
  d_keep : forall A m1 m2, sentlog A m1 (log s) -> sentlog A m2 (log s) -> m1 < m2 -> held s A m1 -> held s A m2;
  d_ord : forall A m1 m2, sentlog A m1 (log s) -> sentlog A m2 (log s) -> m1 < m2 ->
    In (ETimed m1) (log s) -> In (ETimed m2) (log s) -> precedes (ETimed m1) (ETimed m2) (log s)
}.

Lemma sent_creates A m (e : event) : sent_by A m e -> creates m e.
Proof. intros [(B & c & ->)|(d & c & ->)]; reflexivity. Qed.
Lemma sentlog_fun (h : list event) A A' m : legal h -> sentlog A m h -> sentlog A' m h -> A = A'.
Proof.
  intros L (e & K & S) (e' & K' & S').
  assert (E : e = e') by (eapply legal_uniq; eauto using sent_creates). subst e'.
  destruct S as [(B & c & ->)|(d & c & ->)], S' as [(B' & c' & E)|(d' & c' & E)]; congruence.
Qed.

Lemma tord_same (s s' : state) : tord s ->
  (forall A m, sentlog A m (log s') -> sentlog A m (log s)) ->
  (forall A m, held s' A m <-> held s A m) ->
  (forall m, In (ETimed m) (log s') -> In (ETimed m) (log s)) ->
  (forall m1 m2, precedes (ETimed m1) (ETimed m2) (log s) -> precedes (ETimed m1) (ETimed m2) (log s')) ->
  tord s'.
Proof.
  intros [D1 D2] H1 H2 H3 H4. constructor.
  - intros A m1 m2 S1 S2 Lt. rewrite !H2. apply D1; auto.
  - intros A m1 m2 S1 S2 Lt K1 K2. apply H4. apply (D2 A); auto.
Qed.

Lemma sentlog_cons A m e (h : list event) : ~ sent_by A m e -> sentlog A m (e :: h) -> sentlog A m h.
Proof. intros N (e' & [->|K] & S); [contradiction|]. exists e'. auto. Qed.
Lemma prec_cons e1 e2 e (h : list event) : precedes e1 e2 h -> precedes e1 e2 (e :: h).
Proof. intros H. apply precedes_cons. now left. Qed.
Lemma not_sent A m (e : event) : not_create e -> ~ sent_by A m e.
Proof. intros N [(B & c & ->)|(d & c & ->)]; exact N. Qed.

(** Sending the first message of a thread's list. *)
Lemma held_first (s : state) t a m rest A m1 : G -> struct s -> sent s -> ordd s -> legal (log s) ->
  todo s t = ISend a m :: rest -> sentlog A m1 (log s) -> sentlog A m (log s) -> m1 < m -> ~ held s A m1.
Proof.
  intros g S Hs O L Ht S1 S2 Lt H.
  assert (Sd : sending s a m) by (exists t; rewrite Ht; now left).
  assert (Ea : A = a).
  { destruct (h_sent _ Hs a m (or_intror Sd)) as (m0 & _ & [(B & c & K & _)|(d & c & K & _)]);
      (eapply sentlog_fun; [exact L|exact S2|]); eexists; (split; [exact K|]); [left|right]; eauto. }
  subst A. destruct H as [H|(t' & H)]; [rewrite (o_send _ O _ _ Sd) in H; destruct H|].
  destruct S as (loc & place & TI & _).
  assert (t' = t).
  { apply (ti_one _ _ TI t' t a); (split; [exact g|]); right; [eauto|]. exists m. rewrite Ht. now left. }
  subst t'. pose proof (o_fl _ O t) as So. rewrite Ht in H, So. cbn in So. destruct H as [H|H]; [injection H as ->; lia|].
  inversion So as [|? ? _ F]; subst. rewrite Forall_forall in F. specialize (F m1).
  assert (m < m1); [|lia]. apply F. apply in_flat_map. eexists. split; [exact H|now left].
Qed.

Lemma tord_step (s s' : state) : G -> inv s -> struct s' -> sent s -> arr s -> legal (log s) -> ordd s -> tord s -> trans s s' -> tord s'.
Proof.
  intros g Iv S' Hs Ha L O D T.
  pose proof (i_struct _ _ _ Iv) as S. pose proof (i_book _ _ _ Iv) as Bk.
  destruct T as [t l' oe Pl Eo Etm Ebox En Eto Eba Ck El Q Etd Ef Qf Qe Ql
                |t a m c v B c' d e Ht Hh Hr He ->|t B c Ht ->|t a rest Ht Hfin ->
                |t i m rest l' Ht Hi Hl' ->|t a m rest m0 Ht Hh Hne ->|t m r Ht Hq Hle ->|t a m r l' Ht Hbox Hl' Hf ->].
  - assert (Mi : forall t' i, is_msg i = true -> In i (todo s' t') -> In i (todo s t')).
    { intros t' i Hm K. destruct (todo_in _ _ _ _ _ _ Etd K) as [[-> K']|[_ K']]; [eapply msg_in; eauto|assumption]. }
    assert (Mo : forall t' i, is_msg i = true -> In i (todo s t') -> In i (todo s' t')).
    { intros t' i Hm K. rewrite Etd. unfold upd. destruct (Nat.eqb_spec t' t) as [Et|]; [subst|assumption].
      eapply msg_in; [symmetry; exact Ef|assumption..]. }
    apply (tord_same s); auto; rewrite ?El.
    + intros A m K. destruct oe as [e|]; [|exact K]. eapply sentlog_cons; [|exact K]. apply not_sent. destruct e; cbn in Q |- *; auto.
    + intros A m. unfold held. rewrite Eo. split; (intros [K|(t' & K)]; [now left|right; exists t'; auto]).
    + intros m K. destruct oe as [e|]; [|exact K]. destruct K as [->|K]; [destruct Q|assumption].
    + intros m1 m2 K. destruct oe as [e|]; [|exact K]. now apply prec_cons.
  - assert (Ce : forall A m', sent_by A m' e -> m' = next s /\ A = a).
    { intros A m' [(B' & c0 & E)|(d' & c0 & E)]; destruct He as [[E' _]|[_ E']]; split; congruence. }
    assert (Lx : forall A x, sentlog A x (log s) -> x < next s).
    { intros A x (e' & K & [(B' & c0 & ->)|(d' & c0 & ->)]).
      - apply (bk_old _ Bk x B' c0). left. eauto.
      - apply (bk_old _ Bk x A c0). right. left. eauto. }
    assert (As : forall A x, sentlog A x (e :: log s) -> sentlog A x (log s) \/ (x = next s /\ A = a)).
    { intros A x (e' & [->|K] & S0); [right; auto|]. left. exists e'. auto. }
    assert (Ti : forall x, In (ETimed x) (e :: log s) -> In (ETimed x) (log s)).
    { intros x [K|K]; [|assumption]. destruct He as [[-> _]|[_ ->]]; discriminate. }
    constructor; proj.
    + intros A m1 m2 S1 S2 Lt. unfold held, sending. proj. unfold upd.
      apply As in S1. apply As in S2. intros H.
      destruct S2 as [S2|[-> ->]]; [|left; rewrite Nat.eqb_refl; now left].
      destruct S1 as [S1|[-> ->]]; [|apply Lx in S2; lia].
      assert (H1 : held s A m1).
      { destruct (Nat.eqb_spec A a) as [->|N]; [|exact H]. destruct H as [[H|H]|H]; [|left; exact H|right; exact H].
        apply Lx in S1. lia. }
      destruct (d_keep _ D A m1 m2 S1 S2 Lt H1) as [K|K]; [left|right; exact K].
      destruct (Nat.eqb_spec A a) as [->|N]; [now right|exact K].
    + intros A m1 m2 S1 S2 Lt K1 K2. apply Ti in K1. apply Ti in K2. apply prec_cons.
      pose proof (a_td _ Ha _ K1) as [L1 _]. pose proof (a_td _ Ha _ K2) as [L2 _].
      apply As in S1. apply As in S2. destruct S1 as [S1|[-> _]]; [|lia]. destruct S2 as [S2|[-> _]]; [|lia].
      eapply (d_ord _ D); eauto.
  - apply (tord_same s); proj; auto.
    + intros A m K. eapply sentlog_cons; [|exact K]. intros [(B' & c0 & E)|(d' & c0 & E)]; discriminate.
    + intros A m. unfold held, sending. proj. split; (intros [K|(t' & K)]; [now left|right; exists t']).
      * unfold upd in K. destruct (Nat.eqb_spec t' t); [|assumption]. destruct K as [K|[]]. discriminate.
      * unfold upd. destruct (Nat.eqb_spec t' t) as [Et|]; [subst t'|]; [|assumption]. rewrite Ht in K. destruct K.
    + intros m [K|K]; [discriminate|assumption].
    + intros m1 m2 K. now apply prec_cons.
  - apply (tord_same s); proj; auto. intros A m. unfold held, sending. proj. split.
    + intros [K|(t' & K)].
      * unfold upd in K. destruct (Nat.eqb_spec A a); [destruct K|now left].
      * unfold upd in K. destruct (Nat.eqb_spec t' t) as [Et|]; [subst t'|]; [|right; eauto]. apply in_app_iff in K. destruct K as [K|K].
        -- apply in_map_iff in K. destruct K as (y & E & Hy). injection E as <- <-. left. now apply in_rev.
        -- right. exists t. rewrite Ht. now right.
    + intros [K|(t' & K)].
      * unfold upd at 1. destruct (Nat.eqb_spec A a) as [->|]; [|now left]. right. exists t. rewrite upd_same.
        apply in_app_iff. left. apply in_map. now apply in_rev in K.
      * right. exists t'. unfold upd. destruct (Nat.eqb_spec t' t) as [Et|]; [subst t'|]; [|assumption]. rewrite Ht in K.
        destruct K as [K|K]; [discriminate|]. apply in_app_iff. now right.
  - assert (Sb : forall A x, sentlog A x (EArrive (mto s m) m (clock s) :: log s) -> sentlog A x (log s)).
    { intros A x K. eapply sentlog_cons; [|exact K]. now apply not_sent. }
    assert (Ho : forall A x, held (logev (EArrive (mto s m) m (clock s)) (set_todo (upd (todo s) t l') (set_mbox (upd (mbox s) (mto s m) (mbox s (mto s m) ++ [m])) s))) A x -> held s A x).
    { intros A x. unfold held, sending. proj. intros [K|(t' & K)]; [now left|right; exists t'].
      unfold upd in K. destruct (Nat.eqb_spec t' t) as [Et|]; [subst t'|]; [|assumption]. rewrite Ht. right.
      destruct Hl' as [->| ->]; [assumption|]. destruct K as [K|K]; [discriminate|assumption]. }
    assert (Hn : forall A x, held s A x -> held (logev (EArrive (mto s m) m (clock s)) (set_todo (upd (todo s) t l') (set_mbox (upd (mbox s) (mto s m) (mbox s (mto s m) ++ [m])) s))) A x \/ i = ISend A x).
    { intros A x. unfold held, sending. proj. intros [K|(t' & K)]; [left; now left|].
      destruct (Nat.eq_dec t' t) as [->|N]; [|left; right; exists t'; now rewrite upd_other]. rewrite Ht in K. destruct K as [K|K]; [now right|].
      left. right. exists t. rewrite upd_same. destruct Hl' as [->| ->]; [assumption|now right]. }
    constructor; proj.
    + intros A m1 m2 S1 S2 Lt H. apply Sb in S1. apply Sb in S2. apply Ho in H.
      pose proof (d_keep _ D A m1 m2 S1 S2 Lt H) as H2. destruct (Hn _ _ H2) as [K|K]; [exact K|]. exfalso. subst i.
      exact (held_first s t A m2 rest A m1 g S Hs O L Ht S1 S2 Lt H).
    + intros A m1 m2 S1 S2 Lt [K1|K1]; [discriminate|]. intros [K2|K2]; [discriminate|]. apply prec_cons.
      eapply (d_ord _ D); eauto.
  - assert (Sb : forall A x, sentlog A x (ETimed m :: log s) -> sentlog A x (log s)).
    { intros A x K. eapply sentlog_cons; [|exact K]. now apply not_sent. }
    assert (Sd : sending s a m) by (exists t; rewrite Ht; now left).
    constructor; proj.
    + intros A m1 m2 S1 S2 Lt H. apply Sb in S1. apply Sb in S2.
      assert (H1 : held s A m1).
      { revert H. unfold held, sending. proj. intros [K|(t' & K)]; [now left|right; exists t'].
        unfold upd in K. destruct (Nat.eqb_spec t' t) as [Et|]; [subst t'|]; [|assumption]. rewrite Ht. now right. }
      pose proof (d_keep _ D A m1 m2 S1 S2 Lt H1) as [K|(t' & K)]; [left; exact K|].
      destruct (Nat.eq_dec t' t) as [->|N]; [|right; exists t'; proj; now rewrite upd_other].
      rewrite Ht in K. destruct K as [K|K]; [|right; exists t; proj; now rewrite upd_same].
      exfalso. injection K as -> ->. exact (held_first s t A m2 rest A m1 g S Hs O L Ht S1 S2 Lt H1).
    + intros A m1 m2 S1 S2 Lt K1 K2. apply Sb in S1. apply Sb in S2. apply precedes_cons.
      destruct K2 as [K2|K2].
      * injection K2 as <-. right. split; [reflexivity|]. destruct K1 as [K1|K1]; [injection K1 as ->; lia|exact K1].
      * destruct K1 as [K1|K1]; [|left; eapply (d_ord _ D); eauto]. injection K1 as <-. exfalso.
        assert (A = a).
        { destruct (h_sent _ Hs a m (or_intror Sd)) as (mm & _ & [(B & c & K & _)|(d & c & K & _)]);
            (eapply sentlog_fun; [exact L|exact S1|]); eexists; (split; [exact K|]); [left|right]; eauto. }
        subst A. pose proof (d_keep _ D a m m2 S1 S2 Lt (or_intror Sd)) as H2.
        destruct (a_td _ Ha _ K2) as (_ & N1 & N2). destruct H2 as [H2|H2]; [eapply N1; eauto|eapply N2; eauto].
  - apply (tord_same s); proj; auto.
    + intros A x K. eapply sentlog_cons; [|exact K]. now apply not_sent.
    + intros A x. unfold held, sending. proj. split; (intros [K|(t' & K)]; [now left|right; exists t']).
      * unfold upd in K. destruct (Nat.eqb_spec t' t); [|assumption]. destruct K as [K|[]]. discriminate.
      * unfold upd. destruct (Nat.eqb_spec t' t) as [Et|]; [subst t'|]; [|assumption]. rewrite Ht in K. destruct K.
    + intros x [K|K]; [discriminate|assumption].
    + intros m1 m2 K. now apply prec_cons.
  - apply (tord_same s); proj; auto. intros A x. unfold held, sending. proj. split; (intros [K|(t' & K)]; [now left|right; exists t']).
    + unfold upd in K. destruct (Nat.eqb_spec t' t) as [Et|]; [subst t'|]; [|assumption]. rewrite Ht.
      exfalso. destruct Hl' as [->| ->]; [destruct K|destruct K as [K|[]]; discriminate].
    + unfold upd. destruct (Nat.eqb_spec t' t) as [Et|]; [subst t'|]; [|assumption]. rewrite Ht in K. destruct K as [K|[]]. discriminate.
Qed.
End L11.

Section Runs11.
Context {U V : Type}.
Variable vfalse vdone : V.
Variable shared : nat.
Notation state := (state U V).

Lemma race_free_tord (s : state) ls s' : @whole U V True vfalse vdone s -> nice s -> tord s ->
  race_free vfalse vdone shared s ls s' -> tord s'.
Proof.
  intros W N D R. induction R as [s|s l s1 ls s2 Nc Nr St R IH]; [auto|].
  pose proof (w_inv _ _ _ W) as Iv.
  assert (Nc' : crashed s1 = false) by (eapply no_crash; eauto).
  assert (W1 : @whole U V True vfalse vdone s1) by (eapply whole_step; eauto).
  apply IH; [exact W1|exact (nice_step _ _ _ _ _ _ I W N (fun _ => Nr) St)|].
  exact (tord_step vfalse vdone s s1 I Iv (i_struct _ _ _ (w_inv _ _ _ W1)) (n_sent _ N) (w_arr _ _ _ W) (w_legal _ _ _ W) (n_ordd _ N) D (step_trans _ _ _ _ _ _ Iv Nc' St)).
Qed.

Lemma tord_inv (v0 : V) t0 aff0 ls (s : state) : race_free vfalse vdone shared (init v0 t0 aff0) ls s -> tord s.
Proof.
  intros R. eapply race_free_tord; [..|exact R].
  - apply whole_init. exact shared.
  - apply nice_init.
  - constructor; cbn; intros A m1 m2 (e & [] & _).
Qed.
End Runs11.

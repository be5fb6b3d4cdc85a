(** Invariant of the runtime, part 8: the history is legal. *)
From Verif Require Import Base S_Rts M_Rts P_RtsTok P_RtsPlace P_Rts1 P_Rts2 P_Rts3 P_Rts4 P_Rts5.
Local Open Scope nat_scope.

Section L6.
Context {U V : Type} {G : Prop}.
Notation tok_inv := (@tok_inv U V G).
Notation is_flush := (@is_flush U V G).
Notation fling := (@fling U V G).
Notation struct := (@struct U V G).
Variable vfalse vdone : V.
Variable shared : nat.
Notation instr := (instr U V).
Notation state := (state U V).
Notation event := (event U V).
Notation step := (step vfalse vdone shared).
Notation inv := (@inv U V G vfalse vdone).
Notation trans := (trans vfalse vdone).

Definition sending (s : state) (a : aid) (m : mid) : Prop := exists t, In (ISend a m) (todo s t).
Definition enqing (s : state) (m : mid) : Prop := exists t, In (IEnq m) (todo s t).
Definition pend (s : state) (m : mid) : Prop :=
  (exists a, In m (out s a)) \/ (exists a, sending s a m) \/ enqing s m \/ In m (timerQ s).

Lemma todo_in (s s' : state) t l' t' i :
  (forall t', todo s' t' = upd (todo s) t l' t') -> In i (todo s' t') ->
  (t' = t /\ In i l') \/ (t' <> t /\ In i (todo s t')).
Proof. intros H K. rewrite H in K. unfold upd in K. destruct (Nat.eqb_spec t' t); auto. Qed.

Lemma msg_in (l l' : list instr) i : filter is_msg l' = filter is_msg l -> is_msg i = true -> In i l' -> In i l.
Proof.
  intros E H K. assert (K' : In i (filter is_msg l')) by (apply filter_In; auto). rewrite E in K'.
  now apply filter_In in K'.
Qed.

(** ** Where messages are *)
Lemma fl_in (s : state) t i m : In i (todo s t) -> fl i = [m] -> In m (flat_map fl (todo s t)).
Proof. intros H E. apply in_flat_map. exists i. rewrite E. split; [assumption|now left]. Qed.
Lemma fl_same (s : state) t t' i j m : struct s ->
  In i (todo s t) -> In j (todo s t') -> fl i = [m] -> fl j = [m] -> t = t' /\ i = j.
Proof.
  intros (loc & place & _ & P & _) Hi Hj Ei Ej.
  pose proof (proj1 (pl_fl _ _ P t m) (fl_in _ _ _ _ Hi Ei)) as L.
  pose proof (proj1 (pl_fl _ _ P t' m) (fl_in _ _ _ _ Hj Ej)) as L'.
  assert (t = t') by congruence. subst t'. split; [reflexivity|].
  eapply (flat_one fl); [apply (pl_fl_nd _ _ P t)|eauto..].
Qed.
Lemma out_not_fl (s : state) a t i m : struct s -> In m (out s a) -> In i (todo s t) -> fl i = [m] -> False.
Proof.
  intros (loc & place & _ & P & _) Ho Hi Ei. apply (pl_out _ _ P) in Ho.
  pose proof (proj1 (pl_fl _ _ P t m) (fl_in _ _ _ _ Hi Ei)). congruence.
Qed.
Lemma tm_not_fl (s : state) t i m : struct s -> In m (timerQ s) -> In i (todo s t) -> fl i = [m] -> False.
Proof.
  intros (loc & place & _ & P & _) Ho Hi Ei. apply (pl_tm _ _ P) in Ho.
  pose proof (proj1 (pl_fl _ _ P t m) (fl_in _ _ _ _ Hi Ei)). congruence.
Qed.
Lemma tm_not_out (s : state) a m : struct s -> In m (timerQ s) -> In m (out s a) -> False.
Proof.
  intros (loc & place & _ & P & _) Ht Ho. apply (pl_tm _ _ P) in Ht. apply (pl_out _ _ P) in Ho. congruence.
Qed.
Lemma box_not_pend (s : state) a m : struct s -> In m (mbox s a) -> ~ pend s m.
Proof.
  intros (loc & place & _ & P & _) Hb. apply (pl_box _ _ P) in Hb.
  intros [(b & K)|[(b & t & K)|[(t & K)|K]]].
  - apply (pl_out _ _ P) in K. congruence.
  - pose proof (proj1 (pl_fl _ _ P t m) (fl_in _ _ _ _ K eq_refl)). congruence.
  - pose proof (proj1 (pl_fl _ _ P t m) (fl_in _ _ _ _ K eq_refl)). congruence.
  - apply (pl_tm _ _ P) in K. congruence.
Qed.
Lemma pend_lt (s : state) m : struct s -> pend s m -> m < next s.
Proof.
  intros (loc & place & _ & P & _) K. destruct (Nat.lt_ge_cases m (next s)) as [|N]; [assumption|].
  apply (pl_new _ _ P) in N. destruct K as [(b & K)|[(b & t & K)|[(t & K)|K]]].
  - apply (pl_out _ _ P) in K. congruence.
  - pose proof (proj1 (pl_fl _ _ P t m) (fl_in _ _ _ _ K eq_refl)). congruence.
  - pose proof (proj1 (pl_fl _ _ P t m) (fl_in _ _ _ _ K eq_refl)). congruence.
  - apply (pl_tm _ _ P) in K. congruence.
Qed.
Lemma box_lt (s : state) a m : struct s -> In m (mbox s a) -> m < next s.
Proof.
  intros (loc & place & _ & P & _) K. destruct (Nat.lt_ge_cases m (next s)) as [|N]; [assumption|].
  apply (pl_new _ _ P) in N. apply (pl_box _ _ P) in K. congruence.
Qed.

(** ** Sending *)
Record sent (s : state) : Prop := {
  h_sent : forall a m, In m (out s a) \/ sending s a m -> exists m0, head s a m0 /\
     ((exists B c, In (EAsync a B m c) (log s) /\ mbase s m = mbase s m0) \/
      (exists d c, In (EAfter a m d c) (log s) /\ mbase s m = (mbase s m0 + d)%Z));
  h_set : forall t a, ending a (todo s t) -> out s a = [] \/ In (IFlush a) (todo s t);
  h_late : forall t a, late a (todo s t) -> out s a = []
}.
(** Baselines are logical times. *)
Definition based (s : state) : Prop := forall m, m < next s -> mbase s m = ltime m (log s).

Lemma ltime_quiet m oe (h : list event) : quiet oe -> ltime m (ext oe h) = ltime m h.
Proof. destruct oe as [[]|]; cbn; intros; try contradiction; reflexivity. Qed.

Lemma incl_ext oe (h : list event) e : In e h -> In e (ext oe h).
Proof. apply ext_incl. Qed.

Ltac evs H := destruct H as (m0 & Hh0 & [(B0 & c0 & He0 & Hb0)|(d0 & c0 & He0 & Hb0)]).

Lemma fin_only a (f : list instr) b : fin a f -> ending b f -> b = a.
Proof. intros F (m & o & H). destruct F; cbn in H; intuition congruence. Qed.
Lemma fin_not_late a (f : list instr) b : fin a f -> ~ late b f.
Proof. intros F [(m & o & H)|(m & H)]; destruct F; cbn in H; intuition discriminate. Qed.

Lemma sent_step (s : state) s' : G -> inv s -> struct s' -> sent s -> trans s s' -> sent s'.
Proof.
  intros g Iv S' [H1 H2 H3] T.
  pose proof (i_struct _ _ _ Iv) as S.
  destruct T as [t l' oe Pl Eo Etm Ebox En Eto Eba Ck El Q Etd Ef Qf Qe Ql
                |t a m c v B c' d e Ht Hh Hr He ->|t B c Ht ->|t a rest Ht Hfin ->
                |t i m rest l' Ht Hi Hl' ->|t a m rest m0 Ht Hh Hne ->|t m r Ht Hq Hle ->|t a m r l' Ht Hbox Hl' Hf ->].
  - (* quiet *) constructor.
    + intros a m K. destruct (H1 a m) as (m0 & Hh0 & Hx).
      { destruct K as [K|(t' & K)]; [left; congruence|right].
        destruct (todo_in _ _ _ _ _ _ Etd K) as [[-> K']|[_ K']]; [exists t|exists t'; assumption].
        eapply msg_in; eauto. }
      exists m0. split; [destruct Hh0 as [r Hr]; exists r; congruence|]. rewrite Eba.
      destruct Hx as [(B & c & K1 & K2)|(d & c & K1 & K2)]; [left; exists B, c|right; exists d, c];
        (split; [rewrite El; now apply incl_ext|assumption]).
    + intros t' a K. rewrite Eo. rewrite Etd in K |- *. unfold upd in *. destruct (Nat.eqb_spec t' t) as [->|N]; [|auto].
      destruct (Qe a K) as [K'|[K1 K2]]; [auto|]. destruct (H2 t a K1); auto.
    + intros t' a K. rewrite Eo. rewrite Etd in K. unfold upd in *. destruct (Nat.eqb_spec t' t) as [->|N]; [|eauto].
      destruct (Ql a K) as [K'|(m & o & K')]; [eauto|].
      destruct (H2 t a) as [|J]; [rewrite K'; exists m, o; now left|assumption|].
      rewrite K' in J. destruct J as [J|[]]. discriminate.
  - (* push *)
    assert (Lm : m < next s) by (eapply head_lt; eauto).
    assert (Nph : forall t' i ph, In i (todo s t') -> iphase i = Some (a, ph) -> ph = PhRun m c v).
    { intros t' i ph K E. eapply (phase_unique s a); [exact S|eapply at_todo; eauto|].
      eapply (at_todo _ _ t (IRun a m c v)); [rewrite Ht; now left|reflexivity]. }
    constructor; proj.
    + intros b x K.
      assert (Old : In x (out s b) \/ sending s b x -> exists m0, head s b m0 /\
        ((exists B c, In (EAsync b B x c) (e :: log s) /\ upd (mbase s) (next s) (mbase s m + d)%Z x = upd (mbase s) (next s) (mbase s m + d)%Z m0) \/
         (exists d' c, In (EAfter b x d' c) (e :: log s) /\ upd (mbase s) (next s) (mbase s m + d)%Z x = (upd (mbase s) (next s) (mbase s m + d)%Z m0 + d')%Z))).
      { intros K'. assert (x < next s). { eapply pend_lt; eauto. unfold pend. destruct K' as [?|?]; [left|right; left]; eauto. }
        destruct (H1 b x K') as (m0 & Hh0 & Hx). exists m0. split; [assumption|].
        assert (m0 < next s) by (eapply head_lt; eauto). rewrite !upd_other by lia.
        destruct Hx as [(B1 & c1 & K1 & K2)|(d1 & c1 & K1 & K2)]; [left; exists B1, c1|right; exists d1, c1]; split; auto; now right. }
      destruct K as [K|(t' & K)]; [|apply Old; right; exists t'; exact K].
      unfold upd in K. destruct (Nat.eqb_spec b a) as [->|N]; [|apply Old; now left].
      destruct K as [<-|K]; [|apply Old; now left].
      exists m. split; [exact Hh|]. rewrite upd_same, (upd_other _ _ _ m) by lia.
      destruct He as [[-> ->]|[-> ->]]; [left; exists B, c'; split; [now left|lia]|right; exists d, c'; split; [now left|lia]].
    + intros t' b (m1 & o1 & K). unfold upd. destruct (Nat.eqb_spec b a) as [->|N].
      * exfalso. pose proof (Nph _ _ _ K eq_refl). discriminate.
      * apply H2. exists m1, o1. exact K.
    + intros t' b K. unfold upd. destruct (Nat.eqb_spec b a) as [->|N]; [|eauto].
      exfalso. destruct K as [(m1 & o1 & K)|(m1 & K)]; pose proof (Nph _ _ _ K eq_refl); discriminate.
  - (* ext *) constructor; proj.
    + intros b x K.
      assert (K' : In x (out s b) \/ sending s b x).
      { destruct K as [K|(t' & K)]; [now left|right]. proj. unfold upd in K. destruct (Nat.eqb_spec t' t).
        - destruct K as [K|[]]. discriminate.
        - exists t'. assumption. }
      assert (x < next s). { eapply pend_lt; eauto. unfold pend. destruct K' as [?|?]; [left|right; left]; eauto. }
      destruct (H1 b x K') as (m0 & Hh0 & Hx). exists m0. split; [assumption|].
      assert (m0 < next s) by (eapply head_lt; eauto). rewrite !upd_other by lia.
      destruct Hx as [(B1 & c1 & K1 & K2)|(d1 & c1 & K1 & K2)]; [left; exists B1, c1|right; exists d1, c1]; split; auto; now right.
    + intros t' b K. unfold upd in *. destruct (Nat.eqb_spec t' t); [|auto]. destruct K as (m1 & o1 & [K|[]]). discriminate.
    + intros t' b K. unfold upd in *. destruct (Nat.eqb_spec t' t); [|eauto].
      destruct K as [(m1 & o1 & [K|[]])|(m1 & [K|[]])]; discriminate.
  - (* flush *) constructor; proj.
    + intros b x K. apply H1. destruct K as [K|(t' & K)]; proj; unfold upd in K.
      * destruct (Nat.eqb_spec b a); [destruct K|now left].
      * destruct (Nat.eqb_spec t' t); [|right; exists t'; assumption].
        apply in_app_iff in K. destruct K as [K|K].
        -- apply in_map_iff in K. destruct K as (y & E & Hy). injection E as <- <-. left. now apply in_rev.
        -- exfalso. eapply (@fin_noflush U V True a rest b); eauto. split; [exact I|right; eauto].
    + intros t' b K. unfold upd in *. destruct (Nat.eqb_spec t' t) as [Et|N].
      * destruct K as (m1 & o1 & K). apply in_app_iff in K. destruct K as [K|K].
        -- apply in_map_iff in K. destruct K as (y & E & Hy). discriminate.
        -- rewrite (fin_only _ _ _ Hfin (ex_intro _ m1 (ex_intro _ o1 K))), Nat.eqb_refl. now left.
      * destruct (Nat.eqb_spec b a); auto.
    + intros t' b K. unfold upd in *. destruct (Nat.eqb_spec b a) as [|Nb]; [reflexivity|].
      destruct (Nat.eqb_spec t' t) as [Et|N]; [|eauto].
      exfalso. apply (fin_not_late a rest b Hfin).
      destruct K as [(m1 & o1 & K)|(m1 & K)]; apply in_app_iff in K; destruct K as [K|K];
        try (apply in_map_iff in K; destruct K as (y & E & Hy); discriminate); [left|right]; eauto.
  - (* arrive *)
    assert (Hd : forall b m0, head s b m0 -> exists r, upd (mbox s) (mto s m) (mbox s (mto s m) ++ [m]) b = m0 :: r).
    { intros b m0 [r Hr]. unfold upd. destruct (Nat.eqb_spec b (mto s m)) as [->|?N]; [rewrite Hr; cbn|]; eauto. }
    assert (Tl : forall j, In j l' -> j = IReady (mto s m) \/ In j rest).
    { intros j K. destruct Hl' as [->| ->]; [auto|destruct K; auto]. }
    assert (Hl2 : forall j, In j rest -> In j l').
    { intros j K. destruct Hl' as [->| ->]; [auto|now right]. }
    constructor; proj.
    + intros b x K. destruct (H1 b x) as (m0 & Hh0 & Hx).
      { destruct K as [K|(t' & K)]; [now left|right]. proj. unfold upd in K. destruct (Nat.eqb_spec t' t) as [Et|N]; [subst t'|exists t'; assumption].
        exists t. rewrite Ht. destruct (Tl _ K) as [J|J]; [discriminate|now right]. }
      exists m0. split; [apply Hd; assumption|].
      destruct Hx as [(B1 & c1 & K1 & K2)|(d1 & c1 & K1 & K2)]; [left; exists B1, c1|right; exists d1, c1]; split; auto; now right.
    + intros t' b K. unfold upd in *. destruct (Nat.eqb_spec t' t) as [Et|N]; [subst t'|auto].
      destruct (H2 t b) as [J|J]; [|auto|].
      * destruct K as (m1 & o1 & K). exists m1, o1. rewrite Ht. destruct (Tl _ K) as [J|J]; [discriminate|now right].
      * right. apply Hl2. rewrite Ht in J. destruct J as [J|J]; [|assumption].
        destruct Hi as [->|(a0 & m1 & -> & _)]; discriminate.
    + intros t' b K. unfold upd in *. destruct (Nat.eqb_spec t' t) as [Et|N]; [subst t'|eauto].
      apply (H3 t). destruct K as [(m1 & o1 & K)|(m1 & K)]; [left; exists m1, o1|right; exists m1]; rewrite Ht;
        (destruct (Tl _ K) as [J|J]; [discriminate|now right]).
  - (* timed *) constructor; proj.
    + intros b x K. destruct (H1 b x) as (m1 & Hh0 & Hx).
      { destruct K as [K|(t' & K)]; [now left|right]. proj. unfold upd in K. destruct (Nat.eqb_spec t' t) as [Et|N]; [subst t'|exists t'; assumption].
        exists t. rewrite Ht. now right. }
      exists m1. split; [assumption|].
      destruct Hx as [(B1 & c1 & K1 & K2)|(d1 & c1 & K1 & K2)]; [left; exists B1, c1|right; exists d1, c1]; split; auto; now right.
    + intros t' b K. unfold upd in *. destruct (Nat.eqb_spec t' t) as [Et|N]; [subst t'|auto].
      destruct (H2 t b) as [J|J]; [|auto|].
      * destruct K as (m1 & o1 & K). exists m1, o1. rewrite Ht. now right.
      * right. rewrite Ht in J. destruct J as [J|J]; [discriminate|assumption].
    + intros t' b K. unfold upd in *. destruct (Nat.eqb_spec t' t) as [Et|N]; [subst t'|eauto].
      apply (H3 t). destruct K as [(m1 & o1 & K)|(m1 & K)]; [left; exists m1, o1|right; exists m1]; rewrite Ht; now right.
  - (* fire *) constructor; proj.
    + intros b x K. destruct (H1 b x) as (m1 & Hh0 & Hx).
      { destruct K as [K|(t' & K)]; [now left|right]. proj. unfold upd in K. destruct (Nat.eqb_spec t' t) as [Et|N]; [subst t'|exists t'; assumption].
        destruct K as [K|[]]. discriminate. }
      exists m1. split; [assumption|].
      destruct Hx as [(B1 & c1 & K1 & K2)|(d1 & c1 & K1 & K2)]; [left; exists B1, c1|right; exists d1, c1]; split; auto; now right.
    + intros t' b K. unfold upd in *. destruct (Nat.eqb_spec t' t); [|auto]. destruct K as (m1 & o1 & [K|[]]). discriminate.
    + intros t' b K. unfold upd in *. destruct (Nat.eqb_spec t' t); [|eauto].
      destruct K as [(m1 & o1 & [K|[]])|(m1 & [K|[]])]; discriminate.
  - (* dequeue *)
    assert (Nf : forall t', ~ flushing s t' a).
    { intros t' F. revert t' F. cut (forall t', ~ fling s t' a); [intros K t' F; exact (K t' (conj g F))|].
      destruct S as (loc & place & TI & _). refine (proj2 (exec_flush1 loc s t (IDeq a m) a TI Ht eq_refl _)). intros ? [_ [K|[? K]]]; discriminate. }
    assert (Tl : forall j, In j l' -> j = IReady a).
    { intros j K. destruct Hl' as [->| ->]; [destruct K|destruct K as [<-|[]]; reflexivity]. }
    constructor; proj.
    + intros b x K.
      assert (K' : In x (out s b) \/ sending s b x).
      { destruct K as [K|(t' & K)]; [now left|right]. proj. unfold upd in K. destruct (Nat.eqb_spec t' t) as [Et|N]; [subst t'|exists t'; assumption].
        apply Tl in K. discriminate. }
      assert (b <> a).
      { intros ->. destruct K' as [K'|(t' & K')].
        - rewrite (H3 t a) in K'; [destruct K'|]. right. exists m. rewrite Ht. now left.
        - apply (Nf t'). right. eauto. }
      destruct (H1 b x K') as (m1 & [r1 Hr1] & Hx). exists m1. split; [|assumption].
      exists r1. proj. rewrite upd_other by assumption. assumption.
    + intros t' b K. unfold upd in *. destruct (Nat.eqb_spec t' t); [|auto]. destruct K as (m1 & o1 & K). apply Tl in K. discriminate.
    + intros t' b K. unfold upd in *. destruct (Nat.eqb_spec t' t); [|eauto].
      destruct K as [(m1 & o1 & K)|(m1 & K)]; apply Tl in K; discriminate.
Qed.

Lemma based_step (s : state) s' : inv s -> based s -> trans s s' -> based s'.
Proof.
  intros Iv H4 T. pose proof (i_struct _ _ _ Iv) as S.
  destruct T as [t l' oe Pl Eo Etm Ebox En Eto Eba Ck El Q Etd Ef Qf Qe Ql
                |t a m c v B c' d e Ht Hh Hr He ->|t B c Ht ->|t a rest Ht Hfin ->
                |t i m rest l' Ht Hi Hl' ->|t a m rest m0 Ht Hh Hne ->|t m r Ht Hq Hle ->|t a m r l' Ht Hbox Hl' Hf ->];
    unfold based; proj; try exact H4.
  - intros m Hm. rewrite En in Hm. rewrite Eba, El, ltime_quiet by assumption. auto.
  - assert (Lm : m < next s) by (eapply head_lt; eauto).
    assert (Hold : forall x, x <> next s -> ltime x (e :: log s) = ltime x (log s)).
    { intros x N. destruct He as [[-> _]|[_ ->]]; cbn [ltime]; destruct (Nat.eqb_spec (next s) x); congruence. }
    intros x Hx. destruct (Nat.eq_dec x (next s)) as [->|N].
    + rewrite upd_same. destruct He as [[-> ->]|[-> ->]]; cbn [ltime]; rewrite Nat.eqb_refl, Hr, (H4 m Lm); lia.
    + rewrite upd_other, Hold by assumption. apply H4. lia.
  - intros x Hx. cbn [ltime]. destruct (Nat.eqb_spec (next s) x) as [<-|N]; [apply upd_same|].
    rewrite upd_other by auto. apply H4. lia.
Qed.

End L6.

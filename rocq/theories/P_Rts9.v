(** Invariant of the runtime, part 11: timers, nothing is lost, and the invariant as a whole. *)
From Verif Require Import Base S_Rts M_Rts P_RtsTok P_RtsPlace P_Rts1 P_Rts2 P_Rts3 P_Rts4 P_Rts5 P_Rts6 P_Rts7 P_Rts8.
Local Open Scope nat_scope.

Section L9.
Context {U V : Type} {G : Prop}.
Variable vfalse vdone : V.
Variable shared : nat.
Notation struct := (@struct U V G).
Notation instr := (instr U V).
Notation state := (state U V).
Notation event := (event U V).
Notation step := (step vfalse vdone shared).
Notation inv := (@inv U V G vfalse vdone).
Notation trans := (trans vfalse vdone).
Notation legal := (legal vfalse vdone).

(** ** The timer queue *)
(** In which order messages handed to the timer are due. *)
Definition before (h : list event) (base : mid -> Z) (x y : mid) : Prop :=
  (base x < base y)%Z \/ (base x = base y /\ precedes (ETimed x) (ETimed y) h).

Inductive tsorted (R : mid -> mid -> Prop) : list mid -> Prop :=
| ts_nil : tsorted R []
| ts_cons x l : tsorted R l -> (forall y, In y l -> R x y) -> tsorted R (x :: l).

Lemma tsorted_mono (R R' : mid -> mid -> Prop) l :
  (forall x y, In x l -> In y l -> R x y -> R' x y) -> tsorted R l -> tsorted R' l.
Proof.
  intros H T. induction T as [|x l T IH K]; constructor.
  - apply IH. intros x0 y0 Hx Hy. apply H; now right.
  - intros y Hy. apply H; [now left|now right|auto].
Qed.

Lemma tsorted_enq (R : mid -> mid -> Prop) base m q :
  (forall x, In x q -> (base x <= base m)%Z -> R x m) ->
  (forall x, In x q -> (base m < base x)%Z -> R m x) ->
  (forall x y, In x q -> In y q -> R x y -> (base x <= base y)%Z) ->
  tsorted R q -> tsorted R (enq_timed base m q).
Proof.
  intros H1 H2 H3 T. induction T as [|x l T IH K]; cbn.
  - repeat constructor. intros y [].
  - destruct (Z.leb_spec (base x) (base m)).
    + constructor.
      * apply IH; intros; [apply H1|apply H2|apply H3]; auto; now right.
      * intros y Hy. apply enq_timed_in in Hy. destruct Hy as [Hy| ->]; [auto|]. apply H1; [now left|assumption].
    + constructor; [constructor; assumption|]. intros y [<-|Hy]; [apply H2; [now left|assumption]|].
      apply H2; [now right|]. specialize (H3 x y (or_introl eq_refl) (or_intror Hy) (K y Hy)). lia.
Qed.

(** Timed messages fire in the order they are due. *)
Definition timer_order (h : list event) : Prop :=
  forall m1 m2 n newer older, h = newer ++ EFire m2 n :: older ->
    In (ETimed m1) older -> In (ETimed m2) older ->
    before older (fun m => ltime m older) m1 m2 ->
    exists n', In (EFire m1 n') older.

Record tms (s : state) : Prop := {
  t_in : forall m, In (ETimed m) (log s) -> In m (timerQ s) \/ exists n, In (EFire m n) (log s);
  t_sorted : tsorted (before (log s) (mbase s)) (timerQ s);
  t_order : timer_order (log s)
}.

Lemma before_cons e h base x y : before h base x y -> before (e :: h) base x y.
Proof. intros [H|[H1 H2]]; [left; assumption|right; split; [assumption|]]. apply precedes_cons. now left. Qed.
Lemma before_ext oe h base x y : before h base x y -> before (ext oe h) base x y.
Proof. destruct oe; cbn; [apply before_cons|auto]. Qed.

Lemma timer_order_cons e h : (forall m n, e <> EFire m n) -> timer_order h -> timer_order (e :: h).
Proof.
  intros N H m1 m2 n nw ol E. destruct nw as [|x nw]; injection E as -> E; [exfalso; eapply N; reflexivity|].
  eapply H; eauto.
Qed.

Lemma legal_timed_once (h : list event) m1 m2 : legal h ->
  precedes (ETimed m1) (ETimed m2) h -> precedes (ETimed m2) (ETimed m1) h -> False.
Proof.
  induction 1 as [|e h L IH Le]; intros P1 P2.
  - destruct P1 as (nw & bt & ol & E). destruct nw; discriminate.
  - apply precedes_cons in P1. apply precedes_cons in P2.
    destruct P1 as [P1|[-> P1]], P2 as [P2|[E2 P2]]; auto.
    + subst e. destruct Le as (_ & Le & _). apply Le. now apply precedes_in in P1.
    + destruct Le as (_ & Le & _). apply Le. now apply precedes_in in P2.
    + injection E2 as <-. destruct Le as (_ & Le & _). now apply Le.
Qed.

Lemma tms_step (s s' : state) : inv s -> based s -> arr s -> legal (log s) -> tms s -> trans s s' -> tms s'.
Proof.
  intros Iv Hba Ha L [H1 H2 H3] T.
  pose proof (i_struct _ _ _ Iv) as S.
  assert (Lt : forall x, In x (timerQ s) -> x < next s) by (intros x K; eapply pend_lt; eauto; unfold pend; auto).
  destruct T as [t l' oe Pl Eo Etm Ebox En Eto Eba Ck El Q Etd Ef Qf Qe Ql
                |t a m c v B c' d e Ht Hh Hr He ->|t B c Ht ->|t a rest Ht Hfin ->
                |t i m rest l' Ht Hi Hl' ->|t a m rest m0 Ht Hh Hne ->|t m r Ht Hq Hle ->|t a m r l' Ht Hbox Hl' Hf ->].
  - constructor; rewrite ?Etm, ?Eba, El.
    + intros m K. assert (K' : In (ETimed m) (log s)).
      { destruct oe as [e|]; [|exact K]. destruct K as [->|K]; [destruct Q|assumption]. }
      destruct (H1 m K') as [J|(n & J)]; [now left|]. right. exists n. now apply incl_ext.
    + eapply tsorted_mono; [|exact H2]. intros; now apply before_ext.
    + destruct oe as [e|]; [|exact H3]. apply timer_order_cons; [|exact H3]. intros m n ->. destruct Q.
  - assert (Ne : forall m' n, e <> EFire m' n) by (intros m' n; destruct He as [[-> _]|[_ ->]]; discriminate).
    constructor; proj.
    + intros x [K|K]; [destruct He as [[-> _]|[_ ->]]; discriminate|].
      destruct (H1 x K) as [J|(n & J)]; [now left|]. right. exists n. now right.
    + eapply tsorted_mono; [|exact H2]. intros x y Hx Hy R. apply before_cons. unfold before in *.
      apply Lt in Hx. apply Lt in Hy. rewrite !upd_other by lia. assumption.
    + apply timer_order_cons; assumption.
  - constructor; proj.
    + intros x [K|K]; [discriminate|]. destruct (H1 x K) as [J|(n & J)]; [now left|]. right. exists n. now right.
    + eapply tsorted_mono; [|exact H2]. intros x y Hx Hy R. apply before_cons. unfold before in *.
      apply Lt in Hx. apply Lt in Hy. rewrite !upd_other by lia. assumption.
    + apply timer_order_cons; [discriminate|assumption].
  - constructor; assumption.
  - constructor; proj.
    + intros x [K|K]; [discriminate|]. destruct (H1 x K) as [J|(n & J)]; [now left|]. right. exists n. now right.
    + eapply tsorted_mono; [|exact H2]. intros; now apply before_cons.
    + apply timer_order_cons; [discriminate|assumption].
  - constructor; proj.
    + intros x [K|K]; [injection K as <-; left; apply enq_timed_in; now right|].
      destruct (H1 x K) as [J|(n & J)]; [left; apply enq_timed_in; now left|]. right. exists n. now right.
    + apply tsorted_enq.
      * intros x Hx Hle. unfold before. destruct (Z.eq_dec (mbase s x) (mbase s m)) as [E|N]; [right|left; lia].
        split; [assumption|]. apply precedes_cons. right. split; [reflexivity|]. exact (a_tq _ Ha _ Hx).
      * intros x Hx Hlt. left. assumption.
      * intros x y _ _ [R|[R _]]; lia.
      * eapply tsorted_mono; [|exact H2]. intros; now apply before_cons.
    + apply timer_order_cons; [discriminate|assumption].
  - rewrite Hq in H2. inversion H2 as [|? ? T K]; subst.
    constructor; proj.
    + intros x [J|J]; [discriminate|]. destruct (H1 x J) as [J'|(n & J')]; [|right; exists n; now right].
      rewrite Hq in J'. destruct J' as [<-|J']; [|now left]. right. exists (clock s). now left.
    + eapply tsorted_mono; [|exact T]. intros; now apply before_cons.
    + intros m1 m2 n nw ol E K1 K2 Bf. destruct nw as [|x nw].
      * injection E as E1 E2 E3. subst m2 n ol. destruct (H1 _ K1) as [J|J]; [|exact J]. exfalso.
        assert (L1 : m1 < next s) by now apply (a_td _ Ha) in K1.
        assert (L2 : m < next s) by now apply (a_td _ Ha) in K2.
        unfold before in Bf. rewrite <- (Hba _ L1), <- (Hba _ L2) in Bf.
        rewrite Hq in J. destruct J as [<-|J].
        -- destruct Bf as [Bf|[_ Bf]]; [lia|]. eapply legal_timed_once; eauto.
        -- destruct (K _ J) as [R|[R1 R2]], Bf as [Bf|[B1 B2]]; try lia. eapply legal_timed_once; eauto.
      * injection E as _ E. eapply H3; eauto.
  - constructor; assumption.
Qed.

(** ** No message is lost *)
Definition tracked (s : state) : Prop :=
  forall m, m < next s -> In m (arrivals (mto s m) (log s)) \/ pend s m.

Lemma tracked_step (s s' : state) : inv s -> tracked s -> trans s s' -> tracked s'.
Proof.
  intros Iv H T. unfold tracked.
  destruct T as [t l' oe Pl Eo Etm Ebox En Eto Eba Ck El Q Etd Ef Qf Qe Ql
                |t a m c v B c' d e Ht Hh Hr He ->|t B c Ht ->|t a rest Ht Hfin ->
                |t i m rest l' Ht Hi Hl' ->|t a m rest m0 Ht Hh Hne ->|t m r Ht Hq Hle ->|t a m r l' Ht Hbox Hl' Hf ->].
  - intros m Hm. rewrite En in Hm. rewrite Eto.
    assert (Ar : forall B, arrivals B (log s') = arrivals B (log s)).
    { intros B. rewrite El. destruct oe as [e'|]; [|reflexivity]. destruct e'; cbn in Q; try contradiction; reflexivity. }
    assert (Mo : forall t' i, is_msg i = true -> In i (todo s t') -> In i (todo s' t')).
    { intros t' i Hi K. rewrite Etd. unfold upd. destruct (Nat.eqb_spec t' t) as [Et|]; [subst|assumption].
      eapply msg_in; [symmetry; exact Ef|assumption..]. }
    rewrite Ar. destruct (H m Hm) as [J|J]; [now left|right]. unfold pend in *. rewrite Eo, Etm.
    destruct J as [J|[(b & t' & J)|[(t' & J)|J]]]; auto.
    + right. left. exists b, t'. now apply Mo.
    + right. right. left. exists t'. now apply Mo.
  - proj. intros x Hx. unfold upd at 1. destruct (Nat.eqb_spec x (next s)) as [->|N].
    + right. left. exists a. proj. rewrite upd_same. now left.
    + assert (Ar : arrivals (mto s x) (e :: log s) = arrivals (mto s x) (log s)) by (destruct He as [[-> _]|[_ ->]]; reflexivity).
      rewrite Ar. destruct (H x) as [J|J]; [lia|now left|right].
      destruct J as [(b & J)|[J|[J|J]]]; unfold pend; auto. left. exists b. proj. unfold upd. destruct (Nat.eqb_spec b a) as [->|]; [now right|assumption].
  - proj. intros x Hx. unfold upd at 1. destruct (Nat.eqb_spec x (next s)) as [->|N].
    + right. right. right. left. exists t. proj. rewrite upd_same. now left.
    + destruct (H x) as [J|J]; [lia|now left|right].
      assert (Mo : forall t' i, In i (todo s t') -> In i (upd (todo s) t [IEnq (next s)] t')).
      { intros t' i K. unfold upd. destruct (Nat.eqb_spec t' t) as [Et|]; [|assumption]. subst t'. rewrite Ht in K. destruct K. }
      destruct J as [J|[(b & t' & J)|[(t' & J)|J]]]; unfold pend; auto.
      * right. left. exists b, t'. now apply Mo.
      * right. right. left. exists t'. now apply Mo.
  - proj. intros x Hx. destruct (H x Hx) as [J|J]; [now left|right].
    assert (Mo : forall t' i, is_msg i = true -> In i (todo s t') -> In i (upd (todo s) t (map (ISend a) (rev (out s a)) ++ rest) t')).
    { intros t' i K0 K. unfold upd. destruct (Nat.eqb_spec t' t) as [Et|]; [|assumption]. subst t'. rewrite Ht in K.
      destruct K as [<-|K]; [discriminate|]. apply in_app_iff. now right. }
    destruct J as [(b & J)|[(b & t' & J)|[(t' & J)|J]]]; unfold pend.
    + destruct (Nat.eq_dec b a) as [->|N].
      * right. left. exists a, t. proj. rewrite upd_same. apply in_app_iff. left. apply in_map. now apply in_rev in J.
      * left. exists b. proj. now rewrite upd_other.
    + right. left. exists b, t'. now apply Mo.
    + right. right. left. exists t'. now apply Mo.
    + auto.
  - proj. intros x Hx. cbn [arrivals]. destruct (Nat.eq_dec x m) as [->|N].
    + left. rewrite Nat.eqb_refl. apply in_snoc. now right.
    + destruct (H x Hx) as [J|J].
      * left. destruct (mto s m =? mto s x); [|assumption]. apply in_snoc. now left.
      * right.
        assert (Mo : forall t' j, fl j = [x] -> In j (todo s t') -> In j (upd (todo s) t l' t')).
        { intros t' j K0 K. unfold upd. destruct (Nat.eqb_spec t' t) as [Et|]; [|assumption]. subst t'. rewrite Ht in K.
          destruct K as [<-|K].
          - destruct Hi as [->|(a0 & m1 & -> & _)]; cbn in K0; congruence.
          - destruct Hl' as [->| ->]; [assumption|now right]. }
        destruct J as [J|[(b & t' & J)|[(t' & J)|J]]]; unfold pend; auto.
        -- right. left. exists b, t'. now apply Mo.
        -- right. right. left. exists t'. now apply Mo.
  - proj. intros x Hx. cbn [arrivals]. destruct (H x Hx) as [J|J]; [now left|right].
    destruct (Nat.eq_dec x m) as [->|N].
    + right. right. right. proj. apply enq_timed_in. now right.
    + assert (Mo : forall t' j, fl j = [x] -> In j (todo s t') -> In j (upd (todo s) t rest t')).
      { intros t' j K0 K. unfold upd. destruct (Nat.eqb_spec t' t) as [Et|]; [|assumption]. subst t'. rewrite Ht in K.
        destruct K as [<-|K]; [cbn in K0; congruence|assumption]. }
      destruct J as [J|[(b & t' & J)|[(t' & J)|J]]]; unfold pend; auto.
      * right. left. exists b, t'. now apply Mo.
      * right. right. left. exists t'. now apply Mo.
      * right. right. right. proj. apply enq_timed_in. now left.
  - proj. intros x Hx. cbn [arrivals]. destruct (H x Hx) as [J|J]; [now left|right].
    assert (Mo : forall t' j, In j (todo s t') -> In j (upd (todo s) t [IEnq m] t')).
    { intros t' j K. unfold upd. destruct (Nat.eqb_spec t' t) as [Et|]; [|assumption]. subst t'. rewrite Ht in K. destruct K. }
    destruct J as [J|[(b & t' & J)|[(t' & J)|J]]]; unfold pend; auto.
    + right. left. exists b, t'. now apply Mo.
    + right. right. left. exists t'. now apply Mo.
    + rewrite Hq in J. destruct J as [<-|J]; [|auto]. right. right. left. exists t. proj. rewrite upd_same. now left.
  - proj. intros x Hx. destruct (H x Hx) as [J|J]; [now left|right].
    assert (Mo : forall t' j, fl j = [x] -> In j (todo s t') -> In j (upd (todo s) t l' t')).
    { intros t' j K0 K. unfold upd. destruct (Nat.eqb_spec t' t) as [Et|]; [|assumption]. subst t'. rewrite Ht in K.
      destruct K as [<-|[]]. discriminate. }
    destruct J as [J|[(b & t' & J)|[(t' & J)|J]]]; unfold pend; auto.
    + right. left. exists b, t'. now apply Mo.
    + right. right. left. exists t'. now apply Mo.
Qed.

(** ** Outgoing messages wait for the end of the current execution only *)
Definition settled (s : state) : Prop := forall a,
  out s a = [] \/ running a (log s) <> None \/ (exists m c v, expect vfalse a (log s) = XCall m c v) \/
  exists t, needs_flush a (todo s t).

Lemma settled_keep (s s' : state) oe : settled s -> log s' = ext oe (log s) ->
  (forall a, running a (ext oe (log s)) = running a (log s)) ->
  (forall a, expect vfalse a (ext oe (log s)) = expect vfalse a (log s)) ->
  (forall a, out s a = [] -> out s' a = [] \/ running a (log s) <> None) ->
  (forall a, (exists t, needs_flush a (todo s t)) -> out s' a = [] \/ (exists t, needs_flush a (todo s' t))) ->
  settled s'.
Proof.
  intros H El Er Ee Ho Hf a. rewrite El, Er, Ee. destruct (H a) as [K|[K|[K|K]]]; auto.
  - destruct (Ho a K); auto.
  - destruct (Hf a K); auto.
Qed.

Lemma nf_rest a (i : instr) rest : needs_flush a (i :: rest) ->
  (forall b, i <> IFlush b) -> (forall b m x, i <> IAdd b m x) -> needs_flush a rest.
Proof.
  intros [[K|K]|(m & x & [K|K])] N1 N2; subst.
  - exfalso. eapply N1; reflexivity.
  - now left.
  - exfalso. eapply N2; reflexivity.
  - right. eauto.
Qed.

Lemma nf_upd (s : state) t l' a :
  (forall a, needs_flush a (todo s t) -> needs_flush a l') ->
  (exists t', needs_flush a (todo s t')) -> exists t', needs_flush a (upd (todo s) t l' t').
Proof.
  intros H (t' & K). exists t'. unfold upd. destruct (Nat.eqb_spec t' t) as [->|]; auto.
Qed.

Ltac nfr t Ht := let K := fresh in intros ? K; right; eapply (nf_upd _ t); [|exact K];
  let J := fresh in intros ? J; rewrite Ht in J.

Lemma settled_step (s s' : state) l : inv s -> settled s -> crashed s' = false -> step s l s' -> settled s'.
Proof.
  intros Iv H Nc St.
  assert (NR : forall m c v a t, todo s t = [IRun a m c v] -> running a (log s) <> None).
  { intros m c v a t Ht. destruct (ph_todo vfalse vdone s t (IRun a m c v) a (PhRun m c v) (i_ph _ _ _ Iv)) as (_ & Hr & _); [rewrite Ht; now left|reflexivity|]. congruence. }
  step_cases St; try (injection E as <-).
  - eapply (settled_keep s _ None); eauto. nfr t Ht. destruct H1 as [[]|(? & ? & [])].
  - destruct (mbox s a); [discriminate Nc|].
    eapply (settled_keep s _ (Some _)); eauto; try reflexivity.
    intros b K. proj. unfold upd. destruct (Nat.eqb_spec b a) as [->|]; [right; eapply NR; eauto|auto].
  - destruct (mbox s a); [discriminate Nc|].
    eapply (settled_keep s _ (Some _)); eauto; try reflexivity.
    intros b K. proj. unfold upd. destruct (Nat.eqb_spec b a) as [->|]; [right; eapply NR; eauto|auto].
  - eapply (settled_keep s _ (Some _)); eauto; reflexivity.
  - destruct (catch s a) as [|[c' x] tl]; [discriminate|]. injection E as <-.
    eapply (settled_keep s _ (Some _)); eauto; reflexivity.
  - eapply (settled_keep s _ None); eauto; reflexivity.
  - (* return *)
    intros b. destruct (Nat.eq_dec b a) as [->|N].
    + right. right. unfold on_return. pose proof (bk_catch _ (i_book _ _ _ Iv) a) as Hc.
      destruct r as [w|c' w|e|c' x]; proj; cbn [expect]; rewrite ?Nat.eqb_refl.
      * right. exists t. rewrite upd_same. left. now left.
      * left. eauto.
      * rewrite Hc. destruct (handlers a (log s)) as [|[c' y] tl] eqn:Eh; proj; cbn [expect]; rewrite ?Nat.eqb_refl, ?Eh.
        -- right. exists t. rewrite upd_same. left. now left.
        -- left. eauto.
      * right. exists t. rewrite upd_same. right. exists m, x. now left.
    + assert (Lg : log (on_return vfalse t a m r s) = EReturn a m r :: log s).
      { unfold on_return. destruct r; try reflexivity. destruct (catch _ a) as [|[? ?] ?]; reflexivity. }
      assert (Og : out (on_return vfalse t a m r s) = out s).
      { unfold on_return. destruct r; try reflexivity. destruct (catch _ a) as [|[? ?] ?]; reflexivity. }
      assert (Tg : exists l', todo (on_return vfalse t a m r s) = upd (todo s) t l').
      { unfold on_return. destruct r; try (eexists; reflexivity). destruct (catch _ a) as [|[? ?] ?]; eexists; reflexivity. }
      destruct Tg as [l' Tg]. rewrite Lg, Og, Tg.
      assert (Er : running b (EReturn a m r :: log s) = running b (log s)).
      { cbn [running]. destruct (Nat.eqb_spec a b); [congruence|reflexivity]. }
      assert (Ee : expect vfalse b (EReturn a m r :: log s) = expect vfalse b (log s)).
      { cbn [expect]. destruct (Nat.eqb_spec a b); [congruence|reflexivity]. }
      rewrite Er, Ee. destruct (H b) as [K|[K|[K|(t' & K)]]]; auto. right. right. right. exists t'.
      unfold upd. destruct (Nat.eqb_spec t' t) as [Et|]; [|assumption]. subst t'. rewrite Ht in K.
      destruct K as [[K|[]]|(? & ? & [K|[]])]; discriminate.
  - (* begin *)
    destruct (mbox s a) as [|m0 r0]; [discriminate Nc|]. destruct (mcnt s m0) as [c0| |]; try discriminate Nc.
    intros b. proj. cbn [running expect]. destruct (Nat.eqb_spec a b) as [Eb|N]; [right; left; discriminate|].
    destruct (H b) as [K|[K|[K|K]]]; auto. right. right. right. eapply (nf_upd _ t); [|exact K].
    intros b' K'. rewrite Ht in K'. apply nf_rest in K'; [|discriminate..].
    destruct K' as [K'|(mq & xq & K')]; [left; now right|right; exists mq, xq; now right].
  - eapply (settled_keep s _ None); eauto. nfr t Ht. apply nf_rest in H1; [|discriminate..]. exact H1.
  - (* flush *)
    intros b. proj. destruct (H b) as [K|[K|[K|K]]]; auto; unfold upd at 1; destruct (Nat.eqb_spec b a) as [Eb|N]; auto.
    right. right. right. destruct K as (t' & K). exists t'. unfold upd. destruct (Nat.eqb_spec t' t) as [Et|]; [|assumption].
    subst t'. rewrite Ht in K. destruct K as [[K|K]|(mq & xq & [K|K])]; try congruence.
    + left. apply in_app_iff. now right.
    + right. exists mq, xq. apply in_app_iff. now right.
  - destruct (mbox s a) as [|m0 r0]; [discriminate Nc|]. destruct (mbase s m =? mbase s m0)%Z.
    + unfold enq_msg. eapply (settled_keep s _ (Some _)); eauto; try reflexivity. nfr t Ht. apply nf_rest in H1; [|discriminate..].
      destruct (mbox s (mto s m)); [|exact H1]. destruct H1 as [K|(mq & xq & K)]; [left; now right|right; exists mq, xq; now right].
    + eapply (settled_keep s _ (Some _)); eauto; try reflexivity. nfr t Ht. apply nf_rest in H1; [|discriminate..]. exact H1.
  - unfold enq_msg. eapply (settled_keep s _ (Some _)); eauto; try reflexivity. nfr t Ht. apply nf_rest in H1; [|discriminate..].
    destruct (mbox s (mto s m)); [|exact H1]. destruct H1 as [K|(mq & xq & K)]; [left; now right|right; exists mq, xq; now right].
  - eapply (settled_keep s _ None); eauto. nfr t Ht. apply nf_rest in H1; [|discriminate..].
    destruct H1 as [K|(mq & xq & K)]; [left; now right|right; exists mq, xq; now right].
  - eapply (settled_keep s _ (Some _)); eauto; try reflexivity. nfr t Ht. apply nf_rest in H1; [|discriminate..].
    destruct H1 as [K|(mq & xq & K)]; [left; apply in_app_iff; right; now right|right; exists mq, xq; apply in_app_iff; right; now right].
  - destruct (mbox s b) as [|mb rb]; [discriminate Nc|].
    destruct o; (eapply (settled_keep s _ None); eauto; nfr t Ht; apply nf_rest in H1; [|discriminate..];
      destruct H1 as [K|(mq & xq & K)]; [left; now right|right; exists mq, xq; now right]).
  - destruct (mbox s a) as [|m0 r0].
    + eapply (settled_keep s _ None); eauto. nfr t Ht. apply nf_rest in H1; [|discriminate..]. exact H1.
    + eapply (settled_keep s _ None); eauto. nfr t Ht. apply nf_rest in H1; [|discriminate..].
      destruct r0; [exact H1|]. destruct H1 as [K|(mq & xq & K)]; [left; now right|right; exists mq, xq; now right].
  - (* add *)
    assert (A : forall f b, needs_flush b (IAdd a m x :: rest) -> needs_flush b (IFlush a :: f ++ rest)).
    { intros f b [[K|K]|(mq & xq & [K|K])]; try discriminate.
      - left. right. apply in_app_iff. now right.
      - injection K as <- _ _. left. now left.
      - right. exists mq, xq. right. apply in_app_iff. now right. }
    destruct (frozen (mcnt s x)); (eapply (settled_keep s _ None); eauto; nfr t Ht).
    + now apply (A [IResume a m x]).
    + now apply (A []).
  - destruct (mcnt s x); (eapply (settled_keep s _ None); eauto; nfr t Ht; apply nf_rest in H1; [|discriminate..];
      destruct H1 as [K|(mq & xq & K)]; [left; now right|right; exists mq, xq; now right]).
  - eapply (settled_keep s _ (Some _)); eauto; try reflexivity. nfr t Ht. destruct H1 as [[]|(? & ? & [])].
  - eapply (settled_keep s _ (Some _)); eauto; try reflexivity. nfr t Ht. destruct H1 as [[]|(? & ? & [])].
  - eapply (settled_keep s _ None); eauto; reflexivity.
Qed.

(** ** The whole invariant *)
Record whole (s : state) : Prop := {
  w_inv : inv s; w_based : based s; w_arr : arr s; w_legal : legal (log s);
  w_tms : tms s; w_tracked : tracked s; w_settled : settled s
}.
Record nice (s : state) : Prop := {
  n_sent : sent s; n_cmt : cmt s; n_ordd : ordd s; n_discreet : discreet (log s)
}.

Lemma whole_init v0 t0 aff0 : whole (init v0 t0 aff0).
Proof.
  constructor.
  - apply inv_init. exact shared.
  - intros m Hm. cbn in Hm. lia.
  - constructor; cbn; try contradiction.
    + intros m (t & []).
    + intros a. exists []. split; [reflexivity|]. intros m [].
    + intros B m. split; [contradiction|]. intros (n & []).
  - constructor.
  - constructor; cbn; [contradiction|constructor|]. intros m1 m2 n nw ol E. destruct nw; discriminate.
  - intros m Hm. cbn in Hm. lia.
  - intros a. now left.
Qed.

Lemma nice_init v0 t0 aff0 : nice (init v0 t0 aff0).
Proof.
  constructor.
  - constructor; cbn.
    + intros a m [[]|(t & [])].
    + intros t a (m & o & []).
    + intros t a [(m & o & [])|(m & [])].
  - constructor; cbn.
    + intros a m (t & []).
    + intros m (t & []).
    + contradiction.
    + intros t a m _ [].
  - constructor; cbn.
    + intros a. constructor.
    + intros a m (t & []).
    + intros t. constructor.
    + intros m A B c [(t & [])|[]].
    + intros A B m c [].
    + intros A B m1 c1 m2 c2 [].
    + intros e1 e2 m1 m2 (nw & bt & ol & E). destruct nw; discriminate.
    + intros A B m1 c1 m2 c2 c v nw ol _ E. destruct nw; discriminate.
  - constructor.
Qed.

Lemma whole_step s l s' : whole s -> (G -> no_race s l) -> crashed s' = false -> step s l s' -> whole s'.
Proof.
  intros [I1 I2 I3 I4 I5 I6 I7] Gr Nc St.
  pose proof (inv_step _ _ _ _ _ _ I1 Gr Nc St) as I'.
  pose proof (step_trans _ _ _ _ _ _ I1 Nc St) as T.
  constructor.
  - exact I'.
  - eapply (based_step _ _ s); eauto.
  - eapply (arr_step _ _ s); eauto. apply I'.
  - eapply (legal_step _ _ s); eauto.
  - eapply (tms_step s); eauto.
  - eapply (tracked_step s); eauto.
  - eapply (settled_step s); eauto.

Qed.

Lemma nice_step s l s' : G -> whole s -> nice s -> (G -> no_race s l) -> step s l s' -> nice s'.
Proof.
  intros g W [N1 N2 N3 N4] Gr St.
  pose proof (w_inv _ W) as Iv.
  assert (Nc : crashed s' = false) by (eapply no_crash; eauto).
  pose proof (whole_step _ _ _ W Gr Nc St) as W'.
  pose proof (step_trans _ _ _ _ _ _ Iv Nc St) as T.
  pose proof (i_struct _ _ _ (w_inv _ W')) as S'.
  pose proof (w_arr _ W) as A. pose proof (w_arr _ W') as A'. pose proof (w_legal _ W) as L.
  constructor.
  - exact (sent_step _ _ s s' g Iv S' N1 T).
  - exact (cmt_step _ _ s s' g Iv N1 N2 T).
  - exact (ordd_step _ _ s s' g Iv S' N1 A A' L N3 T).
  - exact (discreet_step _ _ s s' Iv N1 N2 N4 T).
Qed.

(** A crash changes nothing else. *)
Lemma crash_step (s : state) l (s' : state) : crashed s = false -> step s l s' -> crashed s' = true -> s' = crash s.
Proof.
  intros N St C.
  step_cases St; try (injection E as <-); try (proj; congruence).
  - destruct (mbox s a); [reflexivity|proj; congruence].
  - destruct (mbox s a); [reflexivity|proj; congruence].
  - destruct (catch s a) as [|[? ?] ?]; [discriminate|]. injection E as <-. proj. congruence.
  - exfalso. unfold on_return in C. destruct r; try (proj; congruence). destruct (catch _ a) as [|[? ?] ?]; proj; congruence.
  - destruct (mbox s a) as [|m0 r0]; [reflexivity|]. destruct (mcnt s m0); try reflexivity. proj. congruence.
  - destruct (mbox s a) as [|m0 r0]; [reflexivity|]. destruct (mbase s m =? mbase s m0)%Z; unfold enq_msg in C; proj; congruence.
  - unfold enq_msg in C. proj. congruence.
  - destruct (mbox s b) as [|m0 r0]; [reflexivity|]. destruct o; proj; congruence.
  - destruct (mbox s a); proj; congruence.
  - destruct (frozen (mcnt s x)); proj; congruence.
  - destruct (mcnt s x); proj; congruence.
Qed.

End L9.

(** ** Executions *)
Section Runs.
Context {U V : Type}.
Variable vfalse vdone : V.
Variable shared : nat.
Notation state := (state U V).

Lemma run_whole (s : state) ls s' : @whole U V False vfalse vdone s -> run vfalse vdone shared s ls s' ->
  exists s0, @whole U V False vfalse vdone s0 /\ (s' = s0 \/ s' = crash s0).
Proof.
  intros W R. induction R as [s|s l s1 ls s2 Nc St R IH].
  - eauto.
  - destruct (crashed s1) eqn:E.
    + rewrite (crash_step _ _ _ _ _ _ Nc St E) in *. exists s. split; [assumption|]. right.
      inversion R; subst; [reflexivity|]. discriminate.
    + apply IH. eapply whole_step; eauto. contradiction.
Qed.

Lemma race_free_nice (s : state) ls s' : @whole U V True vfalse vdone s -> nice s -> race_free vfalse vdone shared s ls s' ->
  @whole U V True vfalse vdone s' /\ nice s'.
Proof.
  intros W N R. induction R as [s|s l s1 ls s2 Nc Nr St R IH]; [auto|].
  assert (Nc' : crashed s1 = false) by (eapply no_crash; eauto using w_inv).
  apply IH.
  - eapply whole_step; eauto.
  - exact (nice_step _ _ _ _ _ _ I W N (fun _ => Nr) St).
Qed.

End Runs.

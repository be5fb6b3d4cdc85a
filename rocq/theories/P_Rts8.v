(** Invariant of the runtime, part 10: the history is legal, and messages between
    two actors keep their order. *)
From Coq Require Import Sorting.Sorted.
From Verif Require Import Base S_Rts M_Rts P_RtsTok P_RtsPlace P_Rts1 P_Rts2 P_Rts3 P_Rts4 P_Rts5 P_Rts6 P_Rts7.
Local Open Scope nat_scope.

Section L8.
Context {U V : Type} {G : Prop}.
Notation tok_inv := (@tok_inv U V G).
Notation is_flush := (@is_flush U V G).
Notation fling := (@fling U V G).
Notation struct := (@struct U V G).
Variable vfalse vdone : V.
Variable shared : nat.
Notation instr := (instr U V).
Notation state := (state U V).
Notation event := (event U V).
Notation step := (step vfalse vdone shared).
Notation inv := (@inv U V G vfalse vdone).
Notation trans := (trans vfalse vdone).
Notation legal := (legal vfalse vdone).

Lemma legal_step (s s' : state) : inv s -> based s -> arr s -> legal (log s) -> trans s s' -> legal (log s').
Proof.
  intros Iv Hba Ha L T.
  pose proof (i_struct _ _ _ Iv) as S. pose proof (i_book _ _ _ Iv) as Bk.
  destruct T as [t l' oe Pl Eo Etm Ebox En Eto Eba Ck El Q Etd Ef Qf Qe Ql
                |t a m c v B c' d e Ht Hh Hr He ->|t B c Ht ->|t a rest Ht Hfin ->
                |t i m rest l' Ht Hi Hl' ->|t a m rest m0 Ht Hh Hne ->|t m r Ht Hq Hle ->|t a m r l' Ht Hbox Hl' Hf ->];
    proj; auto.
  - rewrite El. destruct oe as [e|]; [|exact L]. cbn [ext]. constructor; [exact L|]. specialize (Pl e eq_refl).
    destruct e; try exact Pl. destruct Pl as ([r Hb] & P2 & P3). split; [exact P2|]. unfold next_ok in P3.
    destruct (expect vfalse a (log s)); try exact P3.
    destruct P3 as (C1 & C2 & C3). split; [exact C1|]. split; [exact C2|]. split; [|exact C3].
    destruct (a_all _ Ha a) as (dn & E & D). exists dn, r. rewrite E, Hb. auto.
  - constructor; [exact L|]. destruct He as [[-> _]|[_ ->]]; (split; [intros B' c0 K; apply (bk_old _ Bk) in K; lia|eauto]).
  - constructor; [exact L|]. cbn. intros B' c0 K; apply (bk_old _ Bk) in K; lia.
  - assert (Pm : pend s m).
    { destruct Hi as [->|(a0 & m1 & -> & _)]; unfold pend.
      - right. right. left. exists t. rewrite Ht. now left.
      - right. left. exists a0, t. rewrite Ht. now left. }
    pose proof (pend_lt _ _ S Pm) as Lm.
    constructor; [exact L|]. split; [|split].
    + exact (bk_new _ Bk m Lm).
    + intros B' n K. now apply (a_arr _ Ha) in K.
    + rewrite <- (Hba m Lm). destruct Hi as [->|(a0 & m1 & -> & [r1 Hr1] & Eb)].
      * apply (a_enq _ Ha). exists t. rewrite Ht. now left.
      * rewrite Eb. apply (a_box _ Ha a0). rewrite Hr1. now left.
  - assert (Sm : sending s a m) by (exists t; rewrite Ht; now left).
    assert (Pm : pend s m) by (unfold pend; eauto).
    constructor; [exact L|]. split; [|split].
    + exists (mto s m). apply (bk_new _ Bk m). eapply pend_lt; eauto.
    + intros K. apply (a_td _ Ha) in K. destruct K as (_ & _ & K). eapply K; eauto.
    + intros B' n K. apply (a_arr _ Ha) in K. now apply (proj2 K).
  - assert (Tm : In m (timerQ s)) by (rewrite Hq; now left).
    constructor; [exact L|]. split; [|split; [|split]].
    + exact (a_tq _ Ha _ Tm).
    + intros n K. apply (a_fd _ Ha) in K. tauto.
    + intros B' n K. apply (a_arr _ Ha) in K. apply (proj2 K). unfold pend. auto.
    + rewrite <- (Hba m); [exact Hle|]. eapply pend_lt; eauto. unfold pend. auto.
Qed.

Lemma discreet_step (s s' : state) : inv s -> sent s -> cmt s -> discreet (log s) -> trans s s' -> discreet (log s').
Proof.
  intros Iv Hs Hc L T.
  destruct T as [t l' oe Pl Eo Etm Ebox En Eto Eba Ck El Q Etd Ef Qf Qe Ql
                |t a m c v B c' d e Ht Hh Hr He ->|t B c Ht ->|t a rest Ht Hfin ->
                |t i m rest l' Ht Hi Hl' ->|t a m rest m0 Ht Hh Hne ->|t m r Ht Hq Hle ->|t a m r l' Ht Hbox Hl' Hf ->];
    proj; auto.
  - rewrite El. destruct oe as [e|]; [|exact L]. cbn [ext]. constructor; [exact L|]. destruct e; cbn in Q; try contradiction; exact I.
  - constructor; [exact L|]. destruct He as [[-> _]|[_ ->]]; exact I.
  - constructor; [exact L|]. exact I.
  - constructor; [exact L|]. destruct Hi as [->|(a0 & m1 & -> & _)].
    + apply (c_enq _ Hc). exists t. rewrite Ht. now left.
    + apply (c_send _ Hc a0). exists t. rewrite Ht. now left.
  - assert (Sm : sending s a m) by (exists t; rewrite Ht; now left).
    constructor; [exact L|]. split; [exact (c_send _ Hc _ _ Sm)|].
    destruct (h_sent _ Hs a m (or_intror Sm)) as (m1 & Hh1 & K). assert (m1 = m0) by (eapply head_fun; eauto). subst m1.
    destruct K as [(B & c & _ & K)|(d & c & K & Kb)]; [congruence|]. exists a, d, c. split; [exact K|]. intros ->. lia.
  - constructor; [exact L|]. exact I.
Qed.

(** ** Order *)
Definition creates (m : mid) (e : event) : Prop :=
  match e with EAsync _ _ m' _ | EAfter _ m' _ _ | EExt _ m' _ _ => m' = m | _ => False end.

Lemma creates_created m e : creates m e -> exists B c, forall h, In e h -> created m B c h.
Proof.
  destruct e; cbn; intros E; try contradiction; subst.
  - exists B, c. intros h K. left. eauto.
  - exists A, c. intros h K. right. left. eauto.
  - exists B, c. intros h K. right. right. eauto.
Qed.

Lemma legal_uniq (h : list event) : legal h -> forall m e e', In e h -> In e' h -> creates m e -> creates m e' -> e = e'.
Proof.
  induction 1 as [|e0 h L IH Le]; [intros m e e' []|]. intros m e e' K K' C C'.
  assert (N : forall e1, creates m e0 -> In e1 h -> creates m e1 -> False).
  { intros e1 C0 K1 C1. destruct (creates_created _ _ C1) as (B & c & Hcr). specialize (Hcr h K1).
    destruct e0; cbn in C0, Le; try contradiction; subst; [eapply (proj1 Le)|eapply (proj1 Le)|eapply Le]; eauto. }
  destruct K as [<-|K], K' as [<-|K']; auto.
  - exfalso. eapply N; eauto.
  - exfalso. eapply N; eauto.
  - eapply IH; eauto.
Qed.

Lemma legal_nodup (h : list event) B : legal h -> NoDup (arrivals B h).
Proof.
  induction 1 as [|e h L IH Le]; [constructor|]. destruct e; cbn [arrivals]; auto.
  destruct (B0 =? B) eqn:E; [|assumption]. destruct Le as (_ & N & _).
  apply nodup_snoc; [assumption|]. intros K. apply arrivals_in in K. destruct K as (n & K). eapply N; eauto.
Qed.

Lemma precedes_cons (e1 e2 e : event) h : precedes e1 e2 (e :: h) <-> precedes e1 e2 h \/ (e = e2 /\ In e1 h).
Proof.
  split.
  - intros (nw & bt & ol & E). destruct nw as [|x nw]; injection E as -> ->.
    + right. split; [reflexivity|]. apply in_app_iff. right. now left.
    + left. exists nw, bt, ol. reflexivity.
  - intros [(nw & bt & ol & ->)|[-> K]].
    + exists (e :: nw), bt, ol. reflexivity.
    + apply in_split in K. destruct K as (bt & ol & ->). exists [], bt, ol. reflexivity.
Qed.

Lemma precedes_in (e1 e2 : event) h : precedes e1 e2 h -> In e1 h /\ In e2 h.
Proof.
  intros (nw & bt & ol & ->). split; apply in_app_iff; right; [right; apply in_app_iff; right; now left|now left].
Qed.

Record ordd (s : state) : Prop := {
  o_out : forall a, StronglySorted gt (out s a);
  o_send : forall a m, sending s a m -> out s a = [];
  o_fl : forall t, StronglySorted lt (flat_map fl (todo s t));
  o_enq : forall m A B c, enqing s m \/ In m (timerQ s) -> ~ In (EAsync A B m c) (log s);
  o_async : forall A B m c, In (EAsync A B m c) (log s) ->
     In m (arrivals B (log s)) \/ In m (out s A) \/ sending s A m;
  o_order : forall A B m1 c1 m2 c2, In (EAsync A B m1 c1) (log s) -> In (EAsync A B m2 c2) (log s) -> m1 < m2 ->
     In m2 (arrivals B (log s)) -> exists l1 l2 l3, arrivals B (log s) = l1 ++ m1 :: l2 ++ m2 :: l3;
  o_inc : forall e1 e2 m1 m2, precedes e1 e2 (log s) -> creates m1 e1 -> creates m2 e2 -> m1 < m2;
  o_fifo : fifo (log s)
}.

Lemma fl_filter (l : list instr) : flat_map fl l = flat_map fl (filter is_msg l).
Proof. induction l as [|i l IH]; [reflexivity|]. destruct i; cbn; now rewrite IH. Qed.

Lemma fl_sends a l : flat_map fl (map (@ISend U V a) l) = l.
Proof. induction l as [|m l IH]; cbn; [reflexivity|now rewrite IH]. Qed.

Lemma sorted_rev l : StronglySorted gt l -> StronglySorted lt (rev l).
Proof.
  induction 1 as [|x l S IH F]; cbn; [constructor|].
  assert (Gt : forall y, In y (rev l) -> y < x).
  { intros y K. apply in_rev in K. rewrite Forall_forall in F. apply F in K. lia. }
  clear -IH Gt. induction (rev l) as [|y r IHr]; cbn; [repeat constructor|].
  inversion IH; subst. constructor.
  - apply IHr; auto. intros z K. apply Gt. now right.
  - apply Forall_app. split; [assumption|]. constructor; [|constructor]. apply Gt. now left.
Qed.

Lemma fin_fl a (f : list instr) : fin a f -> flat_map fl f = [].
Proof. destruct 1; reflexivity. Qed.

Lemma ids_step (s : state) e : book s ->
  (forall m, creates m e -> m = next s) ->
  (forall e1 e2 m1 m2, precedes e1 e2 (log s) -> creates m1 e1 -> creates m2 e2 -> m1 < m2) ->
  forall e1 e2 m1 m2, precedes e1 e2 (e :: log s) -> creates m1 e1 -> creates m2 e2 -> m1 < m2.
Proof.
  intros Bk N H e1 e2 m1 m2 P C1 C2. apply precedes_cons in P. destruct P as [P|[-> K]]; [eauto|].
  rewrite (N _ C2). destruct (creates_created _ _ C1) as (B & c & Hc). apply Hc in K. now apply (bk_old _ Bk) in K.
Qed.

Lemma fifo_step (s : state) e : glob vdone s ->
  (forall m, creates m e -> m = next s) ->
  (forall a m c v, e <> EBegin a m c v) ->
  fifo (log s) -> fifo (e :: log s).
Proof.
  intros Gl0 N Ne H A B m1 c1 m2 c2 c v nw ol P E.
  destruct nw as [|x nw]; injection E as -> E; [exfalso; eapply Ne; reflexivity|].
  apply precedes_cons in P. destruct P as [P|[-> K]]; [eapply H; eauto|].
  exfalso. specialize (N m2 eq_refl). assert (m2 < next s); [|lia].
  eapply (gl_bg _ _ Gl0 B m2 c v). rewrite E. apply in_app_iff. right. now left.
Qed.

Lemma fifo_begin (s s' : state) a m c v : inv s -> arr s -> legal (log s) -> ordd s ->
  log s' = EBegin a m c v :: log s -> head s a m -> fifo (log s').
Proof.
  intros Iv Ha L O El [r Hb] A B m1 c1 m2 c2 c' v' nw ol P E. rewrite El in P, E.
  apply precedes_cons in P. destruct P as [P|[? _]]; [|discriminate].
  destruct nw as [|x nw]; injection E as E1 E; [|eapply (o_fifo _ O); eauto].
  subst. assert (Lt : m1 < m2) by (eapply (o_inc _ O); eauto; reflexivity).
  destruct (precedes_in _ _ _ P) as [K1 K2].
  destruct (a_all _ Ha B) as (dn & Ea & D). rewrite Hb in Ea.
  destruct (o_order _ O _ _ _ _ _ _ K1 K2 Lt) as (l1 & l2 & l3 & El').
  { rewrite Ea. apply in_app_iff. right. now left. }
  apply D. pose proof (legal_nodup _ B L) as Nd. rewrite Ea in El', Nd.
  assert (K : In m1 (dn ++ m2 :: r)) by (rewrite El'; apply in_app_iff; right; now left).
  (* m2 occurs once, so the part before it is the same *)
  assert (Pre : dn = l1 ++ m1 :: l2).
  { assert (El2 : dn ++ m2 :: r = (l1 ++ m1 :: l2) ++ m2 :: l3) by (rewrite El', <- app_assoc; reflexivity).
    clear -El2 Nd. revert El2. generalize (l1 ++ m1 :: l2) as k. induction dn as [|x dn IH]; intros [|y k] E; cbn in E.
    - reflexivity.
    - injection E as <- E. cbn in Nd. inversion Nd; subst. exfalso. apply H1. apply in_app_iff. right. now left.
    - injection E as -> E. cbn in Nd. inversion Nd; subst. exfalso. apply H1. apply in_app_iff. right. now left.
    - injection E as <- E. f_equal. cbn in Nd. inversion Nd; subst. auto. }
  rewrite Pre. apply in_app_iff. right. now left.
Qed.

Lemma ordd_step (s s' : state) : G -> inv s -> struct s' -> sent s -> arr s -> arr s' -> legal (log s) -> ordd s -> trans s s' -> ordd s'.
Proof.
  intros g Iv S' Hs Ha Ha' L O T.
  pose proof (i_struct _ _ _ Iv) as S. pose proof (i_book _ _ _ Iv) as Bk. pose proof (i_gl _ _ _ Iv) as Gl.
  pose proof O as [H1 H2 H3 H4 H5 H6 H7 H8].
  destruct T as [t l' oe Pl Eo Etm Ebox En Eto Eba Ck El Q Etd Ef Qf Qe Ql
                |t a m c v B c' d e Ht Hh Hr He ->|t B c Ht ->|t a rest Ht Hfin ->
                |t i m rest l' Ht Hi Hl' ->|t a m rest m0 Ht Hh Hne ->|t m r Ht Hq Hle ->|t a m r l' Ht Hbox Hl' Hf ->].
  - (* quiet *)
    assert (Mi : forall t' i, is_msg i = true -> In i (todo s' t') -> In i (todo s t')).
    { intros t' i Hm K. destruct (todo_in _ _ _ _ _ _ Etd K) as [[-> K']|[_ K']]; [eapply msg_in; eauto|assumption]. }
    assert (Mo : forall t' i, is_msg i = true -> In i (todo s t') -> In i (todo s' t')).
    { intros t' i Hm K. rewrite Etd. unfold upd. destruct (Nat.eqb_spec t' t) as [Et|]; [subst|assumption].
      eapply msg_in; [symmetry; exact Ef|assumption..]. }
    assert (Sd : forall a m, sending s' a m -> sending s a m) by (intros a m (t' & K); exists t'; now apply Mi).
    assert (Sd' : forall a m, sending s a m -> sending s' a m) by (intros a m (t' & K); exists t'; now apply Mo).
    assert (Sn : forall m, enqing s' m -> enqing s m) by (intros m (t' & K); exists t'; now apply Mi).
    assert (Lo : forall A B m c, In (EAsync A B m c) (log s') -> In (EAsync A B m c) (log s)).
    { intros A B m c K. rewrite El in K. destruct oe as [e'|]; cbn in K; [|assumption]. destruct K as [->|K]; [destruct Q|assumption]. }
    assert (Ar : forall B, arrivals B (log s') = arrivals B (log s)).
    { intros B. rewrite El. destruct oe as [e'|]; [|reflexivity]. destruct e'; cbn in Q; try contradiction; reflexivity. }
    constructor; rewrite ?Eo, ?Etm; auto.
    + intros a m K. eapply H2; eauto.
    + intros t'. rewrite Etd. unfold upd. destruct (Nat.eqb_spec t' t) as [Et|]; [|auto].
      rewrite fl_filter, Ef, <- fl_filter. auto.
    + intros m A B c [K|K] J; eapply H4; eauto.
    + intros A B m c K. rewrite Ar. apply Lo in K. destruct (H5 _ _ _ _ K) as [J|[J|J]]; auto.
    + intros A B m1 c1 m2 c2 K1 K2 Lt. rewrite Ar. eauto.
    + destruct oe as [e|]; rewrite El; cbn [ext]; [|exact H7]. eapply ids_step; eauto. intros m C. destruct e; cbn in Q, C; contradiction.
    + destruct oe as [e|]; [|rewrite El; exact H8].
      destruct e; cbn in Q; try contradiction; [eapply fifo_begin; eauto; apply (Pl _ eq_refl)|..]; rewrite El; cbn [ext];
        (eapply fifo_step; eauto; [intros m0 C; cbn in C; contradiction|discriminate]).
  - (* push *)
    assert (Ar : forall B', arrivals B' (e :: log s) = arrivals B' (log s)) by (intros; destruct He as [[-> _]|[_ ->]]; reflexivity).
    assert (Ce : forall m', creates m' e -> m' = next s) by (intros m' C; destruct He as [[-> _]|[_ ->]]; cbn in C; congruence).
    assert (As : forall A B' x c0, In (EAsync A B' x c0) (e :: log s) -> In (EAsync A B' x c0) (log s) \/ (x = next s /\ A = a)).
    { intros A B' x c0 [->|K]; [|auto]. destruct He as [[E _]|[_ E]]; [injection E as -> _ -> _; auto|discriminate]. }
    assert (Lx : forall A B' x c0, In (EAsync A B' x c0) (log s) -> x < next s).
    { intros A B' x c0 K. apply (bk_old _ Bk x B' c0). left. eauto. }
    constructor; proj; auto.
    + intros b. unfold upd. destruct (Nat.eqb_spec b a) as [Eb|N]; [|auto]. constructor; [auto|].
      apply Forall_forall. intros x K. assert (x < next s); [|lia]. eapply pend_lt; eauto. unfold pend. eauto.
    + intros b x K. assert (K' : sending s b x) by exact K. unfold upd. destruct (Nat.eqb_spec b a) as [Eb|N]; [|eauto].
      exfalso. subst b. destruct K' as (t' & K').
      destruct S as (loc & place & TI & _).
      assert (F : fling s t' a) by (split; [exact g|right; eauto]).
      destruct (ti_flush _ _ TI _ _ F) as [_ F2]. rewrite <- (F2 t) in K'.
      * rewrite Ht in K'. destruct K' as [K'|[]]. discriminate.
      * eapply xtok_loc; eauto. { rewrite Ht. now left. } reflexivity.
    + intros x A B' c0 K J. apply As in J. destruct J as [J|[-> _]]; [eapply H4; eauto|].
      assert (next s < next s); [|lia]. apply (pend_lt s _ S). unfold pend.
      destruct K as [K|K]; [right; right; left; exact K|auto].
    + intros A B' x c0 K. rewrite Ar. apply As in K. destruct K as [K|[-> ->]].
      * destruct (H5 _ _ _ _ K) as [J|[J|J]]; [auto| |right; right; exact J].
        right. left. unfold upd. destruct (Nat.eqb_spec A a) as [->|N]; [now right|assumption].
      * right. left. rewrite upd_same. now left.
    + intros A B' m1 c1 m2 c2 K1 K2 Lt. rewrite Ar. intros J.
      assert (m2 < next s). { apply arrivals_in in J. destruct J as (n & J). now apply (a_arr _ Ha) in J. }
      apply As in K1. apply As in K2. destruct K1 as [K1|[-> _]]; [|lia]. destruct K2 as [K2|[-> _]]; [|lia]. eauto.
    + eapply (ids_step s e); eauto.
    + eapply (fifo_step s e); eauto. intros b x c0 v0. destruct He as [[-> _]|[_ ->]]; discriminate.
  - (* ext *)
    set (s' := logev _ _) in *.
    assert (Sd : forall b x, sending s' b x -> sending s b x).
    { intros b x (t' & K). unfold s' in K. proj. unfold upd in K. destruct (Nat.eqb_spec t' t).
      - destruct K as [K|[]]. discriminate.
      - exists t'. assumption. }
    assert (Sd' : forall b x, sending s b x -> sending s' b x).
    { intros b x (t' & K). exists t'. unfold s'. proj. unfold upd. destruct (Nat.eqb_spec t' t) as [Et|]; [|assumption].
      subst t'. rewrite Ht in K. destruct K. }
    assert (Sn : forall x, enqing s' x -> enqing s x \/ x = next s).
    { intros x (t' & K). unfold s' in K. proj. unfold upd in K. destruct (Nat.eqb_spec t' t).
      - destruct K as [K|[]]. injection K as <-. now right.
      - left. exists t'. assumption. }
    assert (Lx : forall A B' x c0, In (EAsync A B' x c0) (log s) -> x < next s).
    { intros A B' x c0 K. apply (bk_old _ Bk x B' c0). left. eauto. }
    assert (As : forall A B' x c0, In (EAsync A B' x c0) (log s') -> In (EAsync A B' x c0) (log s)).
    { intros A B' x c0 [K|K]; [discriminate|assumption]. }
    assert (Ar : forall B', arrivals B' (log s') = arrivals B' (log s)) by reflexivity.
    constructor; auto.
    + intros b x K. eapply H2; eauto.
    + intros t'. unfold s'. proj. unfold upd. destruct (Nat.eqb_spec t' t); [cbn; repeat constructor|auto].
    + intros x A B' c0 K J. apply As in J. destruct K as [K|K]; [|eapply H4; eauto].
      apply Sn in K. destruct K as [K| ->]; [eapply H4; eauto|]. apply Lx in J. lia.
    + intros A B' x c0 K. rewrite Ar. apply As in K. destruct (H5 _ _ _ _ K) as [J|[J|J]]; auto.
    + intros A B' m1 c1 m2 c2 K1 K2 Lt. rewrite Ar. eauto.
    + eapply (ids_step s); eauto; intros x C; cbn in C; congruence.
    + eapply (fifo_step s); eauto; try discriminate; intros x C; cbn in C; congruence.
  - (* flush *)
    set (s' := set_out _ _) in *.
    assert (Sd : forall b x, sending s' b x -> sending s b x \/ (b = a /\ In x (out s a))).
    { intros b x (t' & K). unfold s' in K. proj. unfold upd in K. destruct (Nat.eqb_spec t' t) as [Et|N]; [|left; exists t'; assumption].
      apply in_app_iff in K. destruct K as [K|K].
      - apply in_map_iff in K. destruct K as (y & E & Hy). injection E as <- <-. right. split; [reflexivity|now apply in_rev].
      - exfalso. eapply (@fin_noflush U V True a rest b); eauto. split; [exact I|right; eauto]. }
    assert (Sd' : forall b x, sending s b x \/ (b = a /\ In x (out s a)) -> sending s' b x).
    { intros b x [(t' & K)|[-> K]].
      - exists t'. unfold s'. proj. unfold upd. destruct (Nat.eqb_spec t' t) as [Et|]; [|assumption].
        subst t'. rewrite Ht in K. destruct K as [K|K]; [discriminate|]. apply in_app_iff. now right.
      - exists t. unfold s'. proj. rewrite upd_same. apply in_app_iff. left. apply in_map. now apply in_rev in K. }
    assert (Sn : forall x, enqing s' x -> enqing s x).
    { intros x (t' & K). unfold s' in K. proj. unfold upd in K. destruct (Nat.eqb_spec t' t) as [Et|N]; [|exists t'; assumption].
      apply in_app_iff in K. destruct K as [K|K].
      - apply in_map_iff in K. destruct K as (y & E & Hy). discriminate.
      - exists t. rewrite Ht. now right. }
    constructor; auto.
    + intros b. unfold s'. proj. unfold upd. destruct (b =? a); [constructor|auto].
    + intros b x K. unfold s'. proj. unfold upd. destruct (Nat.eqb_spec b a) as [Eb|N]; [reflexivity|].
      destruct (Sd _ _ K) as [J|[J _]]; [eauto|contradiction].
    + intros t'. unfold s'. proj. unfold upd. destruct (Nat.eqb_spec t' t) as [Et|N]; [|auto].
      rewrite flat_map_app, fl_sends, (fin_fl a rest Hfin), app_nil_r. now apply sorted_rev.
    + intros x A B' c0 [K|K]; apply H4; auto.
    + intros A B' x c0 K. unfold s' in K. proj. destruct (H5 _ _ _ _ K) as [J|[J|J]]; [auto| |auto].
      unfold s' at 2. proj. unfold upd. destruct (Nat.eqb_spec A a) as [->|N]; [right; right; apply Sd'; auto|auto].
  - (* arrive *)
    set (s' := logev _ _) in *.
    assert (Tl : forall j, In j l' -> j = IReady (mto s m) \/ In j rest).
    { intros j K. destruct Hl' as [->| ->]; [auto|destruct K; auto]. }
    assert (Tl' : forall j, In j rest -> In j l').
    { intros j K. destruct Hl' as [->| ->]; [auto|now right]. }
    assert (Old : forall t' j, In j (todo s' t') -> j = IReady (mto s m) \/ In j (todo s t')).
    { intros t' j K. unfold s' in K. proj. unfold upd in K. destruct (Nat.eqb_spec t' t) as [Et|N]; [|auto]. subst t'. rewrite Ht.
      destruct (Tl _ K); [auto|right; now right]. }
    assert (Sd : forall b x, sending s' b x -> sending s b x).
    { intros b x (t' & K). exists t'. destruct (Old _ _ K) as [J|J]; [discriminate|assumption]. }
    assert (Sd' : forall b x, sending s b x -> x <> m -> sending s' b x).
    { intros b x (t' & K) N. exists t'. unfold s'. proj. unfold upd. destruct (Nat.eqb_spec t' t) as [Et|]; [|assumption].
      subst t'. apply Tl'. rewrite Ht in K. destruct K as [K|K]; [|assumption].
      destruct Hi as [->|(a0 & m1 & -> & _)]; congruence. }
    assert (Sn : forall x, enqing s' x -> enqing s x).
    { intros x (t' & K). exists t'. destruct (Old _ _ K) as [J|J]; [discriminate|assumption]. }
    assert (Pm : pend s m).
    { destruct Hi as [->|(a0 & m1 & -> & _)]; unfold pend.
      - right. right. left. exists t. rewrite Ht. now left.
      - right. left. exists a0, t. rewrite Ht. now left. }
    assert (As : forall A B' x c0, In (EAsync A B' x c0) (log s') -> In (EAsync A B' x c0) (log s)).
    { intros A B' x c0 [K|K]; [discriminate|assumption]. }
    assert (Ar : forall B', arrivals B' (log s') = if mto s m =? B' then arrivals B' (log s) ++ [m] else arrivals B' (log s)).
    { intros B'. reflexivity. }
    assert (Ai : forall B' x, In x (arrivals B' (log s')) <-> In x (arrivals B' (log s)) \/ (B' = mto s m /\ x = m)).
    { intros B' x. rewrite Ar. destruct (Nat.eqb_spec (mto s m) B') as [E|N]; [subst B'; rewrite in_snoc; tauto|].
      split; [auto|]. intros [K|[K _]]; [assumption|congruence]. }
    constructor; auto.
    + intros b x K. eapply H2; eauto.
    + intros t'. unfold s'. proj. unfold upd. destruct (Nat.eqb_spec t' t) as [Et|N]; [|auto].
      specialize (H3 t). rewrite Ht in H3. cbn [flat_map] in H3.
      assert (R : StronglySorted lt (flat_map fl rest)).
      { destruct Hi as [->|(a0 & m1 & -> & _)]; cbn in H3; now inversion H3. }
      destruct Hl' as [->| ->]; exact R.
    + intros x A B' c0 K J. apply As in J. destruct K as [K|K]; eapply H4; eauto.
    + intros A B' x c0 K. apply As in K. rewrite Ai. destruct (Nat.eq_dec x m) as [->|N].
      * left. right. split; [|reflexivity]. symmetry. apply (bk_old _ Bk m B' c0). left. eauto.
      * destruct (H5 _ _ _ _ K) as [J|[J|J]]; auto.
    + intros A B' m1 c1 m2 c2 K1 K2 Lt J. apply As in K1. apply As in K2. apply Ai in J.
      destruct J as [J|[-> ->]].
      * destruct (H6 _ _ _ _ _ _ K1 K2 Lt J) as (l1 & l2 & l3 & E). rewrite Ar, E.
        destruct (mto s m =? B'); [|eauto]. exists l1, l2, (l3 ++ [m]). now rewrite <- !app_assoc, <- !app_comm_cons, <- !app_assoc.
      * rewrite Ar, Nat.eqb_refl.
        assert (K : In m1 (arrivals (mto s m) (log s))).
        { destruct Hi as [->|(a0 & mh & -> & _)].
          - exfalso. eapply (H4 m); [|exact K2]. left. exists t. rewrite Ht. now left.
          - assert (Sm : sending s a0 m) by (exists t; rewrite Ht; now left).
            destruct (h_sent _ Hs a0 m (or_intror Sm)) as (m3 & _ & K3).
            assert (A = a0).
            { destruct K3 as [(B3 & c3 & K3 & _)|(d3 & c3 & K3 & _)].
              - pose proof (legal_uniq _ L m _ _ K2 K3 eq_refl eq_refl). congruence.
              - pose proof (legal_uniq _ L m _ _ K2 K3 eq_refl eq_refl). discriminate. }
            subst a0. destruct (H5 _ _ _ _ K1) as [Q|[Q|(t' & Q)]]; [assumption|..]; exfalso.
            + rewrite (H2 _ _ Sm) in Q. destruct Q.
            + assert (F : fling s t' A) by (split; [exact g|right; eauto]). assert (F' : fling s t A) by (split; [exact g|right; exists m; rewrite Ht; now left]).
              destruct S as (loc & place & TI & PI & _).
              assert (t' = t) by (eapply (ti_one _ _ TI); eauto). subst t'.
              rewrite Ht in Q. destruct Q as [Q|Q]; [injection Q as ->; lia|].
              specialize (H3 t). rewrite Ht in H3. cbn in H3. inversion H3 as [|? ? _ Fa]; subst.
              rewrite Forall_forall in Fa. assert (m < m1); [|lia]. apply Fa. apply in_flat_map. exists (ISend A m1). split; [assumption|now left]. }
        apply in_split in K. destruct K as (l1 & l2 & ->). exists l1, l2, []. now rewrite <- app_assoc, <- app_comm_cons.
    + eapply (ids_step s); eauto; intros x C; destruct C.
    + eapply (fifo_step s); eauto; try discriminate; intros x C; destruct C.
  - (* timed *)
    set (s' := logev _ _) in *.
    assert (Old : forall t' j, In j (todo s' t') -> In j (todo s t')).
    { intros t' j K. unfold s' in K. proj. unfold upd in K. destruct (Nat.eqb_spec t' t) as [Et|N]; [|auto]. subst t'. rewrite Ht. now right. }
    assert (Sd : forall b x, sending s' b x -> sending s b x).
    { intros b x (t' & K). exists t'. auto. }
    assert (Sd' : forall b x, sending s b x -> x <> m -> sending s' b x).
    { intros b x (t' & K) N. exists t'. unfold s'. proj. unfold upd. destruct (Nat.eqb_spec t' t) as [Et|]; [|assumption].
      subst t'. rewrite Ht in K. destruct K as [K|K]; [congruence|assumption]. }
    assert (Sn : forall x, enqing s' x -> enqing s x).
    { intros x (t' & K). exists t'. auto. }
    assert (Sm : sending s a m) by (exists t; rewrite Ht; now left).
    assert (Tm : forall x, In x (timerQ s') -> In x (timerQ s) \/ x = m).
    { intros x K. unfold s' in K. proj. now apply enq_timed_in in K. }
    assert (Na : forall A B' c0, ~ In (EAsync A B' m c0) (log s)).
    { intros A B' c0 K. destruct (h_sent _ Hs a m (or_intror Sm)) as (m1 & Hh1 & K'). assert (m1 = m0) by (eapply head_fun; eauto). subst m1.
      destruct K' as [(B1 & c1 & _ & Kb)|(d1 & c1 & K' & _)]; [congruence|].
      pose proof (legal_uniq _ L m _ _ K K' eq_refl eq_refl). discriminate. }
    assert (As : forall A B' x c0, In (EAsync A B' x c0) (log s') -> In (EAsync A B' x c0) (log s)).
    { intros A B' x c0 [K|K]; [discriminate|assumption]. }
    assert (Ar : forall B', arrivals B' (log s') = arrivals B' (log s)) by reflexivity.
    constructor; auto.
    + intros b x K. eapply H2; eauto.
    + intros t'. unfold s'. proj. unfold upd. destruct (Nat.eqb_spec t' t) as [Et|N]; [|auto].
      specialize (H3 t). rewrite Ht in H3. cbn in H3. now inversion H3.
    + intros x A B' c0 K J. apply As in J. destruct K as [K|K]; [eapply H4; eauto|].
      destruct (Tm _ K) as [K'| ->]; [eapply H4; eauto|eapply Na; eauto].
    + intros A B' x c0 K. apply As in K. rewrite Ar. destruct (Nat.eq_dec x m) as [->|N]; [exfalso; eapply Na; eauto|].
      destruct (H5 _ _ _ _ K) as [J|[J|J]]; auto.
    + intros A B' m1 c1 m2 c2 K1 K2 Lt. rewrite Ar. eauto.
    + eapply (ids_step s); eauto; intros x C; destruct C.
    + eapply (fifo_step s); eauto; try discriminate; intros x C; destruct C.
  - (* fire *)
    set (s' := logev _ _) in *.
    assert (Sd : forall b x, sending s' b x -> sending s b x).
    { intros b x (t' & K). unfold s' in K. proj. unfold upd in K. destruct (Nat.eqb_spec t' t).
      - destruct K as [K|[]]. discriminate.
      - exists t'. assumption. }
    assert (Sd' : forall b x, sending s b x -> sending s' b x).
    { intros b x (t' & K). exists t'. unfold s'. proj. unfold upd. destruct (Nat.eqb_spec t' t) as [Et|]; [|assumption].
      subst t'. rewrite Ht in K. destruct K. }
    assert (Sn : forall x, enqing s' x -> enqing s x \/ x = m).
    { intros x (t' & K). unfold s' in K. proj. unfold upd in K. destruct (Nat.eqb_spec t' t).
      - destruct K as [K|[]]. injection K as <-. now right.
      - left. exists t'. assumption. }
    assert (Mq : In m (timerQ s)) by (rewrite Hq; now left).
    assert (Tq : forall x, In x (timerQ s') -> In x (timerQ s)) by (intros x K; rewrite Hq; now right).
    assert (As : forall A B' x c0, In (EAsync A B' x c0) (log s') -> In (EAsync A B' x c0) (log s)).
    { intros A B' x c0 [K|K]; [discriminate|assumption]. }
    assert (Ar : forall B', arrivals B' (log s') = arrivals B' (log s)) by reflexivity.
    constructor; auto.
    + intros b x K. eapply H2; eauto.
    + intros t'. unfold s'. proj. unfold upd. destruct (Nat.eqb_spec t' t); [cbn; repeat constructor|auto].
    + intros x A B' c0 K J. apply As in J. destruct K as [K|K]; [|eapply (H4 x); [|exact J]; auto].
      apply Sn in K. destruct K as [K|E]; [eapply (H4 x); [|exact J]; auto|subst x; eapply (H4 m); [|exact J]; auto].
    + intros A B' x c0 K. rewrite Ar. apply As in K. destruct (H5 _ _ _ _ K) as [J|[J|J]]; auto.
    + intros A B' m1 c1 m2 c2 K1 K2 Lt. rewrite Ar. eauto.
    + eapply (ids_step s); eauto; intros x C; destruct C.
    + eapply (fifo_step s); eauto; try discriminate; intros x C; destruct C.
  - (* dequeue *)
    set (s' := set_mbox _ _) in *.
    assert (Old : forall t' j, In j (todo s' t') -> j = IReady a \/ In j (todo s t')).
    { intros t' j K. unfold s' in K. proj. unfold upd in K. destruct (Nat.eqb_spec t' t) as [Et|N]; [|auto].
      destruct Hl' as [->| ->]; [destruct K|destruct K as [<-|[]]; auto]. }
    assert (Sd : forall b x, sending s' b x -> sending s b x).
    { intros b x (t' & K). exists t'. destruct (Old _ _ K) as [J|J]; [discriminate|assumption]. }
    assert (Sd' : forall b x, sending s b x -> sending s' b x).
    { intros b x (t' & K). exists t'. unfold s'. proj. unfold upd. destruct (Nat.eqb_spec t' t) as [Et|]; [|assumption].
      subst t'. rewrite Ht in K. destruct K as [K|[]]. discriminate. }
    assert (Sn : forall x, enqing s' x -> enqing s x).
    { intros x (t' & K). exists t'. destruct (Old _ _ K) as [J|J]; [discriminate|assumption]. }
    constructor; auto.
    + intros b x K. eapply H2; eauto.
    + intros t'. unfold s'. proj. unfold upd. destruct (Nat.eqb_spec t' t) as [Et|N]; [|auto].
      destruct Hl' as [->| ->]; cbn; constructor.
    + intros x A B' c0 [K|K] J; eapply H4; eauto.
    + intros A B' x c0 K. destruct (H5 _ _ _ _ K) as [J|[J|J]]; auto.
Qed.

End L8.

(** Executions with at most one crash, of programs that await nothing. *)
From Verif Require Import Base S_Recovery M_Recovery.
From Coq Require Import Arith Lia.
Open Scope nat_scope.

Lemma set_eq {A} (f : nat -> A) a x : set f a x a = x.
Proof. unfold set. rewrite Nat.eqb_refl. auto. Qed.
Lemma set_ne {A} (f : nat -> A) a x b : b <> a -> set f a x b = f b.
Proof. intros N. unfold set. destruct (Nat.eqb_spec b a); congruence. Qed.

Lemma NoDup_app_ {A} (a b : list A) : NoDup a -> NoDup b -> (forall x, In x a -> In x b -> False) -> NoDup (a ++ b).
Proof.
  induction a as [|x a IH]; intros Na Nb H; cbn; auto. inversion Na; subst. constructor.
  - intros I. apply in_app_or in I as [I|I]; auto. apply (H x); auto. left; auto.
  - apply IH; auto. intros y Y1 Y2. apply (H y); auto. right; auto.
Qed.

Section P.
Context {st code val : Type} (prog : programs st code val) (none : val) (actors : list nat).
Hypothesis no_await : awaits_nothing prog.
Arguments letters {code val} _ _ : simpl never.
Notation msgs := (nat -> option (@msg code val)).
Notation world := (@world st code val).

Definition to_ (ms : msgs) (b k : nat) : bool := match ms k with Some x => m_to x =? b | None => false end.
Lemma enqueue_eq ms ks : forall q b, enqueue ks ms q b = q b ++ filter (to_ ms b) ks.
Proof.
  induction ks as [|k ks IH]; intros q b; cbn [enqueue filter]. rewrite app_nil_r; auto. unfold to_ at 1. destruct (ms k) as [x|]; auto.
  rewrite IH. destruct (Nat.eqb_spec (m_to x) b) as [<-|N]. rewrite set_eq, <- app_assoc. auto. rewrite set_ne; auto.
Qed.
Definition codes (ms : msgs) (ks : list nat) : list code := map snd (letters ms ks).
Lemma letters_app (ms : msgs) a b : letters ms (a ++ b) = letters ms a ++ letters ms b.
Proof. unfold letters. apply flat_map_app. Qed.
Lemma codes_app (ms : msgs) a b : codes ms (a ++ b) = codes ms a ++ codes ms b.
Proof. unfold codes. rewrite letters_app, map_app. auto. Qed.
Lemma letters_ext (ms ms' : msgs) ks : (forall k, In k ks -> option_map (fun x => (m_to x, m_code x)) (ms k) = option_map (fun x => (m_to x, m_code x)) (ms' k)) -> letters ms ks = letters ms' ks.
Proof.
  unfold letters in *. induction ks as [|k ks IH]; intros H; cbn [flat_map]; auto. rewrite IH by (intros; apply H; right; auto). f_equal.
  specialize (H k (or_introl eq_refl)). destruct (ms k), (ms' k); cbn in H; congruence.
Qed.
Lemma codes_filter ms b ks : codes ms (filter (to_ ms b) ks) = sent_to b (letters ms ks).
Proof.
  unfold codes, sent_to, letters. induction ks as [|k ks IH]; cbn; auto. unfold to_ at 1. destruct (ms k) as [x|] eqn:E; cbn.
  - destruct (m_to x =? b); cbn; auto. rewrite E. cbn. f_equal. auto.
  - auto.
Qed.

Lemma new_out (o : list (nat * code)) : forall k (ms : msgs) j, j < k \/ k + length o <= j -> new_msgs none o k ms j = ms j.
Proof.
  induction o as [|[to c] o IH]; intros k ms j H; cbn [new_msgs length] in *; auto. rewrite IH by lia. apply set_ne. lia.
Qed.
Lemma new_in (o : list (nat * code)) : forall k (ms : msgs) i to c, nth_error o i = Some (to, c) -> new_msgs none o k ms (k + i) = Some (Msg to c (Some c) none).
Proof.
  induction o as [|[t d] o IH]; intros k ms i to c H. destruct i; discriminate. destruct i as [|i]; cbn [new_msgs].
  - cbn in H. inversion H; subst. rewrite new_out by lia. rewrite Nat.add_0_r. apply set_eq.
  - rewrite <- (IH (S k) (set ms k (Some (Msg t d (Some d) none))) i to c H). f_equal. lia.
Qed.
Lemma new_letters (o : list (nat * code)) : forall k (ms : msgs), letters (new_msgs none o k ms) (seq k (length o)) = o.
Proof.
  induction o as [|[t c] o IH]; intros k ms; cbn [length seq]; auto. unfold letters in *. cbn [flat_map new_msgs].
  rewrite new_out by lia. rewrite set_eq. cbn. f_equal. apply IH.
Qed.

(** A message as it was sent. *)
Definition intact (x : @msg code val) : Prop := m_cont x = Some (m_code x) /\ m_val x = none.
Definition stored (ms : msgs) (k : nat) : Prop := exists x, ms k = Some x /\ intact x.

(** What an actor has done of its first message. *)
Definition progress (w : world) (g : config st code) (a : nat) : Prop :=
  match q_of (m w) a with
  | [] => st_of (m w) a = states g a /\ out_of (m w) a = []
  | k :: _ => exists x c, msg_of (m w) k = Some x /\ m_cont x = Some c /\
      forall o s', handles prog a c (st_of (m w) a) (m_val x) o s' ->
                   handles prog a (m_code x) (states g a) none (letters (msg_of (m w)) (out_of (m w) a) ++ o) s'
  end.
Definition finished (w : world) (g : config st code) (a : nat) : Prop :=
  match q_of (m w) a with
  | [] => False
  | k :: _ => exists x, msg_of (m w) k = Some x /\
      handles prog a (m_code x) (states g a) none (letters (msg_of (m w)) (out_of (m w) a)) (st_of (m w) a)
  end.
Definition flushed (w : world) (a : nat) : nat -> list nat :=
  let q := enqueue (out_of (m w) a) (msg_of (m w)) (q_of (m w)) in set q a (tl (q a)).
Definition unread (w : world) (b : nat) : list nat := skipn (d_read (d w) b) (d_q (d w) b).

Record keys_ok (w : world) : Prop := {
  k_q : forall a, NoDup (q_of (m w) a);
  k_o : forall a, NoDup (out_of (m w) a);
  k_qo : forall a b k, In k (q_of (m w) a) -> In k (out_of (m w) b) -> False;
  k_oo : forall a b k, a <> b -> In k (out_of (m w) a) -> In k (out_of (m w) b) -> False;
  k_qn : forall a k, In k (q_of (m w) a) -> k < next_key (m w);
  k_on : forall a k, In k (out_of (m w) a) -> k < next_key (m w);
  k_to : forall a k, In k (q_of (m w) a) -> exists x, msg_of (m w) k = Some x /\ m_to x = a;
  k_tl : forall a k, In k (tl (q_of (m w) a)) -> stored (msg_of (m w)) k;
  k_out : forall a k, In k (out_of (m w) a) -> stored (msg_of (m w)) k }.

(** The database holds what the memory holds, as it was before the messages being handled. *)
Record synced (w : world) (g : config st code) (Q : nat -> list nat) : Prop := {
  s_st : forall a, d_st (d w) a = states g a;
  s_q : forall a, unread w a = match phase_of (m w) a with Read _ _ => tl (Q a) | _ => Q a end;
  s_row : forall a k, In k (unread w a) -> exists x, msg_of (m w) k = Some x /\ d_msg (d w) k = Some (Msg a (m_code x) (Some (m_code x)) none);
  s_len : forall a, d_read (d w) a <= length (d_q (d w) a);
  s_next : forall a k, In k (unread w a) -> k < d_next (d w) }.

Definition Q_of (w : world) (a : option nat) : nat -> list nat := match a with Some a => flushed w a | None => q_of (m w) end.
Inductive shape (w : world) (g : config st code) : option nat -> Prop :=
| sh_idle : busy (m w) = [] -> (forall a, phase_of (m w) a = Idle) -> (forall a, progress w g a) -> shape w g None
| sh_done a v : busy (m w) = [a] -> phase_of (m w) a = Finished v \/ (exists h, phase_of (m w) a = Read v h) -> (forall b, b <> a -> phase_of (m w) b = Idle) ->
    (forall b, b <> a -> progress w g b) -> finished w g a -> shape w g None
| sh_saved a v : busy (m w) = [a] -> phase_of (m w) a = Saved v -> (forall b, b <> a -> phase_of (m w) b = Idle) ->
    (forall b, b <> a -> progress w g b) -> q_of (m w) a <> [] -> st_of (m w) a = states g a -> shape w g (Some a).

Record Inv (s0 : config st code) (fresh : bool) (w : world) (g : config st code) : Prop := {
  i_ex : executes prog none s0 (hist w) g;
  i_wait : forall a, wait_of (m w) a = None;
  i_dwait : forall a, d_wait (d w) a = None;
  i_keys : keys_ok w;
  i_shape : exists o, shape w g o /\ (forall a, codes (msg_of (m w)) (Q_of w o a) = queues g a) /\ (fresh = true -> synced w g (Q_of w o)) }.

Lemma filter_none {A} (f : A -> bool) l : (forall x, f x = false) -> filter f l = [].
Proof. intros H. induction l as [|x l IH]; cbn; auto. rewrite H. auto. Qed.

(** Running. *)
Lemma run_inv s0 fresh w g a w' : Inv s0 fresh w g -> do_run prog none 1 a w = Some w' -> Inv s0 fresh w' g.
Proof.
  intros [Iex Iw Idw Ik (o & Sh & Iq & Is)] R. unfold do_run in R.
  destruct (Nat.ltb_spec (length (busy (m w))) 1) as [L|L]; cbn [negb orb] in R; [|discriminate].
  assert (B : busy (m w) = []) by (destruct (busy (m w)); cbn in L; auto; lia). clear L.
  destruct Sh as [Bz Ph Pr|b v Bz _ _ _ _|b v Bz _ _ _ _ _]; try congruence. rewrite Ph in R. cbn [is_idle negb] in R.
  destruct (q_of (m w) a) as [|k q] eqn:Eq; [discriminate|]. rewrite Iw in R.
  destruct (msg_of (m w) k) as [[to c0 [c|] v]|] eqn:Em; try discriminate.
  pose proof (Pr a) as Pa. unfold progress in Pa. rewrite Eq in Pa. destruct Pa as (x & c' & Ex & Ec & Hh). rewrite Em in Ex. inversion Ex; subst x. cbn in Ec. inversion Ec; subst c'. cbn [m_val m_code] in Hh. clear Ex Ec.
  cbn [Q_of] in Iq, Is.
  (* what sending does *)
  assert (X : forall s os ph bz, let w1 := with_phase a ph bz (sending none a s os (m w)) in forall mk, 
     (mk = msg_of w1 \/ exists c1 v1, mk = set (msg_of w1) k (Some (Msg to c0 (Some c1) v1))) ->
     let w2 := World (Mem (st_of w1) (q_of w1) (out_of w1) (wait_of w1) (phase_of w1) mk (next_key w1) (busy w1)) (d w) (hist w) in
     keys_ok w2 /\ (forall b, codes mk (q_of (m w) b) = codes (msg_of (m w)) (q_of (m w) b)) /\
     letters mk (out_of w1 a) = letters (msg_of (m w)) (out_of (m w) a) ++ os /\
     (forall b, b <> a -> progress w2 g b) /\
     (forall j, j < next_key (m w) -> j <> k -> mk j = msg_of (m w) j) /\
     (forall j x, msg_of (m w) j = Some x -> j < next_key (m w) -> exists y, mk j = Some y /\ m_to y = m_to x /\ m_code y = m_code x)).
  { intros s os ph bz w1 mk Hmk w2. destruct Ik as [Kq Ko Kqo Koo Kqn Kon Kto Ktl Kout].
    assert (Kk : k < next_key (m w)). { apply (Kqn a). rewrite Eq. left; auto. }
    assert (E1 : forall j, j < next_key (m w) -> j <> k -> mk j = msg_of (m w) j).
    { intros j J N. destruct Hmk as [-> |(c1 & v1 & ->)]; [|rewrite set_ne by auto]; cbn; apply new_out; lia. }
    assert (E2 : exists y, mk k = Some y /\ m_to y = to /\ m_code y = c0).
    { destruct Hmk as [-> |(c1 & v1 & ->)]. cbn. rewrite new_out by lia. rewrite Em. eexists; split; eauto. rewrite set_eq. eexists; split; eauto. }
    assert (E3 : forall j x, msg_of (m w) j = Some x -> j < next_key (m w) -> exists y, mk j = Some y /\ m_to y = m_to x /\ m_code y = m_code x).
    { intros j x J Jn. destruct (Nat.eq_dec j k) as [-> |N]. rewrite Em in J. inversion J; subst. auto. rewrite E1 by auto. eauto. }
    assert (E4 : forall j, next_key (m w) <= j < next_key (m w) + length os -> stored mk j).
    { intros j J. assert (exists p, nth_error os (j - next_key (m w)) = Some p) as ([t c1] & Hn). { destruct (nth_error os (j - next_key (m w))) eqn:E; eauto. apply nth_error_None in E. lia. }
      apply (new_in os (next_key (m w)) (msg_of (m w))) in Hn. replace (next_key (m w) + (j - next_key (m w))) with j in Hn by lia.
      exists (Msg t c1 (Some c1) none). split; [|split; auto]. destruct Hmk as [-> |(c2 & v1 & ->)]; [|rewrite set_ne by lia]; auto. }
    assert (El : forall ks, (forall j, In j ks -> j < next_key (m w)) -> letters mk ks = letters (msg_of (m w)) ks).
    { intros ks H. apply letters_ext. intros j J. destruct (Nat.eq_dec j k) as [-> |N].
      - destruct E2 as (y & -> & <- & <-). rewrite Em. auto.
      - rewrite E1; auto. }
    split; [|split; [|split; [|split; [|split]]]]; auto.
    - split; cbn; auto.
      + intros b. destruct (Nat.eq_dec b a) as [-> |N]. rewrite set_eq. apply NoDup_app_; auto. apply seq_NoDup.
        intros j J1 J2. apply in_seq in J2. apply Kon in J1. lia. rewrite set_ne; auto.
      + intros b b' j J1 J2. destruct (Nat.eq_dec b' a) as [-> |N]. rewrite set_eq in J2. apply in_app_or in J2 as [J2|J2]. eapply Kqo; eauto. apply in_seq in J2. apply Kqn in J1. lia. rewrite set_ne in J2 by auto. eapply Kqo; eauto.
      + intros b b' j N J1 J2. destruct (Nat.eq_dec b a) as [-> |Na].
        * rewrite set_eq in J1. rewrite set_ne in J2 by congruence. apply in_app_or in J1 as [J1|J1]. exact (Koo _ _ j N J1 J2). apply in_seq in J1. apply Kon in J2. lia.
        * rewrite set_ne in J1 by auto. destruct (Nat.eq_dec b' a) as [-> |Nb]. rewrite set_eq in J2. apply in_app_or in J2 as [J2|J2]. exact (Koo _ _ j N J1 J2). apply in_seq in J2. apply Kon in J1. lia. rewrite set_ne in J2 by auto. exact (Koo _ _ j N J1 J2).
      + intros b j J. apply Kqn in J. lia.
      + intros b j J. destruct (Nat.eq_dec b a) as [-> |N]. rewrite set_eq in J. apply in_app_or in J as [J|J]. apply Kon in J. lia. apply in_seq in J. lia. rewrite set_ne in J by auto. apply Kon in J. lia.
      + intros b j J. destruct (Kto b j J) as (x & Ex & Et). destruct (E3 j x Ex (Kqn _ _ J)) as (y & Ey & Ty & _). exists y. split; auto. congruence.
      + intros b j J. pose proof (Ktl b j J) as (x & Ex & Hi). exists x. split; auto. rewrite E1; auto.
        * apply (Kqn b). destruct (q_of (m w) b); auto. right; auto.
        * intros ->. assert (b = a). { destruct (Kto b k) as (y & Ey & Ty). destruct (q_of (m w) b); auto. right; auto. destruct (Kto a k) as (y' & Ey' & Ty'). rewrite Eq; left; auto. congruence. }
          subst b. pose proof (Kq a) as Nd. rewrite Eq in Nd, J. inversion Nd; subst. auto.
      + intros b j J. destruct (Nat.eq_dec b a) as [-> |N].
        * rewrite set_eq in J. apply in_app_or in J as [J|J].
          -- destruct (Kout a j J) as (x & Ex & Hi). exists x. split; auto. rewrite E1; auto. eapply Kon; eauto. intros ->. eapply Kqo; [|exact J]. rewrite Eq. left; auto.
          -- apply in_seq in J. apply E4. lia.
        * rewrite set_ne in J by auto. destruct (Kout b j J) as (x & Ex & Hi). exists x. split; auto. rewrite E1; auto. eapply Kon; eauto. intros ->. eapply Kqo; [|exact J]. rewrite Eq. left; auto.
    - intros b. unfold codes. f_equal. apply El. apply Kqn.
    - unfold w1. cbn [out_of with_phase sending]. rewrite set_eq, letters_app. f_equal. apply El. apply Kon.
      rewrite <- (new_letters os (next_key (m w)) (msg_of (m w))) at 2. destruct Hmk as [-> |(c1 & v1 & ->)]; auto.
      apply letters_ext. intros j J. apply in_seq in J. rewrite set_ne by lia. auto.
    - intros b N. pose proof (Pr b) as Pb. unfold progress in *. cbn. rewrite !set_ne by auto. destruct (q_of (m w) b) as [|kb qb] eqn:Eb; auto.
      destruct Pb as (x & c1 & Ex & Ec & Hb). exists x, c1. split; [|split; auto].
      + rewrite E1; auto. apply (Kqn b). rewrite Eb. left; auto. intros ->. destruct (Kto b k) as (y & Ey & Ty). rewrite Eb; left; auto. destruct (Kto a k) as (y' & Ey' & Ty'). rewrite Eq; left; auto. congruence.
      + rewrite El by apply Kon. auto. }
  assert (Y : forall w2, d w2 = d w -> (forall b, phase_of (m w2) b = Idle \/ exists v, phase_of (m w2) b = Finished v) -> (fresh = true -> synced w g (q_of (m w))) -> q_of (m w2) = q_of (m w) ->
     (forall j x, msg_of (m w) j = Some x -> j < next_key (m w) -> exists y, msg_of (m w2) j = Some y /\ m_to y = m_to x /\ m_code y = m_code x) ->
     fresh = true -> synced w2 g (q_of (m w2))).
  { intros w2 Ed Hp Hs Hq Hm F. destruct (Hs F) as [S1 S2 S3 S4 S5]. unfold unread in *. split; unfold unread; rewrite ?Ed, ?Hq; auto.
    - intros b. rewrite S2, Ph. destruct (Hp b) as [-> |(v1 & ->)]; auto.
    - intros b j J. destruct (S3 b j J) as (x & Ex & Er). assert (Jn : j < next_key (m w)). { rewrite S2, Ph in J. apply (k_qn w Ik b j J). }
      destruct (Hm j x Ex Jn) as (y & Ey & _ & Ey'). exists y. rewrite Ey'. auto. }
  destruct (prog a c (st_of (m w) a) v) as [s os r|s os c1 v1|s os c1 i] eqn:Ep; inversion R; subst w'; clear R.
  - specialize (X s os (Finished r) (a :: busy (m w)) _ (or_introl eq_refl)). cbv zeta in X. destruct X as (X1 & X2 & X3 & X4 & X5 & X6).
    split; auto. exists None. split; [|split].
    + apply (sh_done _ _ a r); cbn; auto.
      * rewrite B. auto.
      * rewrite set_eq. auto.
      * intros b N. rewrite set_ne; auto.
      * unfold finished. cbn. rewrite Eq. destruct (X6 k _ Em) as (y & Ey & _ & Yc). apply (k_qn w Ik a). rewrite Eq; left; auto.
        exists y. split; auto. rewrite Yc. cbn [m_code]. cbn in X3. rewrite X3. rewrite set_eq. apply Hh. eapply handles_done; eauto.
    + intros b. cbn. rewrite X2. apply Iq.
    + apply Y; auto. intros b. cbn. unfold set. destruct (b =? a); auto. right; eauto.
  - specialize (X s os Idle (busy (m w)) _ (or_intror (ex_intro _ c1 (ex_intro _ v1 eq_refl)))). cbv zeta in X. destruct X as (X1 & X2 & X3 & X4 & X5 & X6).
    assert (Ephase : forall b, phase_of (m w) b = set (phase_of (m w)) a Idle b). { intros b. unfold set. destruct (b =? a) eqn:E; auto. }
    split; auto.
    { destruct X1. split; auto. }
    exists None. split; [|split].
    + apply sh_idle; cbn; auto. intros b. destruct (Nat.eq_dec b a) as [-> |N].
      * unfold progress. cbn. rewrite Eq, set_eq. eexists _, c1. split; eauto. split; auto. intros o s' Ho. cbn [m_code]. cbn in X3. rewrite X3. rewrite <- app_assoc. apply Hh.
        rewrite set_eq in Ho. eapply handles_cont; eauto.
      * specialize (X4 b N). exact X4.
    + intros b. cbn. rewrite X2. apply Iq.
    + apply Y; auto. intros b. left. cbn. auto.
  - exfalso. exact (no_await _ _ _ _ _ _ _ _ Ep).
Qed.

(** The read of save_actor_state. *)
Lemma read_inv s0 fresh w g a w' : Inv s0 fresh w g -> do_read a w = Some w' -> Inv s0 fresh w' g.
Proof.
  intros [Iex Iw Idw Ik (o & Sh & Iq & Is)] R. unfold do_read in R.
  destruct (phase_of (m w) a) as [|v| | | |] eqn:Ea; try discriminate. inversion R; subst w'; clear R.
  destruct Sh as [Bz Ph Pr|b v' Bz Pb Po Pr Fi|b v' Bz Pb Po Pr _ _].
  - rewrite Ph in Ea. discriminate.
  - assert (b = a). { destruct (Nat.eq_dec a b); auto. rewrite Po in Ea; auto. discriminate. } subst b.
    split; auto. { destruct Ik. split; auto. }
    exists None. split; [|split]; auto.
    + apply (sh_done _ _ a v); cbn; auto. right. rewrite set_eq. eauto. intros b N. rewrite set_ne; auto.
    + intros F. destruct (Is F) as [S1 S2 S3 S4 S5]. cbn [Q_of] in *.
      assert (Hu : unread w a = q_of (m w) a). { rewrite S2, Ea. auto. }
      assert (Hl : d_read (d w) a < length (d_q (d w) a)).
      { unfold unread in Hu. destruct (le_lt_dec (length (d_q (d w) a)) (d_read (d w) a)) as [L|]; auto. rewrite skipn_all2 in Hu by auto. unfold finished in Fi. rewrite <- Hu in Fi. contradiction. }
      rewrite Nat.min_l by lia.
      assert (Ht : forall (l : list nat) n, skipn (n + 1) l = tl (skipn n l)). { intros l n. revert l. induction n as [|n IH]; intros l; destruct l; cbn; auto. }
      assert (Hs : forall b, skipn (set (d_read (d w)) a (d_read (d w) a + 1) b) (d_q (d w) b) = if b =? a then tl (q_of (m w) a) else unread w b).
      { intros b. destruct (Nat.eqb_spec b a) as [-> |N]. rewrite set_eq, Ht. f_equal. auto. rewrite set_ne; auto. }
      split; cbn; auto; unfold unread; cbn.
      * intros b. rewrite Hs. destruct (Nat.eqb_spec b a) as [-> |N]. rewrite set_eq. auto. rewrite set_ne by auto. apply S2.
      * intros b j J. rewrite Hs in J. apply S3. destruct (Nat.eqb_spec b a) as [-> |N]; auto. rewrite Hu. destruct (q_of (m w) a); cbn in J |- *; auto.
      * intros b. unfold set. destruct (Nat.eqb_spec b a) as [-> |N]; auto. lia.
      * intros b j J. rewrite Hs in J. apply (S5 b). destruct (Nat.eqb_spec b a) as [-> |N]; auto. rewrite Hu. destruct (q_of (m w) a); cbn in J |- *; auto.
  - assert (b = a). { destruct (Nat.eq_dec a b); auto. rewrite Po in Ea; auto. discriminate. } subst b. congruence.
Qed.

Lemma save_in ks (ms t : msgs) k : save_msgs ks ms t k = if in_dec Nat.eq_dec k ks then ms k else t k.
Proof.
  revert t. induction ks as [|x ks IH]; intros t; cbn [save_msgs]. destruct (in_dec _ k []) as [[]|]; auto.
  rewrite IH. destruct (in_dec Nat.eq_dec k ks) as [I|N], (in_dec Nat.eq_dec k (x :: ks)) as [I'|N']; auto.
  - exfalso. apply N'. right; auto.
  - destruct I' as [-> |I']; [|contradiction]. apply set_eq.
  - apply set_ne. intros ->. apply N'. left; auto.
Qed.
Lemma fold_max ks : forall n, n <= fold_left (fun n k => Nat.max n (S k)) ks n /\ forall k, In k ks -> k < fold_left (fun n k => Nat.max n (S k)) ks n.
Proof.
  induction ks as [|x ks IH]; intros n; cbn [fold_left]. split; auto. intros k [].
  destruct (IH (Nat.max n (S x))) as [A B]. split. lia. intros k [-> |K]; auto. lia.
Qed.

Lemma flushed_eq w a b : q_of (m w) a <> [] -> flushed w a b = (if b =? a then tl (q_of (m w) a) else q_of (m w) b) ++ filter (to_ (msg_of (m w)) b) (out_of (m w) a).
Proof.
  intros N. unfold flushed. destruct (Nat.eqb_spec b a) as [-> |Nb].
  - rewrite set_eq, enqueue_eq. destruct (q_of (m w) a); [congruence|]. auto.
  - rewrite set_ne by auto. apply enqueue_eq.
Qed.

(** The commit. *)
Lemma commit_inv s0 fresh w g a w' : Inv s0 fresh w g -> do_commit a w = Some w' ->
  exists g', Inv s0 fresh w' g'.
Proof.
  intros [Iex Iw Idw Ik (o & Sh & Iq & Is)] R. unfold do_commit in R. destruct (q_of (m w) a) as [|k q] eqn:Eq; [discriminate|].
  assert (Pa : exists v h, phase_of (m w) a = Read v h /\ o = None /\ (forall b, b <> a -> phase_of (m w) b = Idle) /\ (forall b, b <> a -> progress w g b) /\ finished w g a /\ busy (m w) = [a]).
  { destruct (phase_of (m w) a) as [|v|c x|v h|v|c x] eqn:Ea; try discriminate; destruct Sh as [Bz Ph Pr|b v' Bz Pb Po Pr Fi|b v' Bz Pb Po Pr _ _].
    all: try (rewrite Ph in Ea; discriminate).
    all: assert (b = a) by (destruct (Nat.eq_dec a b) as [|N]; auto; rewrite (Po a N) in Ea; discriminate); subst b; rewrite Ea in Pb.
    - destruct Pb as [C|[h C]]; discriminate.
    - discriminate.
    - exists v, h. repeat split; auto.
    - discriminate. }
  destruct Pa as (v & h & Ea & -> & Po & Pr & Fi & Bz). rewrite Ea in R. destruct (_ && _); [|discriminate]. inversion R; subst w'; clear R.
  pose proof Fi as Fi'. unfold finished in Fi. rewrite Eq in Fi. destruct Fi as (x & Ex & Hh). cbn [Q_of] in Iq, Is.
  set (ms := msg_of (m w)) in *. set (oa := out_of (m w) a) in *.
  set (g' := Config (set (states g) a (st_of (m w) a)) (fun b => (if b =? a then codes ms q else queues g b) ++ sent_to b (letters ms oa))).
  assert (Nx : next prog none g (Handled a (m_code x) (letters ms oa) (st_of (m w) a)) g').
  { apply next_intro with (q := codes ms q); auto. rewrite <- Iq, Eq. unfold codes, letters. cbn. rewrite Ex. auto. }
  assert (Fl : forall b, flushed w a b = (if b =? a then q else q_of (m w) b) ++ filter (to_ ms b) oa).
  { intros b. rewrite flushed_eq by (rewrite Eq; discriminate). rewrite Eq. auto. }
  assert (Hl : map snd (letters ms [k]) = [m_code x]). { unfold letters. cbn. rewrite Ex. auto. }
  exists g'. split; cbn [hist m d]; auto.
  - unfold oa in *. rewrite Hl. cbn. eapply executes_snoc; eauto.
  - intros b. cbn. unfold set. destruct (b =? a); auto.
  - destruct Ik. split; auto.
  - exists (Some a). split; [|split].
    + apply (sh_saved _ _ a v); cbn; auto.
      * apply set_eq.
      * intros b N. rewrite set_ne; auto.
      * intros b N. specialize (Pr b N). unfold progress in *. cbn. rewrite !set_ne by auto. auto.
      * rewrite Eq. discriminate.
      * rewrite set_eq. auto.
    + intros b. cbn [Q_of]. change (codes ms (flushed w a b) = queues g' b). rewrite Fl, codes_app, codes_filter. unfold g'. cbn [queues]. f_equal. destruct (b =? a); auto.
    + intros F. destruct (Is F) as [S1 S2 S3 S4 S5]. destruct Ik as [Kq Ko Kqo Koo Kqn Kon Kto Ktl Kout]. fold ms in S3, Kto, Ktl, Kout.
      assert (Hu : forall b, skipn (d_read (d w) b) (enqueue oa ms (d_q (d w)) b) = unread w b ++ filter (to_ ms b) oa).
      { intros b. rewrite enqueue_eq, skipn_app. unfold unread. f_equal. replace (_ - _) with 0 by (specialize (S4 b); lia). auto. }
      assert (Hu' : forall b, unread w b = if b =? a then q else q_of (m w) b).
      { intros b. rewrite S2. destruct (Nat.eqb_spec b a) as [-> |N]. rewrite Ea, Eq. auto. rewrite Po; auto. }
      split; cbn; unfold unread; cbn; fold oa; fold ms.
      * intros b. unfold set. destruct (b =? a); auto.
      * intros b. rewrite Hu, Hu'. change (flushed _ a b) with (flushed w a b). rewrite Fl. destruct (Nat.eqb_spec b a) as [-> |N]. rewrite set_eq. auto. rewrite set_ne by auto. rewrite Po; auto.
      * intros b j J. rewrite Hu in J. rewrite save_in. apply in_app_or in J as [J|J].
        -- assert (Jq : In j (q_of (m w) b) /\ j <> k).
           { rewrite Hu' in J. destruct (Nat.eqb_spec b a) as [-> |N]. rewrite Eq. split. right; auto. pose proof (Kq a) as Nd. rewrite Eq in Nd. inversion Nd; subst. congruence.
             split; auto. intros ->. destruct (Kto b k J) as (y & Ey & Ty). destruct (Kto a k) as (y' & Ey' & Ty'). rewrite Eq; left; auto. congruence. }
           destruct (in_dec Nat.eq_dec j (oa ++ [k])) as [I|_].
           ++ exfalso. apply in_app_or in I as [I|[I|[]]]; [|destruct Jq; congruence]. eapply Kqo; [apply Jq|exact I].
           ++ apply S3. auto.
        -- apply filter_In in J as [J Jt]. destruct (in_dec Nat.eq_dec j (oa ++ [k])) as [_|N].
           ++ destruct (Kout a j J) as (y & Ey & Ec & Ev). unfold to_ in Jt. rewrite Ey in Jt. apply Nat.eqb_eq in Jt. exists y. split; auto. rewrite Ey. destruct y; cbn in *. subst. auto.
           ++ exfalso. apply N. apply in_or_app; auto.
      * intros b. rewrite enqueue_eq, app_length. specialize (S4 b). lia.
      * intros b j J. rewrite Hu in J. destruct (fold_max (oa ++ [k]) (d_next (d w))) as [A B]. apply in_app_or in J as [J|J].
        -- apply S5 in J. lia.
        -- apply filter_In in J as [J _]. apply B. apply in_or_app; auto.
Qed.

Lemma tl_in {A} (x : A) l : In x (tl l) -> In x l.
Proof. destruct l; cbn; auto. Qed.

(** After the commit. *)
Lemma flush_inv s0 fresh w g a w' : Inv s0 fresh w g -> do_flush actors a w = Some w' ->
  Inv s0 fresh w' g /\ d w' = d w /\ hist w' = hist w /\ (forall b, phase_of (m w') b = Idle).
Proof.
  intros [Iex Iw Idw Ik (o & Sh & Iq & Is)] R. unfold do_flush in R. destruct (q_of (m w) a) as [|k q] eqn:Eq; [discriminate|].
  destruct (msg_of (m w) k) as [x|] eqn:Ex; [|discriminate].
  assert (Pa : exists v, phase_of (m w) a = Saved v /\ o = Some a /\ (forall b, b <> a -> phase_of (m w) b = Idle) /\ (forall b, b <> a -> progress w g b) /\ st_of (m w) a = states g a /\ busy (m w) = [a]).
  { destruct (phase_of (m w) a) as [|v|c y|v h|v|c y] eqn:Ea; try discriminate; destruct Sh as [Bz Ph Pr|b v' Bz Pb Po Pr Fi|b v' Bz Pb Po Pr Nq Es].
    all: try (rewrite Ph in Ea; discriminate).
    all: assert (b = a) by (destruct (Nat.eq_dec a b) as [|N]; auto; rewrite (Po a N) in Ea; discriminate); subst b; rewrite Ea in Pb.
    - destruct Pb as [C|[h C]]; discriminate.
    - exists v. repeat split; auto.
    - destruct Pb as [C|[h C]]; discriminate.
    - discriminate. }
  destruct Pa as (v & Ea & -> & Po & Pr & Es & Bz). rewrite Ea in R. cbn [Q_of] in Iq, Is.
  assert (W : filter (fun b => match wait_of (m w) b with Some y => y =? k | None => false end) actors = []).
  { apply filter_none. intros b. rewrite Iw. auto. }
  rewrite W in R. cbn [fold_left] in R. inversion R; subst w'; clear R W.
  assert (Idl : forall b, set (phase_of (m w)) a Idle b = Idle). { intros b. unfold set. destruct (Nat.eqb_spec b a); auto. }
  split; [|cbn; auto].
  set (ms := msg_of (m w)) in *. set (ms' := set ms k (Some (Msg (m_to x) (m_code x) None v))).
  change (Inv s0 fresh (World (Mem (st_of (m w)) (flushed w a) (set (out_of (m w)) a []) (wait_of (m w)) (set (phase_of (m w)) a Idle) ms' (next_key (m w)) (unbusy a (busy (m w)))) (d w) (hist w)) g).
  assert (Ne : q_of (m w) a <> []) by (rewrite Eq; discriminate).
  assert (Fl : forall b, flushed w a b = (if b =? a then q else q_of (m w) b) ++ filter (to_ ms b) (out_of (m w) a)).
  { intros b. rewrite flushed_eq by auto. rewrite Eq. auto. }
  destruct Ik as [Kq Ko Kqo Koo Kqn Kon Kto Ktl Kout]. fold ms in Kto, Ktl, Kout.
  assert (Kk : forall b, In k (flushed w a b) -> False).
  { intros b J. rewrite Fl in J. apply in_app_or in J as [J|J].
    - destruct (Nat.eqb_spec b a) as [Eb|N]. pose proof (Kq a) as Nd. rewrite Eq in Nd. inversion Nd; contradiction.
      destruct (Kto b k J) as (y & Ey & Ty). destruct (Kto a k) as (y' & Ey' & Ty'). rewrite Eq; left; auto. congruence.
    - apply filter_In in J as [J _]. apply (Kqo a a k); auto. rewrite Eq; left; auto. }
  assert (Ko' : forall b, In k (out_of (m w) b) -> False). { intros b J. apply (Kqo a b k); auto. rewrite Eq; left; auto. }
  assert (E1 : forall j, j <> k -> ms' j = ms j) by (intros; apply set_ne; auto).
  assert (Sub : forall b j, In j (flushed w a b) -> In j (q_of (m w) b) \/ In j (out_of (m w) a)).
  { intros b j J. rewrite Fl in J. apply in_app_or in J as [J|J]. left. destruct (Nat.eqb_spec b a) as [-> |N]; auto. rewrite Eq; right; auto. apply filter_In in J as [J _]. auto. }
  assert (St : forall b j, In j (filter (to_ ms b) (out_of (m w) a)) -> exists y, ms' j = Some y /\ m_to y = b /\ intact y).
  { intros b j J. apply filter_In in J as [J Jt]. destruct (Kout a j J) as (y & Ey & Hy). exists y. rewrite E1. split; auto. split; auto. unfold to_ in Jt. rewrite Ey in Jt. apply Nat.eqb_eq; auto. intros ->. eapply Ko'; eauto. }
  assert (Stq : forall j, In j q -> exists y, ms' j = Some y /\ intact y).
  { intros j J. destruct (Ktl a j) as (y & Ey & Hy). rewrite Eq; auto. exists y. rewrite E1; auto. intros ->. apply (Kk a). rewrite Fl, Nat.eqb_refl. apply in_or_app; auto. }
  assert (Le : forall ks, letters ms' ks = letters ms ks).
  { intros ks. apply letters_ext. intros j _. unfold ms', set. destruct (Nat.eqb_spec j k) as [-> |]; auto. rewrite Ex. auto. }
  split; cbn [hist m d]; auto.
  - split; cbn.
    + intros b. rewrite Fl. apply NoDup_app_.
      * destruct (Nat.eqb_spec b a); auto. pose proof (Kq a) as Nd. rewrite Eq in Nd. inversion Nd; auto.
      * apply NoDup_filter. auto.
      * intros j J1 J2. apply filter_In in J2 as [J2 _]. apply (Kqo b a j); auto. destruct (Nat.eqb_spec b a) as [-> |N]; auto. rewrite Eq; right; auto.
    + intros b. unfold set. destruct (b =? a); auto. constructor.
    + intros b b' j J1 J2. unfold set in J2. destruct (Nat.eqb_spec b' a) as [-> |N]; [destruct J2|]. apply Sub in J1 as [J1|J1]. eapply Kqo; eauto. exact (Koo a b' j ltac:(congruence) J1 J2).
    + intros b b' j N J1 J2. unfold set in *. destruct (Nat.eqb_spec b a); [destruct J1|]. destruct (Nat.eqb_spec b' a); [destruct J2|]. exact (Koo b b' j N J1 J2).
    + intros b j J. apply Sub in J as [J|J]. eapply Kqn; eauto. eapply Kon; eauto.
    + intros b j J. unfold set in J. destruct (Nat.eqb_spec b a); [destruct J|]. eapply Kon; eauto.
    + intros b j J. rewrite E1 by (intros ->; eapply Kk; eauto). rewrite Fl in J. apply in_app_or in J as [J|J].
      * apply Kto. destruct (Nat.eqb_spec b a) as [-> |N]; auto. rewrite Eq; right; auto.
      * destruct (St b j J) as (y & Ey & Ty & _). exists y. rewrite E1 in Ey. auto. intros ->. apply filter_In in J as [J _]. eapply Ko'; eauto.
    + intros b j J. pose proof (tl_in _ _ J) as J0. assert (Nk : j <> k) by (intros ->; eapply Kk; eauto). unfold stored. rewrite E1 by auto. rewrite Fl in J.
      assert (C : In j (tl (if b =? a then q else q_of (m w) b)) \/ In j (filter (to_ ms b) (out_of (m w) a))).
      { destruct (if b =? a then q else q_of (m w) b) as [|y l]. right. apply tl_in. auto. cbn in J |- *. apply in_app_or in J. auto. }
      destruct C as [C|C].
      * destruct (Nat.eqb_spec b a) as [-> |N]. apply (Ktl a). rewrite Eq. cbn. apply tl_in. auto. apply (Ktl b); auto.
      * destruct (St b j C) as (y & Ey & _ & Hy). exists y. rewrite E1 in Ey by auto. auto.
    + intros b j J. unfold set in J. destruct (Nat.eqb_spec b a); [destruct J|]. destruct (Kout b j J) as (y & Ey & Hy). exists y. rewrite E1; auto. intros ->. eapply Ko'; eauto.
  - exists None. split; [|split].
    + apply sh_idle; cbn [m phase_of busy]; auto.
      * rewrite Bz. cbn. rewrite Nat.eqb_refl. auto.
      * intros b. unfold progress. cbn [m q_of st_of out_of msg_of]. rewrite Fl. destruct (Nat.eq_dec b a) as [-> |N].
        -- rewrite Nat.eqb_refl, set_eq. destruct (q ++ filter (to_ ms a) (out_of (m w) a)) as [|k' l] eqn:El; auto.
           assert (H' : exists y, ms' k' = Some y /\ intact y).
           { destruct q as [|k1 q']. cbn in El. destruct (St a k') as (y & Ey & _ & Hy). rewrite El. left; auto. eauto. cbn in El. inversion El; subst. apply Stq. left; auto. }
           destruct H' as (y & Ey & Hc & Hv). exists y, (m_code y). split; auto. split; auto. rewrite Hv, Es. intros o s' Ho. exact Ho.
        -- destruct (Nat.eqb_spec b a); [congruence|]. rewrite set_ne by auto. specialize (Pr b N). unfold progress in Pr. destruct (q_of (m w) b) as [|kb qb] eqn:Eb.
           ++ destruct Pr as [P1 P2]. cbn [app]. destruct (filter (to_ ms b) (out_of (m w) a)) as [|k' l] eqn:El; auto.
              destruct (St b k') as (y & Ey & _ & Hc & Hv). rewrite El; left; auto. exists y, (m_code y). split; auto. split; auto. rewrite Hv, P1, P2. intros o s' Ho. exact Ho.
           ++ cbn [app]. destruct Pr as (y & c & Ey & Ec & Hy). exists y, c. rewrite E1. split; auto. split; auto. intros o s' Ho. rewrite Le. apply Hy; auto.
              intros ->. apply (Kk b). rewrite Fl. destruct (Nat.eqb_spec b a); [congruence|]. rewrite Eb. left; auto.
    + intros b. cbn [Q_of m msg_of q_of]. unfold codes. rewrite Le. apply Iq.
    + intros F. destruct (Is F) as [S1 S2 S3 S4 S5]. unfold unread in *. split; unfold unread; cbn [m d Q_of q_of phase_of msg_of]; auto.
      * intros b. rewrite S2. rewrite Idl. destruct (Nat.eq_dec b a) as [-> |N]. rewrite Ea. auto. rewrite Po; auto.
      * intros b j J. destruct (S3 b j J) as (y & Ey & Er). unfold ms', set. destruct (Nat.eqb_spec j k) as [-> |N]; eauto. change (msg_of (m w) k) with (ms k) in Ey. assert (y = x) by congruence. subst y. eauto.
Qed.

(** The crash. *)
Lemma crash_inv s0 w g : Inv s0 true w g -> (forall a v h, phase_of (m w) a <> Read v h) -> Inv s0 false (do_crash w) g.
Proof.
  assert (X : forall w, Inv s0 true w g -> (forall a, phase_of (m w) a = Idle \/ exists v, phase_of (m w) a = Finished v) -> Inv s0 false (do_crash w) g).
  { clear w. intros w [Iex Iw Idw Ik (o & Sh & Iq & Is)] Np. specialize (Is eq_refl).
    assert (o = None). { destruct Sh; auto. destruct (Np a) as [C|[v' C]]; congruence. } subst o. cbn [Q_of] in *. destruct Is as [S1 S2 S3 S4 S5].
    assert (Hu : forall a, unread w a = q_of (m w) a). { intros a. rewrite S2. destruct (Np a) as [-> |[v ->]]; auto. }
    assert (Hc : forall a, skipn (d_read (d w) a) (d_q (d w) a) = q_of (m w) a) by (intros; apply Hu).
    assert (Rw : forall a j, In j (q_of (m w) a) -> exists x, msg_of (m w) j = Some x /\ d_msg (d w) j = Some (Msg a (m_code x) (Some (m_code x)) none)). { intros a j J. apply S3. rewrite Hu. auto. }
    split; cbn [do_crash m d hist wait_of d_wait]; auto.
    - intros a. rewrite Idw. auto.
    - split; cbn; auto.
      + intros a. rewrite Hc. apply (k_q w Ik).
      + intros; constructor.
      + intros a j [].
      + intros a j J. rewrite Hc in J. destruct (Rw a j J) as (x & _ & ->). eexists; split; eauto.
      + intros a j J. rewrite Hc in J. apply tl_in in J. destruct (Rw a j J) as (x & _ & Er). eexists. split. exact Er. split; auto.
      + intros a j [].
    - exists None. split; [|split; [|discriminate]].
      + apply sh_idle; auto. intros a. unfold progress. cbn. rewrite Hc. destruct (q_of (m w) a) as [|j l] eqn:E. auto.
        destruct (Rw a j) as (x & _ & ->). rewrite E; left; auto. eexists _, (m_code x). split; eauto. split; auto. cbn. rewrite S1. intros o s' Ho. exact Ho.
      + intros a. cbn. rewrite Hc. rewrite <- Iq. unfold codes. f_equal. apply letters_ext. intros j J. destruct (Rw a j J) as (x & Ex & ->). rewrite Ex. cbn.
        destruct (k_to w Ik a j J) as (y & Ey & Ty). rewrite Ex in Ey. inversion Ey; subst. auto. }
  intros I Np. destruct (i_shape _ _ _ _ I) as (o & Sh & _). destruct Sh as [Bz Ph Pr|a v Bz Pb Po Pr Fi|a v Bz Pb Po Pr Nq Es].
  - apply X; auto.
  - apply X; auto. intros b. destruct (Nat.eq_dec b a) as [-> |N]; auto. destruct Pb as [-> |[h C]]; eauto. exfalso. eapply Np; eauto.
  - assert (Fl : exists w', do_flush actors a w = Some w').
    { unfold do_flush. destruct (q_of (m w) a) as [|k q] eqn:Eq; [congruence|]. destruct (k_to w (i_keys _ _ _ _ I) a k) as (x & -> & _). rewrite Eq; left; auto. rewrite Pb. eauto. }
    destruct Fl as (w' & Fl). destruct (flush_inv _ _ _ _ _ _ I Fl) as (I' & Ed & Eh & Id).
    assert (E : do_crash w = do_crash w'). { unfold do_crash. rewrite Ed, Eh. auto. }
    rewrite E. apply X; auto.
Qed.
End P.

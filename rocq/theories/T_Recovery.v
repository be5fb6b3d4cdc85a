(** C45: recovery after a crash. *)
From Verif Require Import Base S_Recovery M_Recovery P_Recovery.
From Coq Require Import Arith Lia.
Open Scope nat_scope.

Section T.
Context {st code val : Type} (prog : programs st code val) (none : val) (actors : list nat).
Hypothesis no_await : awaits_nothing prog.
Notation world := (@world st code val).
Notation begin s0 first := (Config s0 (fun b => sent_to b first)).

Lemma start_inv s0 first : Inv prog none (begin s0 first) true (start none s0 first) (begin s0 first).
Proof.
  unfold start. set (ms := new_msgs none first 0 (fun _ => None)). set (q := enqueue (seq 0 (length first)) ms (fun _ => [])).
  assert (Hq : forall b, q b = filter (to_ ms b) (seq 0 (length first))). { intros b. unfold q. rewrite enqueue_eq. auto. }
  assert (Hm : forall b j, In j (q b) -> j < length first /\ exists c, ms j = Some (Msg b c (Some c) none)).
  { intros b j J. rewrite Hq in J. apply filter_In in J as [J T]. apply in_seq in J. split. lia.
    destruct (nth_error first j) as [[t c]|] eqn:E; [|apply nth_error_None in E; lia]. apply (new_in none first 0 (fun _ => None)) in E. cbn in E.
    exists c. unfold to_ in T. fold ms in E. rewrite E in T. cbn in T. apply Nat.eqb_eq in T. subst. auto. }
  assert (Hc : forall b, codes ms (q b) = sent_to b first). { intros b. rewrite Hq, codes_filter. unfold ms. rewrite new_letters. auto. }
  split; cbn; auto.
  - constructor.
  - split; cbn; auto.
    + intros a. rewrite Hq. apply NoDup_filter. apply seq_NoDup.
    + intros; constructor.
    + intros a j J. apply Hm in J. lia.
    + intros a j [].
    + intros a j J. apply Hm in J as (_ & c & ->). eexists; split; eauto.
    + intros a j J. apply tl_in in J. apply Hm in J as (_ & c & E). eexists; split; eauto. split; auto.
    + intros a j [].
  - exists None. split; [|split].
    + apply sh_idle; auto. intros a. unfold progress. cbn. destruct (q a) as [|j l] eqn:E; auto. destruct (Hm a j) as (_ & c & Ej). rewrite E; left; auto.
      rewrite Ej. eexists _, c. split; eauto.
    + exact Hc.
    + intros _. split; unfold unread; cbn; auto.
      * intros a j J. apply Hm in J as (_ & c & ->). eexists; split; eauto.
      * intros a. lia.
      * intros a j J. apply Hm in J. lia.
Qed.

(** Neither a crash nor a refused commit. *)
Definition quiet (l : list action) : Prop := Forall (fun x => match x with ACrash | ARefuse _ => False | _ => True end) l.
Definition in_read (w : world) : Prop := exists a v h, phase_of (m w) a = Read v h.

Lemma exec_inv s0 fresh w g x w' : Inv prog none s0 fresh w g -> match x with ACrash | ARefuse _ => False | _ => True end ->
  exec prog none actors 1 x w = Some w' -> exists g', Inv prog none s0 fresh w' g'.
Proof.
  intros I Q E. destruct x; cbn in E; try contradiction.
  - exists g. eapply run_inv; eauto.
  - exists g. eapply read_inv; eauto.
  - eapply commit_inv; eauto.
  - exists g. eapply flush_inv in E as (I' & _); eauto.
Qed.
Lemma run_list_inv s0 fresh l : forall w g w', Inv prog none s0 fresh w g -> quiet l -> run prog none actors 1 l w = Some w' -> exists g', Inv prog none s0 fresh w' g'.
Proof.
  induction l as [|x l IH]; intros w g w' I Q E; cbn in E. inversion E; subst; eauto. inversion Q; subst.
  destruct (exec prog none actors 1 x w) as [w1|] eqn:E1; [|discriminate]. destruct (exec_inv _ _ _ _ _ _ I H1 E1) as (g1 & I1). eapply IH; eauto.
Qed.
Lemma run_app k l1 : forall l2 w, run prog none actors k (l1 ++ l2) w = match run prog none actors k l1 w with Some w1 => run prog none actors k l2 w1 | None => None end.
Proof. induction l1 as [|x l1 IH]; intros l2 w; cbn; auto. destruct (exec prog none actors k x w); auto. Qed.

Lemma shape_one (w : world) g o a : shape prog none w g o -> phase_of (m w) a <> Idle -> forall b, b <> a -> phase_of (m w) b = Idle.
Proof.
  intros [Bz Ph Pr|c v Bz Pb Po Pr Fi|c v Bz Pb Po Pr Nq Es] H b N.
  - auto.
  - destruct (Nat.eq_dec a c) as [Eac|]; [apply Po; congruence|]. exfalso. apply H. auto.
  - destruct (Nat.eq_dec a c) as [Eac|]; [apply Po; congruence|]. exfalso. apply H. auto.
Qed.
Lemma not_read s0 fresh w g x w' : Inv prog none s0 fresh w g -> match x with ACrash | ARefuse _ => False | _ => True end ->
  exec prog none actors 1 x w = Some w' -> (forall a, x <> ARead a) -> ~ in_read w'.
Proof.
  intros I Q E N. destruct (i_shape _ _ _ _ _ _ I) as (o & Sh & _). destruct x as [a|a|a|a|a|]; try contradiction; cbn in E.
  - unfold do_run in E. destruct (Nat.ltb_spec (length (busy (m w))) 1) as [L|L]; cbn [negb orb] in E; [|discriminate].
    destruct Sh as [Bz Ph Pr|b v Bz _ _ _ _|b v Bz _ _ _ _ _]; try (rewrite Bz in L; cbn in L; lia).
    destruct (negb _); [discriminate|]. destruct (q_of (m w) a) as [|k q]; [discriminate|]. destruct (wait_of (m w) a); [discriminate|].
    destruct (msg_of (m w) k) as [[to c0 [c|] v]|]; try discriminate. intros (b & v1 & h & C).
    destruct (prog a c (st_of (m w) a) v); inversion E; subst; cbn in C; rewrite ?Ph in C; unfold set in C; destruct (b =? a); rewrite ?Ph in C; discriminate.
  - exfalso. eapply N; eauto.
  - unfold do_commit in E. destruct (q_of (m w) a) as [|k q]; [discriminate|]. destruct (phase_of (m w) a) as [|v|c x|v h|v|c x] eqn:Ea; try discriminate.
    + inversion E; subst. intros (b & v1 & h & C). cbn in C. unfold set in C. destruct (Nat.eqb_spec b a) as [-> |Nb]; try discriminate. rewrite (shape_one w g o a Sh) in C; auto; congruence.
    + destruct (_ && _); [|discriminate]. inversion E; subst. intros (b & v1 & h1 & C). cbn in C. unfold set in C. destruct (Nat.eqb_spec b a) as [-> |Nb]; try discriminate. rewrite (shape_one w g o a Sh) in C; auto; congruence.
  - apply (flush_inv prog none actors _ _ _ _ _ _ I) in E as (_ & _ & _ & H). intros (b & v & h & C). rewrite H in C. discriminate.
Qed.

Lemma before_crash s0 first l w : quiet l -> (forall a l', l <> l' ++ [ARead a]) -> run prog none actors 1 l (start none s0 first) = Some w ->
  exists g, Inv prog none (begin s0 first) true w g /\ ~ in_read w.
Proof.
  intros Q N E. destruct l as [|x l _] using rev_ind.
  - inversion E; subst. exists (begin s0 first). split. apply start_inv. intros (a & v & h & C). discriminate.
  - rewrite run_app in E. destruct (run prog none actors 1 l (start none s0 first)) as [w1|] eqn:E1; [|discriminate].
    apply Forall_app in Q as [Q1 Q2]. inversion Q2; subst. destruct (run_list_inv _ _ l _ _ _ (start_inv s0 first) Q1 E1) as (g1 & I1).
    cbn in E. destruct (exec prog none actors 1 x w1) as [w2|] eqn:E2; [|discriminate]. inversion E; subst w2.
    destruct (exec_inv _ _ _ _ _ _ I1 H1 E2) as (g2 & I2). exists g2. split; auto. apply (not_read _ _ _ _ _ _ I1 H1 E2). intros a Ex. subst x. eapply N; eauto.
Qed.

(** What is in memory is what remains to be done. *)
Definition agrees (w : world) (g : config st code) : Prop :=
  busy (m w) = [] -> forall a, map snd (letters (msg_of (m w)) (q_of (m w) a)) = queues g a /\ (q_of (m w) a = [] -> st_of (m w) a = states g a).
Lemma inv_agrees s0 fresh w g : Inv prog none s0 fresh w g -> agrees w g.
Proof.
  intros I B a. destruct (i_shape _ _ _ _ _ _ I) as (o & Sh & Iq & _). destruct Sh as [Bz Ph Pr|b v Bz _ _ _ _|b v Bz _ _ _ _ _]; try congruence.
  split. apply Iq. intros E. specialize (Pr a). unfold progress in Pr. rewrite E in Pr. tauto.
Qed.

(** C45.  A program that awaits nothing, run by one worker thread, crashing once, anywhere but
    between the read and the commit of save_actor_state, with no commit refused: the messages
    handled and committed, before and after the crash together, are an execution without
    crashes, and whenever no message is being handled the messages in memory are the ones that
    execution still has to handle, the states the ones it left. *)
Theorem C45_one_crash_partial : forall s0 first l1 l2 w, quiet l1 -> quiet l2 -> (forall a l, l1 <> l ++ [ARead a]) ->
  run prog none actors 1 (l1 ++ [ACrash] ++ l2) (start none s0 first) = Some w ->
  exists g, executes prog none (begin s0 first) (hist w) g /\ agrees w g.
Proof.
  intros s0 first l1 l2 w Q1 Q2 N E. rewrite run_app in E. destruct (run prog none actors 1 l1 (start none s0 first)) as [w1|] eqn:E1; [|discriminate].
  destruct (before_crash _ _ _ _ Q1 N E1) as (g1 & I1 & R1). cbn [app run exec] in E.
  assert (I2 : Inv prog none (begin s0 first) false (do_crash w1) g1). { apply crash_inv; auto. intros a v h C. apply R1. exists a, v, h. auto. }
  destruct (run_list_inv _ _ _ _ _ _ I2 Q2 E) as (g & I). exists g. split. apply (i_ex _ _ _ _ _ _ I). eapply inv_agrees; eauto.
Qed.

(** Without a crash the same holds. *)
Theorem C45_no_crash_partial : forall s0 first l w, quiet l -> run prog none actors 1 l (start none s0 first) = Some w ->
  exists g, executes prog none (begin s0 first) (hist w) g /\ agrees w g.
Proof.
  intros s0 first l w Q E. destruct (run_list_inv _ _ _ _ _ _ (start_inv s0 first) Q E) as (g & I). exists g. split. apply (i_ex _ _ _ _ _ _ I). eapply inv_agrees; eauto.
Qed.

(** What is committed survives: right after the restart nothing handled is forgotten, and the
    messages to handle are those of the execution so far. *)
Theorem C45_restart_partial : forall s0 first l w, quiet l -> (forall a l', l <> l' ++ [ARead a]) ->
  run prog none actors 1 l (start none s0 first) = Some w ->
  exists g, executes prog none (begin s0 first) (hist w) g /\ hist (do_crash w) = hist w /\
    forall a, map snd (letters (msg_of (m (do_crash w))) (q_of (m (do_crash w)) a)) = queues g a /\ st_of (m (do_crash w)) a = states g a.
Proof.
  intros s0 first l w Q N E. destruct (before_crash _ _ _ _ Q N E) as (g & I & R).
  assert (I2 : Inv prog none (begin s0 first) false (do_crash w) g). { apply crash_inv; auto. intros a v h C. apply R. exists a, v, h. auto. }
  exists g. split. apply (i_ex _ _ _ _ _ _ I). split; auto. intros a. split. apply (inv_agrees _ _ _ _ I2); auto.
  cbn. destruct (i_shape _ _ _ _ _ _ I) as (o & _ & _ & S). destruct (S eq_refl). auto.
Qed.

(** The heads of the queues of the database stay in order. *)
Definition heads (w : world) : Prop := forall a, d_cons (d w) a <= d_read (d w) a <= length (d_q (d w) a) /\
  (forall v h, phase_of (m w) a = Read v h -> h = d_read (d w) a).
Lemma exec_heads x w w' : heads w -> exec prog none actors 1 x w = Some w' -> heads w'.
Proof.
  intros H E a. pose proof (H a) as [Ha Hr]. destruct x as [b|b|b|b|b|]; cbn in E.
  - unfold do_run in E. destruct (_ || _); [discriminate|]. destruct (q_of (m w) b) as [|k q]; [discriminate|]. destruct (wait_of (m w) b); [discriminate|].
    destruct (msg_of (m w) k) as [[to c0 [c|] v]|]; try discriminate.
    destruct (prog b c (st_of (m w) b) v); inversion E; subst; cbn; split; auto; unfold set; destruct (a =? b); auto; discriminate.
  - unfold do_read in E. destruct (phase_of (m w) b) eqn:Eb; inversion E; subst; cbn. unfold set. destruct (Nat.eqb_spec a b) as [-> |N]; auto.
    split. lia. intros v' h C. inversion C; auto.
  - unfold do_commit in E. destruct (q_of (m w) b) as [|k q]; [discriminate|]. destruct (phase_of (m w) b) eqn:Eb; try discriminate.
    + inversion E; subst; cbn. split. rewrite enqueue_eq, app_length. unfold set. destruct (Nat.eqb_spec a b) as [-> |N]; lia. unfold set. destruct (a =? b); auto. discriminate.
    + destruct (_ && _) eqn:C; [|discriminate]. apply andb_prop in C as [C1 C2]. apply Nat.leb_le in C1, C2. inversion E; subst; cbn. split. rewrite enqueue_eq, app_length. unfold set. destruct (Nat.eqb_spec a b) as [-> |N]; lia. unfold set. destruct (a =? b); auto. discriminate.
  - unfold do_refuse in E. destruct (phase_of (m w) b) eqn:Eb; inversion E; subst; cbn. split; auto. unfold set. destruct (a =? b); auto. discriminate.
  - unfold do_flush in E. destruct (q_of (m w) b) as [|k q]; [discriminate|]. destruct (msg_of (m w) k) as [x|]; [|discriminate]. destruct (phase_of (m w) b) eqn:Eb; try discriminate.
    + inversion E; subst; cbn. split; auto. unfold set. destruct (a =? b); auto. discriminate.
    + destruct (msg_of (m w) x0) as [[t c0 [c|] r]|]; inversion E; subst; cbn; (split; auto; unfold set; destruct (a =? b); auto; discriminate).
  - inversion E; subst. cbn. split. lia. discriminate.
Qed.
Lemma run_heads l : forall w w', heads w -> run prog none actors 1 l w = Some w' -> heads w'.
Proof.
  induction l as [|x l IH]; intros w w' H E; cbn in E. inversion E; subst; auto. destruct (exec prog none actors 1 x w) eqn:E1; [|discriminate]. apply (IH w0); auto. apply (exec_heads x w); auto.
Qed.

(** Nothing gets stuck: while a message is left to handle, something that is neither a crash nor a
    refused commit can happen. *)
Theorem C45_progress_partial : forall s0 first l1 l2 w, quiet l1 -> quiet l2 -> (forall a l, l1 <> l ++ [ARead a]) ->
  run prog none actors 1 (l1 ++ [ACrash] ++ l2) (start none s0 first) = Some w ->
  (exists a, q_of (m w) a <> []) -> exists x, quiet [x] /\ exec prog none actors 1 x w <> None.
Proof.
  intros s0 first l1 l2 w Q1 Q2 N E (a & Qa).
  assert (H : heads w). { eapply run_heads; [|exact E]. intros b. cbn. split. lia. discriminate. }
  rewrite run_app in E. destruct (run prog none actors 1 l1 (start none s0 first)) as [w1|] eqn:E1; [|discriminate].
  destruct (before_crash _ _ _ _ Q1 N E1) as (g1 & I1 & R1). cbn [app run exec] in E.
  assert (I2 : Inv prog none (begin s0 first) false (do_crash w1) g1). { apply crash_inv; auto. intros b v h C. apply R1. exists b, v, h. auto. }
  destruct (run_list_inv _ _ _ _ _ _ I2 Q2 E) as (g & I). destruct (i_shape _ _ _ _ _ _ I) as (o & Sh & _).
  assert (Q : forall x, match x with ACrash | ARefuse _ => False | _ => True end -> quiet [x]) by (intros x Hx; constructor; auto; constructor).
  destruct Sh as [Bz Ph Pr|b v Bz Pb Po Pr Fi|b v Bz Pb Po Pr Nq Es].
  - exists (ARun a). split; auto. cbn. unfold do_run. rewrite Bz, Ph. cbn. specialize (Pr a). unfold progress in Pr. destruct (q_of (m w) a) as [|k q]; [congruence|].
    rewrite (i_wait _ _ _ _ _ _ I). destruct Pr as ([t c0 cc vv] & c & -> & Ec & _). cbn in Ec. subst cc. destruct (prog a c (st_of (m w) a) vv); discriminate.
  - destruct Pb as [Pb|[h Pb]].
    + exists (ARead b). split; auto. cbn. unfold do_read. rewrite Pb. discriminate.
    + exists (ACommit b). split; auto. cbn. unfold do_commit. unfold finished in Fi. destruct (q_of (m w) b) as [|k q]; [contradiction|]. rewrite Pb. destruct (H b) as [H1 H2]. apply H2 in Pb. subst h.
      rewrite (proj2 (Nat.leb_le _ _)) by lia. rewrite Nat.leb_refl. discriminate.
  - exists (AFlush b). split; auto. cbn. unfold do_flush. destruct (q_of (m w) b) as [|k q] eqn:Eq; [congruence|].
    destruct (k_to none w (i_keys _ _ _ _ _ _ I) b k) as (x & -> & _). rewrite Eq; left; auto. rewrite Pb. discriminate.
Qed.
End T.
Print Assumptions C45_one_crash_partial.
Print Assumptions C45_no_crash_partial.
Print Assumptions C45_restart_partial.
Print Assumptions C45_progress_partial.

(** A program: actors log the codes they run.  Code 0 sends 10 to actor 3, code 1 sends 20 to it,
    code 2 sends 10 to actor 2 and awaits the result, then runs 5; code 3 goes on with 4. *)
Definition demo : programs (list nat) nat unit := fun a c s v =>
  match c with
  | 0 => Done (s ++ [0]) [(3, 10)] tt
  | 1 => Done (s ++ [1]) [(3, 20)] tt
  | 2 => Wait (s ++ [2]) [(2, 10)] 5 0
  | 3 => Cont (s ++ [3]) [(3, 10)] 4 tt
  | _ => Done (s ++ [c]) [] tt
  end.
(** The same without code 2. *)
Definition demo' : programs (list nat) nat unit := fun a c s v => match c with 2 => Done s [] tt | _ => demo a c s v end.

(** Actor 1 handles 3 (in two pieces) and has 0 to handle; the crash is in the middle of it. *)
Example C45_case : awaits_nothing demo' /\ exists l1 l2 w, quiet l1 /\ quiet l2 /\ (forall a l, l1 <> l ++ [ARead a]) /\
  run demo' tt [1; 2; 3] 1 (l1 ++ [ACrash] ++ l2) (start tt (fun _ => []) [(1, 3); (1, 0)]) = Some w /\
  hist w = [Handled 1 3 [(3, 10)] [3; 4]; Handled 1 0 [(3, 10)] [3; 4; 0]; Handled 3 10 [] [10]; Handled 3 10 [] [10; 10]].
Proof.
  split. intros a c s v s' o k i. do 5 (destruct c as [|c]; try discriminate).
  exists [ARun 1; ARun 1; ARead 1; ACommit 1; AFlush 1; ARun 1], [ARun 1; ARead 1; ACommit 1; AFlush 1; ARun 3; ARead 3; ACommit 3; AFlush 3; ARun 3; ARead 3; ACommit 3; AFlush 3].
  eexists. split. repeat constructor. split. repeat constructor. split.
  { intros a l C. apply (f_equal (fun l => last l ACrash)) in C. rewrite last_last in C. discriminate. }
  split. vm_compute. reflexivity. vm_compute. reflexivity.
Qed.

(** The full claim is false in five ways.
    A second crash: the messages read by the first restart are lost. *)
Theorem C45_second_crash_refuted : exists w, run demo' tt [1; 2; 3] 1 [ACrash; ACrash] (start tt (fun _ => []) [(1, 4)]) = Some w /\
  hist w = [] /\ forall a, q_of (m w) a = [].
Proof. eexists. split. vm_compute. reflexivity. split. reflexivity. intros [|[|a]]; reflexivity. Qed.
Print Assumptions C45_second_crash_refuted.

(** A crash between the read and the commit: the message is lost. *)
Theorem C45_window_refuted : exists w, run demo' tt [1; 2; 3] 1 [ARun 1; ARead 1; ACrash] (start tt (fun _ => []) [(1, 4)]) = Some w /\
  hist w = [] /\ forall a, q_of (m w) a = [].
Proof. eexists. split. vm_compute. reflexivity. split. reflexivity. intros [|[|a]]; reflexivity. Qed.
Print Assumptions C45_window_refuted.

(** A refused commit: the read is repeated, and after a crash the next message is lost. *)
Theorem C45_refused_refuted : exists w, run demo' tt [1; 2; 3] 1 [ARun 1; ARead 1; ARefuse 1; ARead 1; ACommit 1; AFlush 1; ACrash]
    (start tt (fun _ => []) [(1, 4); (1, 6)]) = Some w /\
  hist w = [Handled 1 4 [] [4]] /\ forall a, q_of (m w) a = [].
Proof. eexists. split. vm_compute. reflexivity. split. reflexivity. intros [|[|a]]; reflexivity. Qed.
Print Assumptions C45_refused_refuted.

(** Two worker threads: actors 1 and 2 send 10 and 20 to actor 3; the queues of the database and
    of the memory get them in different orders.  20 is handled, committed, and handled again
    after the crash; 10 is lost. *)
Theorem C45_workers_refuted : exists w, run demo' tt [1; 2; 3] 2
    [ARun 1; ARun 2; ARead 1; ARead 2; ACommit 1; ACommit 2; AFlush 2; AFlush 1; ARun 3; ARead 3; ACommit 3; AFlush 3;
     ACrash; ARun 3; ARead 3; ACommit 3; AFlush 3] (start tt (fun _ => []) [(1, 0); (2, 1)]) = Some w /\
  hist w = [Handled 1 0 [(3, 10)] [0]; Handled 2 1 [(3, 20)] [1]; Handled 3 20 [] [20]; Handled 3 20 [] [20; 20]] /\
  forall a, q_of (m w) a = [].
Proof. eexists. split. vm_compute. reflexivity. split. reflexivity. intros [|[|[|[|a]]]]; reflexivity. Qed.
Print Assumptions C45_workers_refuted.

(** Await: what was done before it is committed, but the message still has the code from before;
    after the crash it runs again, and actor 2 gets and handles 10 twice. *)
Theorem C45_await_refuted : exists w, run demo tt [1; 2; 3] 1
    [ARun 1; ACommit 1; AFlush 1; ACrash; ARun 1; ACommit 1; AFlush 1; ARun 2; ARead 2; ACommit 2; AFlush 2; ARun 2; ARead 2; ACommit 2; AFlush 2]
    (start tt (fun _ => []) [(1, 2)]) = Some w /\
  hist w = [Handled 2 10 [] [10]; Handled 2 10 [] [10; 10]] /\ st_of (m w) 1 = [2; 2].
Proof. eexists. split. vm_compute. reflexivity. split; reflexivity. Qed.
Print Assumptions C45_await_refuted.

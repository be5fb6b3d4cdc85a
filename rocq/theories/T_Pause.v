(** C58: a pause stops all other workers. *)
From Verif Require Import Base M_Pause S_Pause P_Pause.
Local Open Scope nat_scope.

(** holds l w (S_Pause.v): the last successful begin of w in the history l came after the last
    end of w. *)

(** While worker w holds the pause, no other worker executes actor code or is inside
    acton_sync_pause_begin, whatever the schedule and whenever shutdown starts. *)
Theorem C58_exclusive : forall n s w w', preach n s -> holds (plog s) w = true ->
  w' <= n -> pphase s w' = PExec \/ pphase s w' = PWait -> w' = w.
Proof.
  intros n s w w' R H L P. destruct (Nat.eq_dec w' w) as [E|N]; auto. exfalso.
  destruct (hold_stopped n s w (preach_inv n s R) H w' L N) as [A|[_ [A|A]]]; destruct P; congruence.
Qed.
Print Assumptions C58_exclusive.

(** At most one worker holds the pause, it is one of the workers, and while it does no worker
    waits for a pause of its own. *)
Theorem C58_one_owner : forall n s w, preach n s -> holds (plog s) w = true ->
  w <= n /\ (forall w', holds (plog s) w' = true -> w' = w) /\ (forall w', w' <= n -> pphase s w' <> PWait).
Proof.
  intros n s w R H. pose proof (preach_inv n s R) as I. destruct (pi_hold _ _ I w H) as (A & B & C & D & E & F). split; auto. split.
  - intros w' H'. destruct (pi_hold _ _ I w' H') as (_ & _ & C' & _). congruence.
  - intros w' L W. destruct (pi_wait _ _ I w' L W) as (_ & C' & _). congruence.
Qed.
Print Assumptions C58_one_owner.

(** Two workers cannot both be waiting for their pause, so that a begin that comes while
    another pause is requested or held fails, at once and without any other effect. *)
Theorem C58_begin_fails : forall n s w w', preach n s -> w' <= n ->
  holds (plog s) w' = true \/ pphase s w' = PWait ->
  pause_begin s w = mkPst (preq s) (powner s) (pcount s) (pstarted s) (pparked s) (pexit s) (pphase s) (EvBegin w false :: plog s).
Proof.
  intros n s w w' R L H. pose proof (preach_inv n s R) as I. assert (Q : preq s = true).
  { destruct H as [H|H]; [destruct (pi_hold _ _ I w' H) as (_ & A & _)|destruct (pi_wait _ _ I w' L H) as (A & _)]; auto. }
  unfold pause_begin. rewrite Q, Bool.orb_true_r. reflexivity.
Qed.
Print Assumptions C58_begin_fails.

(** A begin that waits does return: when every other worker is at the top of its loop or
    parked, and there is no shutdown, one more round of each of them lets the owner return 0
    and hold the pause. *)
Theorem C58_begin_returns : forall n s w, preach n s -> w <= n -> pphase s w = PWait -> pexit s = false ->
  (forall i, i <= n -> i <> w -> pphase s i = PTop \/ pphase s i = PParked) ->
  let s' := checks s (filter (fun i => negb (i =? w)) (seq 0 (S n))) in
  preach n s' /\ plog (pause_wait n s' w) = EvBegin w true :: plog s /\ holds (plog (pause_wait n s' w)) w = true.
Proof.
  intros n s w R L W X P. pose proof (preach_inv n s R) as I. destruct (pi_wait _ _ I w L W) as (Q & O & _).
  set (l := filter (fun i => negb (i =? w)) (seq 0 (S n))).
  assert (Hl : forall i, In i l <-> i <= n /\ i <> w).
  { intro i. unfold l. rewrite filter_In, in_seq. destruct (Nat.eqb_spec i w); cbn; lia. }
  destruct (checks_reach n l s R) as (G1 & G2 & G3 & G4 & G5 & G6 & G7); auto.
  - intros i Li. apply Hl in Li. tauto.
  - intros i Li. apply Hl in Li. destruct (P i); tauto.
  - intros i Li. apply Hl in Li. rewrite O. intro A. injection A as A. lia.
  - cbv zeta. split; [exact G1|]. set (s' := checks s l) in *.
    assert (C : pcount s' = n).
    { pose proof (preach_inv n s' G1) as I'. rewrite (pi_cnt _ _ I' G2).
      destruct (pi_own _ _ I' G2) as (o & Eo & Lo & Po). assert (o = w) by congruence. subst o.
      pose proof (cnt_all (pparked s') (S n) w ltac:(lia) Po) as K. rewrite Nat.add_1_r in K. apply Nat.succ_inj. apply K.
      intros i Li Ni. apply G7. right. apply Hl. lia. }
    unfold pause_wait. rewrite C, G3. destruct (Nat.ltb_spec n n) as [A|_]; [lia|]. cbn [andb plog holds].
    rewrite G5, Nat.eqb_refl. auto.
Qed.
Print Assumptions C58_begin_returns.

(** The end releases: afterwards nobody holds the pause, no pause is requested, and a parked
    worker leaves with its next look. An end of a worker that does not own the pause changes
    nothing. *)
Theorem C58_end : forall n s w, preach n s -> w <= n ->
  (holds (plog s) w = true ->
     (forall v, holds (plog (pause_end s w)) v = false) /\ forall i, pphase (pause_check (pause_end s w) i) i = PFree) /\
  (pphase s w = PExec -> holds (plog s) w = false -> preach n (pause_end s w) /\ preq (pause_end s w) = preq s /\
     powner (pause_end s w) = powner s /\ pcount (pause_end s w) = pcount s /\ forall v, holds (plog (pause_end s w)) v = holds (plog s) v).
Proof.
  intros n s w R L. pose proof (preach_inv n s R) as I. split.
  - intros H. destruct (pi_hold _ _ I w H) as (A & B & C & D & E & F). unfold pause_end, is_owner. rewrite B, C, Nat.eqb_refl. cbn [negb orb plog holds].
    split.
    + intros v. destruct (Nat.eqb_spec w v); auto. destruct (holds (plog s) v) eqn:Hv; auto.
      destruct (pi_hold _ _ I v Hv) as (_ & _ & C' & _). congruence.
    + intro i. unfold pause_check. cbn [preq andb goto pphase]. apply pset_same.
  - intros P H. split; [eapply pr_step; [exact R|now apply ps_end]|]. unfold pause_end.
    destruct (preq s) eqn:Q; cbn [negb orb].
    2:{ cbn [preq powner pcount plog holds]. repeat split; auto. intro v. destruct (Nat.eqb_spec w v) as [->|]; auto. }
    destruct (is_owner s w) eqn:O; cbn [negb].
    2:{ cbn [preq powner pcount plog holds]. repeat split; auto. intro v. destruct (Nat.eqb_spec w v) as [->|]; auto. }
    exfalso. unfold is_owner in O. destruct (powner s) as [o|] eqn:Eo; [|discriminate].
    apply Nat.eqb_eq in O. subst o. destruct (pi_rel _ _ I Q w Eo); congruence.
Qed.
Print Assumptions C58_end.

(** A case with three workers, of which worker 2 pauses the others while worker 1 had been
    executing. *)
Example C58_case : exists s, preach 2 s /\ holds (plog s) 2 = true /\ pphase s 2 = PExec /\ pphase s 1 = PParked.
Proof.
  eexists. split.
  - eapply pr_step; [|apply (ps_wait 2 _ 2); [lia|]]; [|shelve].
    eapply pr_step; [|apply (ps_check 2 _ 0); [lia|]]; [|shelve].
    eapply pr_step; [|apply (ps_check 2 _ 1); [lia|]]; [|shelve].
    eapply pr_step; [|apply (ps_done 2 _ 1); [lia|]]; [|shelve].
    eapply pr_step; [|apply (ps_begin 2 _ 2); [lia|]]; [|shelve].
    eapply pr_step; [|apply (ps_run 2 _ 1); [lia| |]]; [|shelve..].
    eapply pr_step; [|apply (ps_run 2 _ 2); [lia| |]]; [|shelve..].
    eapply pr_step; [|apply (ps_check 2 _ 2); [lia|]]; [|shelve].
    eapply pr_step; [|apply (ps_check 2 _ 1); [lia|]]; [|shelve].
    eapply pr_step; [apply pr_init|apply ps_started].
  - repeat split.
  Unshelve. all: try reflexivity; try (left; reflexivity).
Qed.

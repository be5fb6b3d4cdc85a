(** C87: an answer from the replicated database speaks for a majority of its
    servers. *)
From Coq Require Import List ZArith Lia Bool Arith.
From Verif Require Import S_Quorum M_Quorum P_Quorum.
Import ListNotations.
Open Scope Z_scope.

(** A call that succeeds was answered favourably by a majority, whatever the
    order of the answers and of the steps of the two threads. *)
Theorem C87_success_is_a_majority : forall rf o servers es s r,
  call rf o servers es = Some s -> who s = Returned r ->
  Forall (fun a => fits o (what a)) (arrivals es) ->
  NoDup (map from (arrivals es)) ->
  match o with ReadQueue => 0 <= ret r | _ => ret r = 0 end ->
  exists M, majority rf M /\
    forall n, In n M -> exists a, In a (arrivals es) /\ from a = n /\ favourable o (what a).
Proof.
  intros rf o servers es s r C W F N S.
  destruct (success_quorum _ _ _ _ _ _ C W F S) as (a & b & E & _ & Q).
  subst es. rewrite arrivals_app in *. exists (map from (acc o (arrivals a))). split.
  - split.
    + apply NoDup_map_filter. rewrite map_app in N. eapply NoDup_app_l; exact N.
    + rewrite map_length. apply quorum_half; exact Q.
  - intros n I. destruct (acc_witness _ _ _ I) as (x & X & Y & Z). exists x.
    repeat split; auto. apply in_or_app; left; exact X.
Qed.
Print Assumptions C87_success_is_a_majority.

(** A run in which the caller sleeps, the second answer is an error and the
    third wakes it. *)
Example C87_success_met :
  let es := [Arrive (Reply 1 (Ack 0)); Lock; Check; Sleep;
             Arrive (Reply 2 (Ack (-2))); Arrive (Reply 3 (Ack 0)); Signal;
             Count; Conclude; Delete] in
  call 3 Write [1; 2; 3]%nat es =
    Some (State (arrivals es) false (Returned (Outcome 0 (-2) None)) false).
Proof. reflexivity. Qed.

(** The minority status is that of a server whose answer was not favourable;
    and after a success it is 0 exactly when all the answers that were looked
    at, at least a majority, were favourable. *)
Theorem C87_minority_status : forall rf o servers es s r,
  call rf o servers es = Some s -> who s = Returned r ->
  Forall (fun a => fits o (what a)) (arrivals es) ->
  (minority r <> 0 -> exists a, In a (arrivals es) /\ ~ favourable o (what a) /\
                                status_of (what a) = minority r) /\
  (o <> Validate ->
   match o with ReadQueue => 0 <= ret r | _ => ret r = 0 end ->
   exists seen later, arrivals es = seen ++ later /\ (rf < 2 * length seen)%nat /\
     (minority r = 0 <-> Forall (fun a => favourable o (what a)) seen)).
Proof.
  intros rf o servers es s r C W F. split.
  - intro M. destruct (call_returned _ _ _ _ _ _ C W) as [[_ ->]|[_ D]].
    { exfalso; apply M; reflexivity. }
    destruct D as (a & e & b & -> & [(-> & _ & ->)|(-> & _ & ->)]).
    { exfalso; apply M; reflexivity. }
    assert (E : minority (conclude o (quorum_size rf) (arrivals a)) =
                snd (count_ok o (arrivals a) 0 0)).
    { unfold conclude. destruct (count_ok o (arrivals a) 0 0) as [ok m]. cbn [snd].
      destruct o; try reflexivity; destruct (ok <? quorum_size rf)%nat; reflexivity. }
    rewrite E in M |- *.
    destruct (minority_spec o (arrivals a) 0 0) as [H|(x & Hi & Ho & Hs)]; [congruence|].
    exists x. split; [rewrite arrivals_app; apply in_or_app; left; exact Hi|].
    split; [|congruence]. intro K. apply okp_favourable in K. congruence.
  - intros V S.
    destruct (success_quorum _ _ _ _ _ _ C W F S) as (a & b & E & -> & Q).
    subst es. rewrite arrivals_app in *. exists (arrivals a), (arrivals (Conclude :: b)).
    split; [reflexivity|]. split.
    + apply quorum_half. pose proof (acc_length o (arrivals a)). lia.
    + assert (E : minority (conclude o (quorum_size rf) (arrivals a)) =
                  snd (count_ok o (arrivals a) 0 0)).
      { unfold conclude. destruct (count_ok o (arrivals a) 0 0) as [ok m]. cbn [snd].
        destruct o; try reflexivity; destruct (ok <? quorum_size rf)%nat; reflexivity. }
      rewrite E. apply Forall_app_l in F. split; intro H.
      * destruct (minority_some _ _ _ _ V F H) as [A _].
        revert A. apply Forall_impl. intros x; apply okp_favourable.
      * apply minority_none. revert H. apply Forall_impl. intros x; apply okp_favourable.
Qed.
Print Assumptions C87_minority_status.

(** "No quorum" is true when it is decided: the favourable answers that had
    arrived by then do not make a majority.  (Too few servers: nothing was
    asked.) *)
Theorem C87_no_quorum_is_true : forall rf o servers es s r,
  call rf o servers es = Some s -> who s = Returned r -> ret r = NO_QUORUM_ERR ->
  o <> Abort -> o <> Validate ->
  (2 * length servers <= rf)%nat \/
  exists es1 e es2, es = es1 ++ e :: es2 /\ (e = Count \/ e = Conclude) /\
    ~ exists M, majority rf M /\
        forall n, In n M -> exists a, In a (arrivals es1) /\ from a = n /\ favourable o (what a).
Proof.
  intros rf o servers es s r C W R NA NV.
  assert (K : forall rs, (length (acc o rs) < quorum_size rf)%nat ->
    ~ exists M, majority rf M /\
        forall n, In n M -> exists a, In a rs /\ from a = n /\ favourable o (what a)).
  { intros rs L (M & [N H] & A).
    assert (I : incl M (map from (acc o rs))).
    { intros n I. destruct (A n I) as (x & X & <- & Z). apply in_map. apply filter_In.
      split; [exact X|apply okp_favourable; exact Z]. }
    pose proof (NoDup_incl_length N I) as J. rewrite map_length in J.
    assert (quorum_size rf <= length M)%nat by (apply quorum_half; exact H). lia. }
  destruct (call_returned _ _ _ _ _ _ C W) as [[L _]|[_ D]].
  { left. destruct (le_lt_dec (2 * length servers) rf) as [X|X]; [exact X|].
    apply quorum_half in X. lia. }
  right. destruct D as (a & e & b & -> & [(-> & L & ->)|(-> & L & ->)]).
  - exists a, Count, b. split; [reflexivity|]. split; [auto|].
    apply K. pose proof (acc_length o (arrivals a)). lia.
  - exists a, Conclude, b. split; [reflexivity|]. split; [auto|].
    apply K. unfold conclude in R.
    pose proof (count_spec o (arrivals a) 0 0) as Cs. cbn [Nat.add] in Cs.
    pose proof (best_spec o (arrivals a) None) as Bs.
    destruct (count_ok o (arrivals a) 0 0) as [ok m]. cbn [fst] in Cs. subst ok.
    destruct (length (acc o (arrivals a)) <? quorum_size rf)%nat eqn:B.
    { apply Nat.ltb_lt; exact B. }
    exfalso. destruct o; cbn [ret] in R; try discriminate; try congruence.
    destruct (best_ok ReadQueue (arrivals a) None) as [x|] eqn:BE; [|discriminate].
    destruct (Bs x eq_refl) as ([Q|(y & Y & Ye)] & _); [discriminate|].
    apply filter_In in Y. destruct Y as [_ Y]. apply okp_favourable in Y.
    rewrite Ye in Y. destruct x; cbn in Y; try contradiction.
    cbn [status_of] in R. rewrite R in Y. apply Y; reflexivity.
Qed.
Print Assumptions C87_no_quorum_is_true.

Example C87_no_quorum_met :
  let es := [Arrive (Reply 1 (Ack (-2))); Arrive (Reply 2 (Ack 0)); Lock; Check;
             Count; Conclude; Delete] in
  call 3 Write [1; 2; 3]%nat es =
    Some (State (arrivals es) false (Returned (Outcome NO_QUORUM_ERR (-2) None)) false).
Proof. reflexivity. Qed.

(** No lost wake-up: once a majority has answered favourably and the
    communication thread has finished with these answers, the caller does not
    sleep.  (Unsubscribing is the exception, see below.) *)
Theorem C87_no_lost_wakeup : forall rf o es s, o <> Unsubscribe ->
  run rf o es init = Some s -> signalling s = false ->
  NoDup (map from (arrivals es)) ->
  (exists M, majority rf M /\
     forall n, In n M -> exists a, In a (arrivals es) /\ from a = n /\ favourable o (what a)) ->
  who s <> Asleep.
Proof.
  intros rf o es s U R G N (M & [D L] & A) W.
  pose proof (inv_run _ _ _ _ R) as V. unfold inv in V. rewrite W in V.
  assert (X : awake rf s) by (eapply awake_run; [exact R|exact I]).
  unfold awake in X. rewrite W in X. rewrite X in G; [discriminate|].
  rewrite V. clear X V.
  assert (J : incl M (map from (filter (fun r => valid_reply (what r)) (arrivals es)))).
  { intros n I. destruct (A n I) as (x & Y & <- & Z). apply in_map. apply filter_In.
    split; [exact Y|eapply favourable_valid; eassumption]. }
  pose proof (NoDup_incl_length D J) as K. rewrite map_length in K.
  unfold n_valid. apply quorum_half in L. lia.
Qed.
Print Assumptions C87_no_lost_wakeup.

(** The race it rules out: both answers come while the caller, having seen
    none, is about to sleep; the second one's signal waits for it. *)
Example C87_no_lost_wakeup_met :
  let es := [Lock; Check; Arrive (Reply 1 (Ack 0)); Arrive (Reply 2 (Ack 0)); Sleep; Signal] in
  run 3 Write es init = Some (State (arrivals es) false Woken false) /\
  step 3 Write Signal (State (arrivals es) true Sleepy false) = None.
Proof. split; reflexivity. Qed.

(** Unsubscribing where no server knows the subscription: all three have
    answered favourably, and still the caller sleeps until the time-out. *)
Theorem C87_unsubscribe_sleeps_refuted :
  ~ (forall rf o es s, run rf o es init = Some s -> signalling s = false ->
     NoDup (map from (arrivals es)) ->
     (exists M, majority rf M /\
        forall n, In n M -> exists a, In a (arrivals es) /\ from a = n /\ favourable o (what a)) ->
     who s <> Asleep).
Proof.
  intro H.
  apply (H 3%nat Unsubscribe
           [Lock; Check; Sleep; Arrive (Reply 1 (Ack (-3))); Arrive (Reply 2 (Ack (-3)));
            Arrive (Reply 3 (Ack (-3)))] _ eq_refl).
  - reflexivity.
  - cbn. repeat constructor; cbn; intuition lia.
  - exists [1; 2; 3]%nat. split.
    + split; [repeat constructor; cbn; intuition lia|cbn; lia].
    + intros n I. exists (Reply n (Ack (-3))). cbn in *. intuition (subst; auto).
  - reflexivity.
Qed.
Print Assumptions C87_unsubscribe_sleeps_refuted.

(** If all servers that answer do so favourably and the wait does not time
    out, the call succeeds.  The full statement would ask only that a majority
    answers favourably: see the next two theorems. *)
Theorem C87_majority_is_enough_partial : forall rf o servers es s r,
  call rf o servers es = Some s -> who s = Returned r ->
  (rf < 2 * length servers)%nat ->
  ~ In Timeout es -> Forall (fun a => favourable o (what a)) (arrivals es) ->
  match o with ReadQueue => 0 <= ret r | _ => ret r = 0 end.
Proof.
  intros rf o servers es s r C W L T F.
  apply quorum_half in L.
  destruct (call_returned _ _ _ _ _ _ C W) as [[X _]|[_ D]]; [lia|].
  unfold call in C. replace (length servers <? quorum_size rf)%nat with false in C
    by (symmetry; apply Nat.ltb_ge; exact L).
  destruct D as (a & e & b & -> & [(-> & X & ->)|(-> & X & ->)]).
  { apply count_needs_timeout in C; [lia|].
    intro I; apply T; apply in_or_app; left; exact I. }
  rewrite arrivals_app in F. apply Forall_app_l in F.
  assert (A : Forall (fun r => okp o (what r) = true) (arrivals a)).
  { revert F. apply Forall_impl. intro; apply okp_favourable. }
  unfold conclude. pose proof (count_spec o (arrivals a) 0 0) as Cs. cbn [Nat.add] in Cs.
  rewrite (acc_all _ _ A) in Cs.
  pose proof (best_spec o (arrivals a) None) as Bs.
  destruct (count_ok o (arrivals a) 0 0) as [ok m]. cbn [fst] in Cs. subst ok.
  replace (length (arrivals a) <? quorum_size rf)%nat with false
    by (symmetry; apply Nat.ltb_ge; exact X).
  replace (quorum_size rf <=? length (arrivals a))%nat with true
    by (symmetry; apply Nat.leb_le; exact X).
  destruct o; try reflexivity. cbn [ret].
  destruct (best_ok ReadQueue (arrivals a) None) as [x|]; [|lia].
  destruct (Bs x eq_refl) as ([Q|(y & Y & Ye)] & _); [discriminate|].
  apply filter_In in Y. destruct Y as [_ Y]. apply okp_favourable in Y.
  rewrite Ye in Y. destruct x; cbn in Y; try contradiction. exact Y.
Qed.
Print Assumptions C87_majority_is_enough_partial.

Example C87_majority_is_enough_met :
  let es := [Lock; Check; Arrive (Reply 1 (Entries 1 4 7)); Sleep;
             Arrive (Reply 2 (Entries 0 5 8)); Signal; Count; Conclude; Delete] in
  call 3 ReadQueue [1; 2; 3]%nat es =
    Some (State (arrivals es) false
           (Returned (Outcome 0 0 (Some (Entries 0 5 8)))) false).
Proof. reflexivity. Qed.

(** A majority answers favourably and nothing times out, and the call fails:
    the caller takes the first two answers, one of them an error, if they are
    there before it looks for the first time. *)
Theorem C87_majority_is_enough_refuted :
  ~ (forall rf o servers es s r,
     call rf o servers es = Some s -> who s = Returned r ->
     ~ In Timeout es -> NoDup (map from (arrivals es)) ->
     (exists M, majority rf M /\
        forall n, In n M -> exists a, In a (arrivals es) /\ from a = n /\ favourable o (what a)) ->
     ret r = 0).
Proof.
  intro H.
  assert (X : NO_QUORUM_ERR = 0); [|discriminate X].
  apply (H 3%nat Write [1; 2; 3]%nat
           [Arrive (Reply 1 (Ack (-2))); Arrive (Reply 2 (Ack 0)); Lock; Check;
            Count; Conclude; Delete; Arrive (Reply 3 (Ack 0))]
           _ (Outcome NO_QUORUM_ERR (-2) None) eq_refl eq_refl).
  - cbn. intuition discriminate.
  - cbn. repeat constructor; cbn; intuition lia.
  - exists [2; 3]%nat. split.
    + split; [repeat constructor; cbn; intuition lia|cbn; lia].
    + intros n I. exists (Reply n (Ack 0)). cbn in *. intuition (subst; auto).
Qed.
Print Assumptions C87_majority_is_enough_refuted.

(** The same for queries, now whenever the caller looks: an error counts as a
    valid answer there and wakes it. *)
Theorem C87_query_woken_by_error_refuted :
  ~ (forall rf es s, run rf Search es init = Some s -> ~ In Timeout es ->
     who s = Woken ->
     exists M, majority rf M /\
        forall n, In n M -> exists a, In a (arrivals es) /\ from a = n /\ favourable Search (what a)).
Proof.
  intro H.
  destruct (H 3%nat [Lock; Check; Sleep; Arrive (Reply 1 (Rows (-1) 0));
                     Arrive (Reply 2 (Rows 1 7)); Signal] _ eq_refl)
    as (M & [N L] & A).
  - cbn. intuition discriminate.
  - reflexivity.
  - assert (I : incl M [2%nat]).
    { intros n I. destruct (A n I) as (x & X & <- & Z). cbn in X.
      destruct X as [<-|[<-|[]]]; cbn in Z |- *; [lia|auto]. }
    pose proof (NoDup_incl_length N I) as K. cbn in K. lia.
Qed.
Print Assumptions C87_query_woken_by_error_refuted.

(** ** Majorities meet *)

(** With at most as many servers as the replication factor says, any two calls
    that succeed share a server that answered both favourably: a read meets
    every completed write. *)
Theorem C87_successes_share_a_server : forall rf servers o1 es1 s1 r1 o2 es2 s2 r2,
  (length servers <= rf)%nat ->
  call rf o1 servers es1 = Some s1 -> who s1 = Returned r1 ->
  call rf o2 servers es2 = Some s2 -> who s2 = Returned r2 ->
  Forall (fun a => fits o1 (what a)) (arrivals es1) ->
  Forall (fun a => fits o2 (what a)) (arrivals es2) ->
  NoDup (map from (arrivals es1)) -> NoDup (map from (arrivals es2)) ->
  incl (map from (arrivals es1)) servers -> incl (map from (arrivals es2)) servers ->
  match o1 with ReadQueue => 0 <= ret r1 | _ => ret r1 = 0 end ->
  match o2 with ReadQueue => 0 <= ret r2 | _ => ret r2 = 0 end ->
  exists a1 a2, In a1 (arrivals es1) /\ In a2 (arrivals es2) /\ from a1 = from a2 /\
    favourable o1 (what a1) /\ favourable o2 (what a2).
Proof.
  intros rf servers o1 es1 s1 r1 o2 es2 s2 r2 L C1 W1 C2 W2 F1 F2 N1 N2 I1 I2 S1 S2.
  destruct (C87_success_is_a_majority _ _ _ _ _ _ C1 W1 F1 N1 S1) as (A & MA & HA).
  destruct (C87_success_is_a_majority _ _ _ _ _ _ C2 W2 F2 N2 S2) as (B & MB & HB).
  destruct (majorities_meet rf servers A B L MA MB) as (n & X & Y).
  - intros n X. destruct (HA n X) as (a & Ia & <- & _). apply I1, in_map; exact Ia.
  - intros n X. destruct (HB n X) as (a & Ia & <- & _). apply I2, in_map; exact Ia.
  - destruct (HA n X) as (a & Ia & Ea & Fa). destruct (HB n Y) as (b & Ib & Eb & Fb).
    exists a, b. repeat split; auto. congruence.
Qed.
Print Assumptions C87_successes_share_a_server.

Example C87_share_met :
  exists es1 es2 s1 s2,
    call 3 Write [1; 2; 3]%nat es1 = Some s1 /\ who s1 = Returned (Outcome 0 0 None) /\
    call 3 Search [1; 2; 3]%nat es2 = Some s2 /\
    who s2 = Returned (Outcome 0 0 (Some (Rows 1 9))) /\
    map from (arrivals es1) = [1; 2]%nat /\ map from (arrivals es2) = [3; 2]%nat.
Proof.
  exists [Arrive (Reply 1 (Ack 0)); Arrive (Reply 2 (Ack 0)); Signal; Lock; Check; Count;
          Conclude; Delete],
         [Arrive (Reply 3 (Rows 1 9)); Arrive (Reply 2 (Rows 2 8)); Signal; Lock; Check;
          Count; Conclude; Delete].
  eexists; eexists; repeat split; reflexivity.
Qed.

(** Nothing keeps the number of servers at or below the replication factor
    (requests go to all servers in the membership): with four servers and a
    replication factor of two, two writes succeed on disjoint servers. *)
Theorem C87_more_servers_refuted :
  ~ (forall rf servers es1 s1 es2 s2,
     call rf Write servers es1 = Some s1 -> who s1 = Returned (Outcome 0 0 None) ->
     call rf Write servers es2 = Some s2 -> who s2 = Returned (Outcome 0 0 None) ->
     NoDup (map from (arrivals es1)) -> NoDup (map from (arrivals es2)) ->
     incl (map from (arrivals es1)) servers -> incl (map from (arrivals es2)) servers ->
     exists n, In n (map from (arrivals es1)) /\ In n (map from (arrivals es2))).
Proof.
  intro H.
  destruct (H 2%nat [1; 2; 3; 4]%nat
    [Arrive (Reply 1 (Ack 0)); Arrive (Reply 2 (Ack 0)); Signal; Lock; Check; Count; Conclude; Delete] _
    [Arrive (Reply 3 (Ack 0)); Arrive (Reply 4 (Ack 0)); Signal; Lock; Check; Count; Conclude; Delete] _
    eq_refl eq_refl eq_refl eq_refl) as (n & A & B).
  - cbn. repeat constructor; cbn; intuition lia.
  - cbn. repeat constructor; cbn; intuition lia.
  - intros x; cbn; intuition lia.
  - intros x; cbn; intuition lia.
  - cbn in A, B. lia.
Qed.
Print Assumptions C87_more_servers_refuted.

(** ** The space for the answers *)

(** With at most as many servers as the replication factor says, the answers
    fit into the array made for them. *)
Theorem C87_replies_fit : forall rf o servers es s,
  call rf o servers es = Some s -> (length servers <= rf)%nat ->
  NoDup (map from (arrivals es)) -> incl (map from (arrivals es)) servers ->
  overrun s = false.
Proof.
  intros rf o servers es s C L N I. unfold call in C.
  destruct (length servers <? quorum_size rf)%nat; [injection C as <-; reflexivity|].
  destruct (overrun s) eqn:V; [|reflexivity]. exfalso.
  pose proof (bounded_run _ _ _ _ C V) as B.
  pose proof (NoDup_incl_length N I) as K. rewrite map_length in K. lia.
Qed.
Print Assumptions C87_replies_fit.

(** With more servers they do not: the answers are written past its end. *)
Theorem C87_replies_fit_refuted :
  ~ (forall rf o servers es s,
     call rf o servers es = Some s ->
     NoDup (map from (arrivals es)) -> incl (map from (arrivals es)) servers ->
     overrun s = false).
Proof.
  intro H.
  assert (X : true = false); [|discriminate X].
  apply (H 1%nat Write [1; 2]%nat
    [Arrive (Reply 1 (Ack 0)); Signal; Lock; Check; Arrive (Reply 2 (Ack 0))] _ eq_refl).
  - cbn. repeat constructor; cbn; intuition lia.
  - intros x; cbn; intuition lia.
Qed.
Print Assumptions C87_replies_fit_refuted.

(** ** Reading what was written *)

(** A queue read that succeeds reaches at least as far as every majority: if
    all servers of some majority, should they answer, read up to [k] or
    further, the result is the answer of a server and reads up to [k] or
    further. *)
Theorem C87_queue_read_is_recent : forall rf servers es s r W k,
  call rf ReadQueue servers es = Some s -> who s = Returned r -> 0 <= ret r ->
  (length servers <= rf)%nat ->
  Forall (fun a => fits ReadQueue (what a)) (arrivals es) ->
  NoDup (map from (arrivals es)) -> incl (map from (arrivals es)) servers ->
  majority rf W -> incl W servers ->
  (forall a st i e, In a (arrivals es) -> In (from a) W -> what a = Entries st i e ->
     0 <= st -> k <= i) ->
  exists a st i e, In a (arrivals es) /\ what a = Entries st i e /\
    result r = Some (Entries st i e) /\ ret r = st /\ k <= i.
Proof.
  intros rf servers es s r W k C Wh R L F N I MW IW K.
  destruct (success_quorum _ _ _ _ _ _ C Wh F R) as (a & b & E & Er & Q).
  subst es. rewrite arrivals_app in *.
  pose (rs := arrivals a). fold rs in Q, Er.
  assert (Ba : best_ok ReadQueue rs None <> None).
  { apply best_some. left. intro Z. rewrite Z in Q. unfold quorum_size in Q. cbn in Q. lia. }
  pose proof (best_spec ReadQueue rs None) as Bs.
  assert (Rr : result r = best_ok ReadQueue rs None /\
               ret r = match best_ok ReadQueue rs None with Some x => status_of x | None => 0 end).
  { subst r. unfold conclude. pose proof (count_spec ReadQueue rs 0 0) as Cs.
    cbn [Nat.add] in Cs. destruct (count_ok ReadQueue rs 0 0) as [ok m].
    cbn [fst] in Cs. subst ok.
    replace (length (acc ReadQueue rs) <? quorum_size rf)%nat with false
      by (symmetry; apply Nat.ltb_ge; exact Q). split; reflexivity. }
  destruct (best_ok ReadQueue rs None) as [x|] eqn:BE; [|congruence].
  destruct (Bs x eq_refl) as ([Z|(y & Y & Ye)] & Mx & _); [discriminate|].
  assert (Iy : In y rs /\ okp ReadQueue (what y) = true) by (pose proof Y as Y'; apply filter_In in Y'; exact Y').
  destruct Iy as [Iy Oy]. rewrite Ye in Oy.
  destruct x as [st|n d|st i e]; try discriminate Oy.
  assert (MA : majority rf (map from (acc ReadQueue rs))).
  { split; [apply NoDup_map_filter; rewrite map_app in N; eapply NoDup_app_l; exact N|].
    rewrite map_length. apply quorum_half; exact Q. }
  destruct (majorities_meet rf servers _ W L MA MW) as (n & An & Wn); [|exact IW|].
  { intros n An. destruct (acc_witness _ _ _ An) as (z & Z1 & <- & _). apply I.
    apply in_map. apply in_or_app. left; exact Z1. }
  apply in_map_iff in An. destruct An as (z & <- & Iz).
  exists y, st, i, e. split; [apply in_or_app; left; exact Iy|].
  destruct Rr as [R1 R2]. repeat split; auto.
  specialize (Mx z Iz). cbn [upto_of] in Mx.
  apply filter_In in Iz. destruct Iz as [Iz Oz].
  destruct (what z) as [s'|n' d'|s' i' e'] eqn:Ez; try discriminate Oz.
  cbn [okp] in Oz. apply negb_true_iff, Z.ltb_ge in Oz. cbn [upto_of] in Mx.
  assert (k <= i'); [|lia].
  eapply K; [apply in_or_app; left; exact Iz|exact Wn|exact Ez|exact Oz].
Qed.
Print Assumptions C87_queue_read_is_recent.

Example C87_queue_read_met :
  let es := [Arrive (Reply 1 (Entries 0 3 30)); Arrive (Reply 2 (Entries 1 5 50)); Signal;
             Lock; Check; Count; Conclude; Delete] in
  call 3 ReadQueue [1; 2; 3]%nat es =
    Some (State (arrivals es) false (Returned (Outcome 1 0 (Some (Entries 1 5 50)))) false)
  /\ majority 3 [2; 3]%nat.
Proof. split; [reflexivity|split; [repeat constructor; cbn; intuition lia|cbn; lia]]. Qed.

(** A query of rows takes the first answer, however old: servers 2 and 3, a
    majority, hold the row with 20; the query succeeds and returns what
    server 1 still holds. *)
Theorem C87_query_is_recent_refuted :
  ~ (forall rf servers es s r W v,
     call rf Search servers es = Some s -> who s = Returned r -> ret r = 0 ->
     (length servers <= rf)%nat ->
     NoDup (map from (arrivals es)) -> incl (map from (arrivals es)) servers ->
     majority rf W -> incl W servers ->
     (forall a, In a (arrivals es) -> In (from a) W -> what a = Rows 1 v) ->
     result r = Some (Rows 1 v)).
Proof.
  intro H.
  assert (X : Some (Rows 1 10) = Some (Rows 1 20)); [|discriminate X].
  apply (H 3%nat [1; 2; 3]%nat
    [Arrive (Reply 1 (Rows 1 10)); Arrive (Reply 2 (Rows 1 20)); Signal; Lock; Check; Count;
     Conclude; Delete] _ (Outcome 0 0 (Some (Rows 1 10))) [2; 3]%nat 20 eq_refl eq_refl).
  - reflexivity.
  - cbn; lia.
  - cbn. repeat constructor; cbn; intuition lia.
  - intros x; cbn; intuition lia.
  - split; [repeat constructor; cbn; intuition lia|cbn; lia].
  - intros x; cbn; intuition lia.
  - intros a Ia Wa. cbn in Ia. destruct Ia as [<-|[<-|[]]]; cbn in Wa |- *;
      [lia|reflexivity].
Qed.
Print Assumptions C87_query_is_recent_refuted.

(** What a query does guarantee: its result is a favourable answer of some
    server. *)
Theorem C87_query_partial : forall rf servers es s r,
  call rf Search servers es = Some s -> who s = Returned r -> ret r = 0 ->
  Forall (fun a => fits Search (what a)) (arrivals es) ->
  exists a n v, In a (arrivals es) /\ what a = Rows n v /\ 0 <= n /\
    result r = Some (Rows n v).
Proof.
  intros rf servers es s r C Wh R F.
  destruct (success_quorum _ _ _ _ _ _ C Wh F R) as (a & b & E & Er & Q).
  subst es. rewrite arrivals_app. pose (rs := arrivals a). fold rs in Q, Er |- *.
  destruct (first_some Search rs) as (y & Y & Fy).
  { intro Z. rewrite Z in Q. unfold quorum_size in Q. cbn in Q. lia. }
  assert (Rr : result r = first_ok Search rs).
  { subst r. unfold conclude. pose proof (count_spec Search rs 0 0) as Cs.
    cbn [Nat.add] in Cs. destruct (count_ok Search rs 0 0) as [ok m].
    cbn [fst] in Cs. subst ok.
    replace (length (acc Search rs) <? quorum_size rf)%nat with false
      by (symmetry; apply Nat.ltb_ge; exact Q). reflexivity. }
  apply filter_In in Y. destruct Y as [Iy Oy]. apply okp_favourable in Oy.
  destruct (what y) as [st|n v|st i e] eqn:Ey; try contradiction.
  exists y, n, v. repeat split; auto.
  - apply in_or_app; left; exact Iy.
  - congruence.
Qed.
Print Assumptions C87_query_partial.

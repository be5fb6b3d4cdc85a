(** C88: commit on the replicated database. *)
From Coq Require Import List ZArith Lia Bool Arith.
From Verif Require Import S_Quorum M_Quorum P_Quorum M_Commit P_Commit.
Import ListNotations.
Open Scope Z_scope.

(** ** What the result of a commit says *)

(** "Committed": a majority of the servers voted for it, and a majority (maybe
    another one) has added to its tables the writes it held. *)
Theorem C88_committed : forall rf votes v ds a w w',
  NoDup (seen v) -> Forall (fun d => NoDup (seen d)) ds ->
  commit rf votes v ds a w = (w', Some 0) ->
  (exists V, majority rf V /\
     forall n, In n V -> In n (delivered v) /\ holds (w n) = true /\ votes n = 0) /\
  (exists P, majority rf P /\
     forall n, In n P -> up (w' n) = true /\ store (w' n) = store (w n) ++ held (w n)).
Proof.
  intros rf votes v ds a w w' Nv Nd C. unfold commit in C.
  destruct (answer rf Validate (replies votes ValidateM v w) =? VAL_STATUS_COMMIT) eqn:A.
  - apply Z.eqb_eq in A. split.
    + destruct (answer_majority rf Validate votes ValidateM v w ltac:(auto) Nv A)
        as (V & MV & H).
      exists V. split; [exact MV|]. intros n I. destruct (H n I) as [D S].
      split; [exact D|]. unfold handle, holds in *.
      destruct (w n) as [[] [|ws|ws] st]; cbn in *; try discriminate.
      destruct (votes n =? VAL_STATUS_COMMIT) eqn:E.
      * apply Z.eqb_eq in E. auto.
      * cbn in S. injection S as S. rewrite S in E. discriminate E.
    + destruct (persist_majority _ _ _ _ _ _ Nd C) as (_ & P & MP & H).
      exists P. split; [exact MP|]. intros n I. apply H; [exact I|].
      left. apply validate_same.
  - destruct (answer rf Validate (replies votes ValidateM v w) =? NO_QUORUM_ERR);
      injection C as _ C; [discriminate|]. apply Z.eqb_neq in A. exfalso; apply A; exact C.
Qed.
Print Assumptions C88_committed.

(** Server 3 is slow: the commit takes two rounds. *)
Definition w0 : world := fun n =>
  if mem n [1; 2; 3]%nat then Server true (Active [7; 8]) [1] else Server false Absent [].

Example C88_committed_met :
  let r := commit 3 (fun _ => 0) (Round [1; 2; 3] [1; 2])%nat
             [Round [1] [1]; Round [2; 3] [3; 2]]%nat (Round [] []) w0 in
  snd r = Some 0 /\ map (fst r) [1; 2; 3]%nat = repeat (Server true Absent [1; 7; 8]) 3.
Proof. split; reflexivity. Qed.

(** Anything else - aborted, or no quorum - and no server's tables have
    changed. *)
Theorem C88_not_committed : forall rf votes v ds a w w' r,
  commit rf votes v ds a w = (w', Some r) -> r <> 0 ->
  Forall (fun d => NoDup (seen d)) ds ->
  forall n, store (w' n) = store (w n).
Proof.
  intros rf votes v ds a w w' r C R Nd n. unfold commit in C.
  destruct (answer rf Validate (replies votes ValidateM v w) =? VAL_STATUS_COMMIT).
  - destruct (persist_majority _ _ _ _ _ _ Nd C) as (-> & _). exfalso; apply R; reflexivity.
  - destruct (answer rf Validate (replies votes ValidateM v w) =? NO_QUORUM_ERR);
      injection C as <- _.
    + apply validate_same.
    + rewrite abort_store. apply validate_same.
Qed.
Print Assumptions C88_not_committed.

Example C88_not_committed_met :
  snd (commit 3 (fun n => if (n =? 1)%nat then 0 else 1) (Round [1; 2; 3] [1; 2; 3])%nat
         [] (Round [1; 2] [1; 2])%nat w0) = Some 1 /\
  snd (commit 3 (fun _ => 0) (Round [1; 2; 3] [1])%nat [] (Round [] []) w0)
    = Some (-1).
Proof. split; reflexivity. Qed.

(** On every server, at every time, whatever was lost: all of its writes of the
    transaction are in its tables, once, or none is. *)
Theorem C88_all_or_nothing : forall rf votes v ds a w w' r n,
  commit rf votes v ds a w = (w', r) ->
  store (w' n) = store (w n) \/ store (w' n) = store (w n) ++ held (w n).
Proof.
  intros rf votes v ds a w w' r n C. unfold commit in C.
  destruct (answer rf Validate (replies votes ValidateM v w) =? VAL_STATUS_COMMIT).
  - assert (M : moved (w n) (w' n)).
    { eapply persist_moved; [|exact C]. left. apply validate_same. }
    destruct M as [[E _]|[E _]]; auto.
  - destruct (answer rf Validate (replies votes ValidateM v w) =? NO_QUORUM_ERR);
      injection C as <- _; left.
    + apply validate_same.
    + rewrite abort_store. apply validate_same.
Qed.
Print Assumptions C88_all_or_nothing.

(** Two transactions that no server votes for together are not both committed,
    if there are at most as many servers as the replication factor says. *)
Theorem C88_conflicting : forall rf servers
    votes1 v1 ds1 a1 w1 w1' votes2 v2 ds2 a2 w2 w2',
  (length servers <= rf)%nat ->
  NoDup (seen v1) -> Forall (fun d => NoDup (seen d)) ds1 ->
  NoDup (seen v2) -> Forall (fun d => NoDup (seen d)) ds2 ->
  incl (delivered v1) servers -> incl (delivered v2) servers ->
  (forall n, In n servers -> ~ (votes1 n = 0 /\ votes2 n = 0)) ->
  commit rf votes1 v1 ds1 a1 w1 = (w1', Some 0) ->
  commit rf votes2 v2 ds2 a2 w2 = (w2', Some 0) ->
  False.
Proof.
  intros rf servers votes1 v1 ds1 a1 w1 w1' votes2 v2 ds2 a2 w2 w2'
    L N1 F1 N2 F2 I1 I2 X C1 C2.
  destruct (C88_committed _ _ _ _ _ _ _ N1 F1 C1) as ((V1 & M1 & H1) & _).
  destruct (C88_committed _ _ _ _ _ _ _ N2 F2 C2) as ((V2 & M2 & H2) & _).
  destruct (majorities_meet rf servers V1 V2 L M1 M2) as (n & A & B).
  - intros n I. apply I1. apply H1; exact I.
  - intros n I. apply I2. apply H2; exact I.
  - destruct (H1 n A) as (D & _ & E1). destruct (H2 n B) as (_ & _ & E2).
    apply (X n); auto.
Qed.
Print Assumptions C88_conflicting.

(** Each of the two can be committed; the votes for them are disjoint on a
    third server only if one of them loses it. *)
Example C88_conflicting_met :
  let vote1 n := if (n =? 3)%nat then 1 else 0 in
  let vote2 n := if (n =? 3)%nat then 0 else 1 in
  (forall n, ~ (vote1 n = 0 /\ vote2 n = 0)) /\
  snd (commit 3 vote1 (Round [1; 2; 3] [3; 1; 2])%nat [Round [1; 2; 3] [1; 2]]%nat
         (Round [] []) w0) = Some 0 /\
  snd (commit 3 vote2 (Round [1; 2; 3] [3; 1; 2])%nat [] (Round [] []) w0) = Some 1.
Proof.
  split; [|split; reflexivity]. intro n. cbn. destruct (n =? 3)%nat; intros [? ?]; discriminate.
Qed.

(** ** What was written is kept by a majority *)

(** A transaction begun on [db], with writes [xs], committed: if every write
    reached all the servers that the transaction was begun on, a majority has
    all of them, in their order.  The full statement asks only that each write
    was acknowledged: see below. *)
Theorem C88_durable_partial : forall rf votes db xs v ds a (w : world) w',
  (forall n, entry (w n) = Absent) ->
  (forall x d, In (x, d) xs -> incl (delivered db) (delivered d)) ->
  NoDup (seen v) -> Forall (fun d => NoDup (seen d)) ds ->
  commit rf votes v ds a (puts votes xs (fst (begin_txn rf votes db w))) = (w', Some 0) ->
  exists P, majority rf P /\
    forall n, In n P -> up (w' n) = true /\ store (w' n) = store (w n) ++ map fst xs.
Proof.
  intros rf votes db xs v ds a w w' F D Nv Nd C.
  pose (w1 := fst (begin_txn rf votes db w)). fold w1 in C.
  unfold commit in C.
  destruct (answer rf Validate (replies votes ValidateM v (puts votes xs w1)) =? VAL_STATUS_COMMIT) eqn:A.
  2:{ destruct (answer rf Validate (replies votes ValidateM v (puts votes xs w1)) =? NO_QUORUM_ERR);
        injection C as _ C; [discriminate|]. apply Z.eqb_neq in A. exfalso; apply A; exact C. }
  clear A.
  (* the servers that answer the last round hold the transaction all along *)
  assert (K2 : forall ds u, Forall (fun d => NoDup (seen d)) ds ->
    persist rf votes ds u = (w', Some 0) ->
    exists P, majority rf P /\ forall n, In n P -> holds (u n) = true /\
      up (w' n) = true /\ store (w' n) = store (u n) ++ held (u n)).
  { clear. intros ds; induction ds as [|d ds IH]; intros u F P; cbn [persist] in P;
      [discriminate|].
    inversion F as [|x y Nd Nds]; subst.
    destruct (answer rf Write (replies votes CommitM d u) =? 0) eqn:A.
    - apply Z.eqb_eq in A. injection P as <-.
      destruct (answer_majority rf Write votes CommitM d u ltac:(auto) Nd A) as (M & MM & H).
      exists M. split; [exact MM|]. intros n I. destruct (H n I) as [D S].
      unfold after. apply mem_In in D. rewrite D.
      unfold handle, holds, held in *. destruct (u n) as [[] [|ws|ws] st]; cbn in *;
        (discriminate || auto).
    - destruct (IH _ Nds P) as (M & MM & H). exists M. split; [exact MM|].
      intros n I. destruct (H n I) as (Hh & Hu & Hs).
      destruct (after_or votes CommitM d u n) as [E|[_ E]]; rewrite E in Hh, Hs; [auto|].
      unfold handle, holds, held in *. destruct (u n) as [[] [|ws|ws] st]; cbn in *;
        discriminate. }
  destruct (K2 _ _ Nd C) as (Q & MQ & HQ). exists Q. split; [exact MQ|].
  intros n I. destruct (HQ n I) as (Hh & Hu & Hs). split; [exact Hu|].
  destruct (validate_same votes v (puts votes xs w1) n) as [S1 S2].
  rewrite Hs, S1, S2.
  assert (Hp : holds (puts votes xs w1 n) = true).
  { destruct (after_or votes ValidateM v (puts votes xs w1) n) as [E|[_ E]];
      rewrite E in Hh; [exact Hh|].
    unfold handle, holds in *. destruct (puts votes xs w1 n) as [[] [|ws|ws] st]; cbn in *;
      (discriminate || reflexivity || exact Hh). }
  assert (H1 : holds (w1 n) = true).
  { destruct (holds (w1 n)) eqn:E; [reflexivity|]. rewrite (puts_lost votes xs w1 n E) in Hp.
    discriminate. }
  assert (Dn : In n (delivered db) /\ store (w1 n) = store (w n) /\ held (w1 n) = []).
  { unfold w1, begin_txn in *. cbn [fst] in *.
    destruct (after_or votes Begin db w n) as [E|[J E]]; rewrite E in *.
    - unfold holds in H1. rewrite F in H1. destruct (up (w n)); discriminate.
    - split; [exact J|]. specialize (F n). unfold handle, holds, held in *.
      destruct (w n) as [[] e st]; cbn in *; subst; cbn in *; [auto|discriminate]. }
  destruct Dn as (J & E1 & E2).
  destruct (puts_held votes xs w1 n H1) as (_ & P2 & P3).
  { intros x d Ix. apply (D x d Ix). exact J. }
  rewrite P2, P3, E1, E2. reflexivity.
Qed.
Print Assumptions C88_durable_partial.

Definition empty : world := fun n =>
  if mem n [1; 2; 3]%nat then Server true Absent [] else Server false Absent [].

Example C88_durable_met :
  let all := Round [1; 2; 3]%nat [2; 3]%nat in
  snd (commit 3 (fun _ => 0) all [all] all
         (puts (fun _ => 0) [(5, all); (6, all)] (fst (begin_txn 3 (fun _ => 0) all empty))))
    = Some 0.
Proof. reflexivity. Qed.

(** Each write was acknowledged by a majority and the transaction is committed,
    but the first write is in the tables of a single server: servers that have
    missed a write commit the rest. *)
Theorem C88_durable_refuted :
  ~ (forall rf votes db x1 d1 x2 d2 v ds a (w w' : world),
     (forall n, entry (w n) = Absent) ->
     snd (begin_txn rf votes db w) = 0 ->
     snd (put rf votes x1 d1 (fst (begin_txn rf votes db w))) = 0 ->
     snd (put rf votes x2 d2 (fst (put rf votes x1 d1 (fst (begin_txn rf votes db w))))) = 0 ->
     commit rf votes v ds a
       (puts votes [(x1, d1); (x2, d2)] (fst (begin_txn rf votes db w))) = (w', Some 0) ->
     exists P, majority rf P /\ forall n, In n P -> In x1 (store (w' n))).
Proof.
  intro H.
  pose (all := Round [1; 2; 3]%nat [1; 2; 3]%nat).
  pose (r := commit 3 (fun _ => 0) all [Round [2; 3] [2; 3]]%nat all
         (puts (fun _ => 0) [(5, (Round [1; 2] [1; 2])%nat); (6, (Round [1; 3] [1; 3])%nat)]
            (fst (begin_txn 3 (fun _ => 0) all empty)))).
  destruct (H 3%nat (fun _ => 0) all 5 (Round [1; 2] [1; 2])%nat 6 (Round [1; 3] [1; 3])%nat
              all [Round [2; 3] [2; 3]]%nat all empty (fst r)) as (P & [N L] & I).
  - intro n. unfold empty. destruct (mem n [1; 2; 3]%nat); reflexivity.
  - reflexivity.
  - reflexivity.
  - reflexivity.
  - rewrite (surjective_pairing (commit _ _ _ _ _ _)). reflexivity.
  - assert (J : incl P [2%nat]).
    { intros n Hn. specialize (I n Hn).
      destruct n as [|[|[|[|n]]]]; cbn in I; intuition (try discriminate).
      left; reflexivity. }
    pose proof (NoDup_incl_length N J) as K. cbn in K. lia.
Qed.
Print Assumptions C88_durable_refuted.

(** ** Does a commit return? *)

(** It does as soon as a round reaches, and hears from, a majority that still
    holds the transaction. *)
Theorem C88_returns_partial : forall rf votes v d ds a w M,
  answer rf Validate (replies votes ValidateM v w) = 0 ->
  NoDup (seen d) -> majority rf M ->
  (forall n, In n M -> In n (seen d) /\ In n (delivered d) /\
     holds (after votes ValidateM v w n) = true) ->
  snd (commit rf votes v (d :: ds) a w) = Some 0.
Proof.
  intros rf votes v d ds a w M A N MM H. unfold commit. rewrite A. cbn [Z.eqb].
  cbn [persist].
  rewrite (answer_good rf votes d (after votes ValidateM v w) M N MM); [reflexivity|].
  intros n I. destruct (H n I) as (X & Y & Z). repeat split; auto.
  unfold handle, holds in *. destruct (after votes ValidateM v w n) as [[] [|ws|ws] st];
    cbn in *; (discriminate || reflexivity).
Qed.
Print Assumptions C88_returns_partial.

Example C88_returns_met :
  let v := Round [1; 2; 3]%nat [3; 1]%nat in
  answer 3 Validate (replies (fun _ => 0) ValidateM v w0) = 0 /\ majority 3 [1; 2]%nat /\
  (forall n, In n [1; 2]%nat -> holds (after (fun _ => 0) ValidateM v w0 n) = true).
Proof.
  split; [reflexivity|split].
  - split; [repeat constructor; cbn; intuition lia|cbn; lia].
  - intros n I. cbn in I. destruct I as [<-|[<-|[]]]; reflexivity.
Qed.

(** It never does when fewer servers hold the transaction: a server that has
    committed answers "no such transaction" from then on, and the client takes
    that for a failure. *)
Theorem C88_commit_never_returns : forall rf votes ds w,
  (forall M, NoDup M -> (forall n, In n M -> holds (w n) = true) -> (2 * length M <= rf)%nat) ->
  Forall (fun d => NoDup (seen d)) ds ->
  snd (persist rf votes ds w) = None.
Proof. intros rf votes ds w F N. apply few_stuck; assumption. Qed.
Print Assumptions C88_commit_never_returns.

(** So a commit can be applied on all servers, which are all up and reachable,
    and the client tries forever: all it takes is one round in which all
    servers commit and two of the three acknowledgements are late. *)
Theorem C88_returns_refuted :
  ~ (forall rf votes v d (w : world),
     answer rf Validate (replies votes ValidateM v w) = 0 ->
     (forall n, In n [1; 2; 3]%nat -> up (w n) = true) ->
     exists k, snd (commit rf votes v (d :: repeat (Round [1; 2; 3] [1; 2; 3])%nat k)
                      (Round [] []) w) = Some 0).
Proof.
  intro H.
  destruct (H 3%nat (fun _ => 0) (Round [1; 2; 3] [1; 2; 3])%nat (Round [1; 2; 3] [1])%nat w0)
    as (k & K).
  - reflexivity.
  - intros n I. cbn in I. destruct I as [<-|[<-|[<-|[]]]]; reflexivity.
  - unfold commit in K.
    change (answer 3 Validate (replies (fun _ => 0) ValidateM (Round [1; 2; 3] [1; 2; 3])%nat w0)
            =? VAL_STATUS_COMMIT) with true in K.
    cbn [persist] in K.
    match type of K with snd (if ?b then _ else _) = _ => change b with false in K end.
    cbn iota in K. rewrite few_stuck in K; [discriminate| |].
    + intros M N Hm. destruct M as [|m M]; [cbn; lia|exfalso].
      specialize (Hm m (or_introl eq_refl)).
      destruct m as [|[|[|[|m]]]]; cbn in Hm; discriminate.
    + apply Forall_forall. intros d Hd. apply repeat_spec in Hd. subst d. cbn.
      repeat constructor; cbn; intuition lia.
Qed.
Print Assumptions C88_returns_refuted.

(** ** Do the servers survive? *)

(** A server that a transaction was begun on survives it: writes, the commit
    with all its retries, or the abort. *)
Theorem C88_server_survives_partial : forall rf votes db xs v ds a (w : world) w' r n,
  In n (delivered db) -> up (w n) = true -> entry (w n) = Absent ->
  commit rf votes v ds a (puts votes xs (fst (begin_txn rf votes db w))) = (w', r) ->
  up (w' n) = true.
Proof.
  intros rf votes db xs v ds a w w' r n D U E C.
  assert (A0 : exists ws, up (fst (begin_txn rf votes db w) n) = true /\
                          entry (fst (begin_txn rf votes db w) n) = Active ws).
  { unfold begin_txn, after. cbn [fst]. apply mem_In in D. rewrite D. unfold handle.
    rewrite U, E. cbn. eauto. }
  assert (A1 : forall xs u, (exists ws, up (u n) = true /\ entry (u n) = Active ws) ->
                exists ws, up (puts votes xs u n) = true /\ entry (puts votes xs u n) = Active ws).
  { clear. intros xs; induction xs as [|[x d] xs IH]; intros u H; cbn [puts]; [exact H|].
    apply IH. destruct H as (ws & U & E).
    destruct (after_or votes (Put x) d u n) as [->|[_ ->]]; [eauto|].
    unfold handle. rewrite U, E. cbn. eauto. }
  destruct (A1 xs _ A0) as (ws & Up & Ep). clear A0 A1.
  pose (u := puts votes xs (fst (begin_txn rf votes db w))). fold u in C, Up, Ep.
  assert (V : up (after votes ValidateM v u n) = true /\
              entry (after votes ValidateM v u n) <> Absent).
  { destruct (after_or votes ValidateM v u n) as [->|[_ ->]].
    - rewrite Up, Ep. split; [reflexivity|discriminate].
    - unfold handle. rewrite Up, Ep. cbn [negb].
      destruct (votes n =? VAL_STATUS_COMMIT); cbn; rewrite ?Up, ?Ep; split; congruence. }
  destruct V as [Vu Ve]. unfold commit in C.
  destruct (answer rf Validate (replies votes ValidateM v u) =? VAL_STATUS_COMMIT).
  - clear Ve. revert C Vu. generalize (after votes ValidateM v u). clear.
    induction ds as [|d ds IH]; intros u C U; cbn [persist] in C.
    + injection C as <- _. exact U.
    + assert (U' : up (after votes CommitM d u n) = true).
      { destruct (after_or votes CommitM d u n) as [->|[_ ->]]; [exact U|].
        unfold handle. rewrite U. cbn [negb]. destruct (entry (u n)); cbn; auto. }
      destruct (answer rf Write (replies votes CommitM d u) =? 0).
      * injection C as <- _. exact U'.
      * eapply IH; eassumption.
  - destruct (answer rf Validate (replies votes ValidateM v u) =? NO_QUORUM_ERR);
      injection C as <- _; [exact Vu|].
    destruct (after_or votes AbortM a (after votes ValidateM v u) n) as [->|[_ ->]]; [exact Vu|].
    unfold handle. rewrite Vu. cbn [negb].
    destruct (entry (after votes ValidateM v u n)); cbn; congruence.
Qed.
Print Assumptions C88_server_survives_partial.

Example C88_server_survives_met :
  up (empty 1%nat) = true /\ entry (empty 1%nat) = Absent.
Proof. split; reflexivity. Qed.

(** One that was away when the transaction began does not: the first write
    that reaches it, or the abort, ends its process. *)
Theorem C88_server_survives_refuted :
  ~ (forall rf votes db x d (w : world) n, up (w n) = true ->
       snd (begin_txn rf votes db w) = 0 ->
       up (fst (put rf votes x d (fst (begin_txn rf votes db w))) n) = true) /\
  ~ (forall rf votes db v a (w : world) n, up (w n) = true ->
       snd (begin_txn rf votes db w) = 0 ->
       up (fst (commit rf votes v [] a (fst (begin_txn rf votes db w))) n) = true).
Proof.
  split; intro H.
  - assert (X : false = true); [|discriminate X].
    apply (H 3%nat (fun _ => 0) (Round [1; 2] [1; 2])%nat 5 (Round [1; 2; 3] [1; 2; 3])%nat
             empty 3%nat); reflexivity.
  - assert (X : false = true); [|discriminate X].
    apply (H 3%nat (fun _ => 1) (Round [1; 2] [1; 2])%nat (Round [1; 2] [1; 2])%nat
             (Round [1; 2; 3] [1; 2; 3])%nat empty 3%nat); reflexivity.
Qed.
Print Assumptions C88_server_survives_refuted.

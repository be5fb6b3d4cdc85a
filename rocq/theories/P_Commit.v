(** Proofs about the commit protocol. *)
From Coq Require Import List ZArith Lia Bool Arith.
From Verif Require Import S_Quorum M_Quorum P_Quorum M_Commit.
Import ListNotations.
Open Scope Z_scope.

Lemma mem_In : forall n l, mem n l = true <-> In n l.
Proof.
  intros n l. unfold mem. rewrite existsb_exists. split.
  - intros (x & I & E). apply Nat.eqb_eq in E. congruence.
  - intro I. exists n. split; [exact I|apply Nat.eqb_refl].
Qed.

Definition one (votes : nat -> Z) (m : message) (d : round) (w : world) (n : nat) : list reply :=
  if mem n (delivered d)
  then match snd (handle (votes n) m (w n)) with
       | Some z => [Reply n (Ack z)]
       | None => []
       end
  else [].

Lemma replies_one : forall votes m d w, replies votes m d w = flat_map (one votes m d w) (seen d).
Proof. reflexivity. Qed.

Lemma one_in : forall votes m d w n r, In r (one votes m d w n) ->
  from r = n /\ In n (delivered d) /\ exists z, what r = Ack z /\ snd (handle (votes n) m (w n)) = Some z.
Proof.
  intros votes m d w n r H. unfold one in H.
  destruct (mem n (delivered d)) eqn:M; [|destruct H].
  destruct (snd (handle (votes n) m (w n))) as [z|] eqn:E; [|destruct H].
  destruct H as [<-|[]]. cbn. split; [reflexivity|]. split; [apply mem_In; exact M|].
  exists z; auto.
Qed.

Lemma replies_in : forall votes m d w r, In r (replies votes m d w) ->
  In (from r) (seen d) /\ In (from r) (delivered d) /\
  exists z, what r = Ack z /\ snd (handle (votes (from r)) m (w (from r))) = Some z.
Proof.
  intros votes m d w r H. rewrite replies_one in H. apply in_flat_map in H.
  destruct H as (n & I & O). destruct (one_in _ _ _ _ _ _ O) as (E & D & z & W & S).
  subst n. split; [exact I|]. split; [exact D|]. exists z; auto.
Qed.

Lemma replies_nodup : forall votes m d w, NoDup (seen d) ->
  NoDup (map from (replies votes m d w)).
Proof.
  intros votes m d w. rewrite replies_one. induction (seen d) as [|n l IH]; intro H.
  - constructor.
  - inversion H as [|x y Nn Nl]; subst. cbn [flat_map]. rewrite map_app.
    specialize (IH Nl).
    assert (X : forall k, In k (map from (flat_map (one votes m d w) l)) -> In k l).
    { intros k K. apply in_map_iff in K. destruct K as (r & <- & R).
      apply in_flat_map in R. destruct R as (j & J & O).
      destruct (one_in _ _ _ _ _ _ O) as (-> & _). exact J. }
    unfold one at 1. destruct (mem n (delivered d)); [|exact IH].
    destruct (snd (handle (votes n) m (w n))); [|exact IH].
    cbn. constructor; [|exact IH]. intro K. apply Nn. apply X; exact K.
Qed.

Lemma replies_fit : forall votes m d w o,
  o = Write \/ o = Validate \/ o = Abort ->
  Forall (fun r => fits o (what r)) (replies votes m d w).
Proof.
  intros votes m d w o O. apply Forall_forall. intros r R.
  destruct (replies_in _ _ _ _ _ R) as (_ & _ & z & -> & _).
  destruct O as [->|[->| ->]]; exact I.
Qed.

(** A round whose answer is favourable. *)
Lemma answer_majority : forall rf o votes m d w,
  o = Write \/ o = Validate \/ o = Abort -> NoDup (seen d) ->
  answer rf o (replies votes m d w) = 0 ->
  exists M, majority rf M /\
    forall n, In n M -> In n (delivered d) /\ snd (handle (votes n) m (w n)) = Some 0.
Proof.
  intros rf o votes m d w O N A. unfold answer in A.
  destruct (length (replies votes m d w) <? quorum_size rf)%nat eqn:L; [discriminate|].
  apply Nat.ltb_ge in L.
  assert (Q : (quorum_size rf <= length (acc o (replies votes m d w)))%nat).
  { apply conclude_success; auto.
    - unfold quorum_size; lia.
    - apply replies_fit; exact O.
    - destruct O as [->|[->| ->]]; exact A. }
  exists (map from (acc o (replies votes m d w))). split.
  - split; [apply NoDup_map_filter, replies_nodup; exact N|].
    rewrite map_length. apply quorum_half; exact Q.
  - intros n I. destruct (acc_witness _ _ _ I) as (r & R & <- & F).
    destruct (replies_in _ _ _ _ _ R) as (_ & D & z & W & S). split; [exact D|].
    rewrite W in F. rewrite S. destruct O as [->|[->| ->]]; cbn in F; congruence.
Qed.

(** Conversely: enough favourable replies. *)
Lemma answer_good : forall rf votes d w M, NoDup (seen d) ->
  majority rf M ->
  (forall n, In n M -> In n (seen d) /\ In n (delivered d) /\
     snd (handle (votes n) CommitM (w n)) = Some 0) ->
  answer rf Write (replies votes CommitM d w) = 0.
Proof.
  intros rf votes d w M N [ND L] H. apply quorum_half in L.
  assert (J : incl M (map from (acc Write (replies votes CommitM d w)))).
  { intros n I. destruct (H n I) as (Sn & Dn & Hn).
    apply in_map_iff. exists (Reply n (Ack 0)). split; [reflexivity|].
    apply filter_In. split; [|reflexivity]. rewrite replies_one. apply in_flat_map.
    exists n. split; [exact Sn|]. unfold one. apply mem_In in Dn. rewrite Dn, Hn.
    left; reflexivity. }
  pose proof (NoDup_incl_length ND J) as K. rewrite map_length in K.
  pose proof (acc_length Write (replies votes CommitM d w)) as K2.
  unfold answer. replace (length (replies votes CommitM d w) <? quorum_size rf)%nat with false
    by (symmetry; apply Nat.ltb_ge; lia).
  unfold conclude. pose proof (count_spec Write (replies votes CommitM d w) 0 0) as C.
  cbn [Nat.add] in C. destruct (count_ok Write (replies votes CommitM d w) 0 0) as [ok m].
  cbn [fst] in C. subst ok.
  replace (length (acc Write (replies votes CommitM d w)) <? quorum_size rf)%nat with false
    by (symmetry; apply Nat.ltb_ge; lia). reflexivity.
Qed.

(** ** Effects of rounds on one server *)

Lemma after_or : forall votes m d w n,
  after votes m d w n = w n \/
  (In n (delivered d) /\ after votes m d w n = fst (handle (votes n) m (w n))).
Proof.
  intros votes m d w n. unfold after. destruct (mem n (delivered d)) eqn:M; [|auto].
  right. split; [apply mem_In; exact M|reflexivity].
Qed.

Lemma validate_same : forall votes d w n,
  store (after votes ValidateM d w n) = store (w n) /\
  held (after votes ValidateM d w n) = held (w n).
Proof.
  intros votes d w n. destruct (after_or votes ValidateM d w n) as [->|[_ ->]]; [auto|].
  unfold handle, held. destruct (w n) as [[] [|ws|ws] st]; cbn; auto.
  destruct (votes n =? VAL_STATUS_COMMIT); cbn; auto.
Qed.

Lemma abort_store : forall votes d w n, store (after votes AbortM d w n) = store (w n).
Proof.
  intros votes d w n. destruct (after_or votes AbortM d w n) as [->|[_ ->]]; [auto|].
  unfold handle. destruct (w n) as [[] [|ws|ws] st]; cbn; auto.
Qed.

(** Either nothing has happened to the server's data, or all its writes have
    been applied once and it has forgotten the transaction. *)
Definition moved (s s' : server) : Prop :=
  (store s' = store s /\ held s' = held s) \/
  (store s' = store s ++ held s /\ entry s' = Absent).

Lemma moved_refl : forall s, moved s s.
Proof. intro s; left; auto. Qed.

Lemma commit_moved : forall votes d w s n, moved s (w n) -> moved s (after votes CommitM d w n).
Proof.
  intros votes d w s n M. destruct (after_or votes CommitM d w n) as [->|[_ ->]]; [exact M|].
  unfold handle. destruct (w n) as [[] e st] eqn:W; cbn [up negb]; [|exact M].
  destruct e as [|ws|ws]; cbn [entry store fst].
  - exact M.
  - destruct M as [[A B]|[A B]]; cbn in A, B; [|discriminate].
    right. cbn. subst. auto.
  - destruct M as [[A B]|[A B]]; cbn in A, B; [|discriminate].
    right. cbn. subst. auto.
Qed.

Lemma persist_moved : forall rf votes ds w s n w' r, moved s (w n) ->
  persist rf votes ds w = (w', r) -> moved s (w' n).
Proof.
  intros rf votes ds. induction ds as [|d ds IH]; intros w s n w' r M P; cbn [persist] in P.
  - injection P as <- _. exact M.
  - pose proof (commit_moved votes d w s n M) as M'.
    destruct (answer rf Write (replies votes CommitM d w) =? 0).
    + injection P as <- _. exact M'.
    + eapply IH; eassumption.
Qed.

(** When the loop ends, a majority has applied the writes. *)
Lemma persist_majority : forall rf votes ds w w' r,
  Forall (fun d => NoDup (seen d)) ds ->
  persist rf votes ds w = (w', Some r) ->
  r = VAL_STATUS_COMMIT /\
  exists P, majority rf P /\ forall n s, In n P -> moved s (w n) ->
    up (w' n) = true /\ store (w' n) = store s ++ held s.
Proof.
  intros rf votes ds. induction ds as [|d ds IH]; intros w w' r F P; cbn [persist] in P;
    [discriminate|].
  inversion F as [|x y Nd Nds]; subst.
  destruct (answer rf Write (replies votes CommitM d w) =? 0) eqn:A.
  - apply Z.eqb_eq in A. injection P as <- <-. split; [reflexivity|].
    destruct (answer_majority rf Write votes CommitM d w ltac:(auto) Nd A) as (M & MM & H).
    exists M. split; [exact MM|]. intros n s I Mv. destruct (H n I) as [D S].
    unfold after. apply mem_In in D. rewrite D.
    unfold handle in *. destruct (w n) as [[] e st] eqn:W; cbn [up negb] in *; [|discriminate].
    destruct e as [|ws|ws]; cbn in S |- *.
    + discriminate.
    + destruct Mv as [[X Y]|[_ Y]]; cbn in *; [subst; auto|discriminate].
    + destruct Mv as [[X Y]|[_ Y]]; cbn in *; [subst; auto|discriminate].
  - destruct (IH _ _ _ Nds P) as (-> & M & MM & H). split; [reflexivity|].
    exists M. split; [exact MM|]. intros n s I Mv. apply H; [exact I|].
    apply commit_moved; exact Mv.
Qed.

(** ** Rounds that can no longer succeed *)

Definition few (rf : nat) (w : world) : Prop :=
  forall M, NoDup M -> (forall n, In n M -> holds (w n) = true) -> (2 * length M <= rf)%nat.

Lemma few_after : forall rf votes d w, few rf w -> few rf (after votes CommitM d w).
Proof.
  intros rf votes d w F M N H. apply F; [exact N|]. intros n I. specialize (H n I).
  destruct (after_or votes CommitM d w n) as [E|[_ E]]; rewrite E in H; [exact H|].
  unfold handle, holds in *. destruct (w n) as [[] [|ws|ws] st]; cbn in *; auto.
Qed.

Lemma few_stuck : forall rf votes ds w, few rf w ->
  Forall (fun d => NoDup (seen d)) ds ->
  snd (persist rf votes ds w) = None.
Proof.
  intros rf votes ds. induction ds as [|d ds IH]; intros w F N; cbn [persist]; [reflexivity|].
  inversion N as [|x y Nd Nds]; subst.
  destruct (answer rf Write (replies votes CommitM d w) =? 0) eqn:A.
  - exfalso. apply Z.eqb_eq in A.
    destruct (answer_majority rf Write votes CommitM d w ltac:(auto) Nd A) as (M & [ND L] & H).
    assert (2 * length M <= rf)%nat; [|lia]. apply F; [exact ND|].
    intros n I. destruct (H n I) as [_ S]. unfold handle, holds in *.
    destruct (w n) as [[] [|ws|ws] st]; cbn in *; (discriminate || reflexivity).
  - apply IH; [apply few_after; exact F|exact Nds].
Qed.

(** ** Writes *)

(** A server that is up and holds the transaction takes a write. *)
Lemma put_held : forall votes x d w n, holds (w n) = true -> In n (delivered d) ->
  holds (after votes (Put x) d w n) = true /\
  store (after votes (Put x) d w n) = store (w n) /\
  held (after votes (Put x) d w n) = held (w n) ++ [x].
Proof.
  intros votes x d w n H D. unfold after. apply mem_In in D. rewrite D.
  unfold handle, holds, held in *. destruct (w n) as [[] [|ws|ws] st]; cbn in *;
    try discriminate; auto.
Qed.

Lemma put_store : forall votes x d w n, store (after votes (Put x) d w n) = store (w n).
Proof.
  intros votes x d w n. destruct (after_or votes (Put x) d w n) as [->|[_ ->]]; [auto|].
  unfold handle. destruct (w n) as [[] [|ws|ws] st]; cbn; auto.
Qed.

Lemma puts_held : forall votes xs w n, holds (w n) = true ->
  (forall x d, In (x, d) xs -> In n (delivered d)) ->
  holds (puts votes xs w n) = true /\
  store (puts votes xs w n) = store (w n) /\
  held (puts votes xs w n) = held (w n) ++ map fst xs.
Proof.
  intros votes xs. induction xs as [|[x d] xs IH]; intros w n H D; cbn [puts map].
  - rewrite app_nil_r. auto.
  - destruct (put_held votes x d w n H (D x d (or_introl eq_refl))) as (A & B & C).
    destruct (IH (after votes (Put x) d w) n A) as (A' & B' & C').
    { intros y e I. apply (D y e). right; exact I. }
    split; [exact A'|]. split; [congruence|]. rewrite C', C, <- app_assoc. reflexivity.
Qed.

(** A server that does not hold the transaction never takes part. *)
Lemma puts_lost : forall votes xs w n, holds (w n) = false -> holds (puts votes xs w n) = false.
Proof.
  intros votes xs. induction xs as [|[x d] xs IH]; intros w n H; cbn [puts]; [exact H|].
  apply IH. destruct (after_or votes (Put x) d w n) as [->|[_ ->]]; [exact H|].
  unfold handle, holds in *. destruct (w n) as [[] [|ws|ws] st]; cbn in *; congruence.
Qed.

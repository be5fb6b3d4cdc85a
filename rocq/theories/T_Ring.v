(** C44: placement of objects on servers. *)
From Verif Require Import Base M_Skiplist P_Skiplist3 M_Hash32 M_Ring S_Ring P_Ring T_Hash32.

(** Calls the theorem speaks about: ids are ints whose positions, like those of the
    objects, lie within 2^31 of [lo] (the ring's skip list compares positions by the sign of
    a difference converted to int, see C39), statuses are live or dead, and at least one
    replica is asked for. *)
Definition ring_call (lo : Z) (o : rop) : Prop :=
  match o with
  | RAdd id st | RSet id st =>
      inS 32 id /\ lo <= pos id < lo + 2 ^ 31 /\ (st = BUCKET_LIVE \/ st = BUCKET_DEAD)
  | RStatus id => inS 32 id /\ lo <= pos id < lo + 2 ^ 31
  | RLocate x f => lo <= pos x < lo + 2 ^ 31 /\ 1 <= f
  end.

(** Every history of calls behaves like the set of servers, the search never runs on for
    ever, and the number of live servers is tracked exactly.  Missing for the full
    property: positions further apart (C44_lost_refuted), more than one replica (a
    single server is returned, C44_factor_refuted), other statuses
    (C44_status_refuted), and status changes made by the membership protocol
    (C44_announce_refuted). *)
Theorem C44_history_partial : forall lo junk seed os, (forall o, In o os -> ring_call lo o) ->
  exists r seed' xs m, rexec_all (get_hash_ring junk) seed os = Ok (r, seed', xs)
    /\ rspecs (fun _ => None) os xs m /\ live_count m (rlive r).
Proof.
  intros lo junk seed os H.
  destruct (rexec_all_ok lo os (get_hash_ring junk) (fun _ => None) _ _ seed (init_ok lo junk)) as (r & s & xs & m & es & A & B & C).
  - intros o J. specialize (H o J). destruct o; exact H.
  - exists r, s, xs, m. split; [exact A|]. split; [exact B|]. apply (ri_n _ _ _ _ _ C).
Qed.
Print Assumptions C44_history_partial.

(** Where an object belongs depends on the set of servers and their statuses only, not on
    the order in which they were added. *)
Theorem C44_unique : forall m x a b, (forall id, live m id -> inS 32 id) ->
  located m x a -> located m x b -> a = b.
Proof.
  intros m x a b D A B.
  assert (U : forall i j, live m i -> live m j -> pos i = pos j -> i = j).
  { intros i j I J E. apply place_inj; auto. }
  inversion A as [NA|i LI PI MI|i LI PI MI]; inversion B as [NB|j LJ PJ MJ|j LJ PJ MJ]; subst; auto;
    try (exfalso; now apply (NA j)); try (exfalso; now apply (NB i)); try f_equal.
  - apply U; auto. specialize (MI j LJ PJ). specialize (MJ i LI PI). lia.
  - specialize (PJ i LI). lia.
  - specialize (PI j LJ). lia.
  - apply U; auto. specialize (MI j LJ). specialize (MJ i LI). lia.
Qed.
Print Assumptions C44_unique.

(** When another server fails, an object stays where it is; when a server joins or
    recovers, an object stays or moves to that server. *)
Theorem C44_stable : forall m x a b, located m x (Some a) ->
  (a <> b -> located (with_server m b BUCKET_DEAD) x (Some a))
  /\ (located (with_server m b BUCKET_LIVE) x (Some a) \/ located (with_server m b BUCKET_LIVE) x (Some b)).
Proof.
  intros m x a b L.
  assert (LD : forall id, live (with_server m b BUCKET_DEAD) id -> live m id).
  { intros id. rewrite live_with. destruct (id =? b); [discriminate|auto]. }
  assert (LL : forall id, live m id -> live (with_server m b BUCKET_LIVE) id).
  { intros id H. rewrite live_with. destruct (id =? b); auto. }
  assert (LB : live (with_server m b BUCKET_LIVE) b) by (rewrite live_with, Z.eqb_refl; auto).
  assert (LU : forall id, live (with_server m b BUCKET_LIVE) id -> id = b \/ live m id).
  { intros id. rewrite live_with. destruct (Z.eqb_spec id b); auto. }
  inversion L as [|i LI PI MI|i LI PI MI]; subst.
  - split.
    + intros N. apply loc_after; auto. rewrite live_with. destruct (Z.eqb_spec a b); [easy|auto].
    + destruct (Z_le_dec (pos x) (pos b)) as [Q|Q]; [destruct (Z_le_dec (pos a) (pos b)) as [T|T]|].
      * left. apply loc_after; auto. intros id H1 H2. destruct (LU id H1) as [->|]; auto.
      * right. apply loc_after; auto. intros id H1 H2. destruct (LU id H1) as [->|K]; [lia|]. specialize (MI id K H2). lia.
      * left. apply loc_after; auto. intros id H1 H2. destruct (LU id H1) as [->|]; [lia|auto].
  - split.
    + intros N. apply loc_wrap; auto. rewrite live_with. destruct (Z.eqb_spec a b); [easy|auto].
    + destruct (Z_le_dec (pos x) (pos b)) as [Q|Q]; [|destruct (Z_le_dec (pos a) (pos b)) as [T|T]].
      * right. apply loc_after; auto. intros id H1 H2. destruct (LU id H1) as [->|K]; [lia|]. specialize (PI id K). lia.
      * left. apply loc_wrap; auto; intros id H1; destruct (LU id H1) as [->|K]; auto; lia.
      * right. apply loc_wrap; auto; intros id H1; destruct (LU id H1) as [->|K]; auto; try lia.
        all: specialize (MI id K); lia.
Qed.
Print Assumptions C44_stable.

(** ** What does not hold. *)

(** Two servers are live and two replicas are asked for: one server is returned. *)
Theorem C44_factor_refuted : exists r seed xs,
  rexec_all (get_hash_ring 0) 1 [RAdd 1 BUCKET_LIVE; RAdd 2 BUCKET_LIVE] = Ok (r, seed, xs)
  /\ rlive r = 2 /\ exists b, forall n, get_buckets_for_object (S n) r 1 2 = Ok (Bucket b).
Proof.
  eexists _, _, _. split; [vm_compute; reflexivity|]. split; [reflexivity|].
  exists 0. intros n. vm_compute. reflexivity.
Qed.
Print Assumptions C44_factor_refuted.

Lemma spin : forall r (P : option addr -> Prop),
  (forall p, P p -> exists q, P q /\ forall n, ring_loop (S n) r p = ring_loop n r q) ->
  forall n p, P p -> ring_loop n r p = NoFuel.
Proof.
  intros r P H. induction n as [|n IH]; intros p K; [reflexivity|].
  destruct (H p K) as (q & Q & ->). auto.
Qed.

(** The status "about to join" (NODE_PREJOINED, 2): a dead server that gets it is
    subtracted a second time, and the search for a server then never ends, with the
    ring's lock held. *)
Theorem C44_status_refuted : exists r seed xs,
  rexec_all (get_hash_ring 0) 1 [RAdd 1 BUCKET_LIVE; RSet 1 BUCKET_DEAD; RSet 1 2] = Ok (r, seed, xs)
  /\ rlive r = -1 /\ forall fuel, get_buckets_for_object fuel r 7 1 = NoFuel.
Proof.
  eexists _, _, _. split; [vm_compute; reflexivity|]. split; [reflexivity|].
  intros fuel.
  match goal with |- get_buckets_for_object _ ?r _ _ = _ => transitivity (ring_loop fuel r (Some 1%nat)) end;
    [vm_compute; reflexivity|].
  apply (spin _ (fun p => p = None \/ p = Some 1%nat)); [|auto].
  intros p [-> | ->]; exists None; (split; [auto|intros; vm_compute; reflexivity]).
Qed.
Print Assumptions C44_status_refuted.

(** A server announces that it is alive and later that it is dead: the announcement
    changes the status but not the count, so that one server counts as live, and the
    search never ends. *)
Theorem C44_announce_refuted : exists r1 s1 r2 s2,
  add_rts_to_membership (get_hash_ring 0) 1 BUCKET_LIVE 1 = Ok (r1, s1, 0)
  /\ add_rts_to_membership r1 1 BUCKET_DEAD s1 = Ok (r2, s2, -1)
  /\ rmem r2 = [(1, BUCKET_DEAD)] /\ rlive r2 = 1
  /\ forall fuel, get_buckets_for_object fuel r2 7 1 = NoFuel.
Proof.
  eexists _, _, _, _. split; [vm_compute; reflexivity|]. split; [vm_compute; reflexivity|].
  split; [reflexivity|]. split; [reflexivity|].
  intros fuel.
  match goal with |- get_buckets_for_object _ ?r _ _ = _ => transitivity (ring_loop fuel r (Some 1%nat)) end;
    [vm_compute; reflexivity|].
  apply (spin _ (fun p => p = None \/ p = Some 1%nat)); [|auto].
  intros p [-> | ->]; exists None; (split; [auto|intros; vm_compute; reflexivity]).
Qed.
Print Assumptions C44_announce_refuted.

(** Servers 2, 16 and 4 join; the second can no longer be found: its status cannot be
    set. *)
Theorem C44_lost_refuted : exists r seed,
  rexec_all (get_hash_ring 0) 8 [RAdd 2 BUCKET_LIVE; RAdd 16 BUCKET_LIVE; RAdd 4 BUCKET_LIVE; RSet 16 BUCKET_DEAD]
  = Ok (r, seed, [RInt 0; RInt 0; RInt 0; RInt (-1)]).
Proof. eexists _, _. vm_compute. reflexivity. Qed.
Print Assumptions C44_lost_refuted.

(** The hypotheses are met: three servers within the window, one of which fails. *)
Example C44_case :
  let os := [RAdd 1 BUCKET_LIVE; RAdd 2 BUCKET_LIVE; RAdd 5 BUCKET_DEAD; RLocate 7 1; RLocate 2 1; RSet 2 BUCKET_DEAD;
             RLocate 2 1; RSet 1 BUCKET_DEAD; RLocate 2 1; RSet 5 BUCKET_LIVE; RAdd 5 BUCKET_LIVE; RSet 9 BUCKET_LIVE; RLocate 13 1; RStatus 2; RStatus 7] in
  (forall o, In o os -> ring_call 0 o)
  /\ exists r seed, rexec_all (get_hash_ring 0) 1 os
     = Ok (r, seed, [RInt 0; RInt 0; RInt 0; RAns (Bucket 1); RAns (Bucket 2); RInt 0; RAns (Bucket 1); RInt 0; RAns Null;
                     RInt 0; RInt (-1); RInt (-1); RAns (Bucket 5); RInt 1; RInt (-1)]).
Proof.
  split; [|eexists _, _; vm_compute; reflexivity].
  intros o J. cbn [In] in J.
  repeat (destruct J as [<-|J]; [cbn [ring_call]; unfold BUCKET_LIVE, BUCKET_DEAD, inS; 
    repeat match goal with |- _ /\ _ => split end; try lia; vm_compute; first [discriminate|reflexivity|auto]|]).
  destruct J.
Qed.

Example C44_stable_case : let m := with_server (with_server (fun _ => None) 1 BUCKET_LIVE) 2 BUCKET_LIVE in
  (forall id, live m id -> inS 32 id) /\ located m 7 (Some 1).
Proof.
  cbv zeta.
  assert (H : forall id, live (with_server (with_server (fun _ => None) 1 BUCKET_LIVE) 2 BUCKET_LIVE) id -> id = 1 \/ id = 2).
  { intros id. unfold live, with_server. destruct (Z.eqb_spec id 2); [auto|]. destruct (Z.eqb_spec id 1); [auto|discriminate]. }
  split.
  - intros id J. unfold inS. destruct (H id J); lia.
  - apply loc_after; [reflexivity|vm_compute; discriminate|].
    intros id J _. destruct (H id J) as [-> | ->]; vm_compute; discriminate.
Qed.

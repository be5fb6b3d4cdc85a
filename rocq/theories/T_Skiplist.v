(** Theorems about the database's ordered map (C39). *)
From Verif Require Import Base M_Skiplist S_Skiplist P_Skiplist P_Skiplist2 P_Skiplist3.
Require Import Sorted.

(** Every history of calls behaves like an ordered map, whatever levels the random
    generator draws, provided that all keys used lie within a window of 2^31 (keys are
    compared by the low 32 bits of their difference), none is LONG_MAX, and no key with
    low half 2^32 - 1 is deleted.  Without these provisos: [C39_refuted]. *)
Theorem C39_history_partial : forall junk seed lo ops,
  (forall o k, In o ops -> op_key o = Some k -> lo <= k < lo + 2 ^ 31 /\ k <> LONG_MAX) ->
  (forall k, In (Delete k) ops -> k mod 2 ^ 32 <> 2 ^ 32 - 1) ->
  exists outs, exec_all (create junk) seed ops = Ok outs /\ specs (fun _ => None) ops outs.
Proof.
  intros junk seed lo ops H D.
  destruct (exec_all_ok lo ops (create junk) _ [] seed (mp []) (create_ok lo junk)) as (rs & E & S); auto.
  - intros o J. split.
    + destruct (op_key o) as [k|] eqn:Q; auto. apply (H o k J Q).
    + destruct o; auto. specialize (D k J). unfold long_cmp, wrapS, LONG_MAX. change (32 - 1) with 31. intros X.
      apply D.
      assert (Y : (9223372036854775807 - k + 2 ^ 31) mod 2 ^ 32 = 2 ^ 31) by lia.
      replace k with (9223372036854775807 + 2 ^ 31 - (9223372036854775807 - k + 2 ^ 31)) by lia.
      rewrite Zminus_mod, Y. reflexivity.
  - exists rs. split; auto.
Qed.
Print Assumptions C39_history_partial.

Example C39_case : exists outs,
  exec_all (create 0) 1 [Insert 5 50; Insert (-3) 30; Insert 9 90; Clone 4; Insert 5 51; Delete 9; Search 5; Search 9;
                         Higher 0; Lower 4; Lower (-4); Higher 6; Count; Items] = Ok outs
  /\ outs = [Done; Done; Done; Done; Done; Value 90; Value 51; NotFound; Node 5 51; Node (-3) 30; NotFound; NotFound;
             Number 2; List [(-3, 30); (5, 51)]].
Proof. eexists. split; [vm_compute; reflexivity|reflexivity]. Qed.

(** The level drawn is always below the maximum, so the arrays are never overrun. *)
Theorem C39_levels : forall seed, (fst (rand_level seed) < 6)%nat.
Proof. exact rand_lt. Qed.
Print Assumptions C39_levels.

(** Outside the window: (1) keys 2^32 apart are taken for the same key; (2) keys
    between 2^31 and 2^32 apart are enumerated in the wrong order; (3) with three such
    keys one that was inserted is not found; (4) the key LONG_MAX is inserted but never
    found; (5) deleting -1 from an empty map frees the header node, and the next call
    uses it; (6) the range query never returns a range. *)
Theorem C39_refuted : forall junk seed,
  (exists outs, exec_all (create junk) 1 [Insert 0 7; Insert (2 ^ 32) 8; Search 0; Count] = Ok outs
     /\ outs = [Done; Done; Value 8; Number 1])
  /\ (exists outs, exec_all (create junk) 1 [Insert 0 7; Insert (3 * 2 ^ 30) 8; Items] = Ok outs
     /\ outs = [Done; Done; List [(3 * 2 ^ 30, 8); (0, 7)]])
  /\ (exists outs,
        exec_all (create junk) 6 [Insert 0 7; Insert (3 * 2 ^ 29) 8; Insert (3 * 2 ^ 30) 9; Search (3 * 2 ^ 29)] = Ok outs
        /\ outs = [Done; Done; Done; NotFound])
  /\ (exists outs, exec_all (create junk) 1 [Insert LONG_MAX 7; Search LONG_MAX; Count] = Ok outs
     /\ outs = [Done; NotFound; Number 1])
  /\ exec_all (create junk) seed [Delete (-1); Search 0] = UB
  /\ (forall l k k2 r, get_range l k k2 = r -> r = Ok (-1, 0) \/ (forall x, r <> Ok x)).
Proof.
  intros junk seed. split; [eexists; split; [vm_compute; reflexivity|reflexivity]|].
  split; [eexists; split; [vm_compute; reflexivity|reflexivity]|].
  split; [eexists; split; [vm_compute; reflexivity|reflexivity]|].
  split; [eexists; split; [vm_compute; reflexivity|reflexivity]|].
  split; [reflexivity|].
  intros l k k2 r <-. unfold get_range. destruct (search_higher l k) as [[a|]| | |]; cbn [bindr]; auto; right; discriminate.
Qed.
Print Assumptions C39_refuted.

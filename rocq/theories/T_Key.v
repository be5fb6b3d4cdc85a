(** C27: global keys are unique. *)
From Verif Require Import Base M_Key P_Key.
Local Open Scope Z_scope.

(** Whatever the interleaving of the threads, the keys handed out are, in this order,
    the start value minus 1, minus 2, ... (in 64-bit arithmetic). *)
Theorem C27_keys : forall k0 s, - 2 ^ 63 <= k0 < 2 ^ 63 -> kreach k0 s ->
  rev (map snd (kout s)) = map (fun i => wrapS 64 (k0 - 1 - Z.of_nat i)) (seq 0 (length (kout s))).
Proof. intros k0 s R H. exact (ki_out _ _ (kreach_inv k0 s R H)). Qed.
Print Assumptions C27_keys.

(** No two allocations, by the same or by different threads, get the same key, up to
    2^64 allocations. *)
Theorem C27_unique : forall k0 s, - 2 ^ 63 <= k0 < 2 ^ 63 -> kreach k0 s ->
  Z.of_nat (length (kout s)) <= 2 ^ 64 -> NoDup (map snd (kout s)).
Proof.
  intros k0 s R H N. rewrite <- (rev_involutive (map snd (kout s))), (C27_keys k0 s R H). apply NoDup_rev. now apply keys_nodup.
Qed.
Print Assumptions C27_unique.

(** The first two keys of a program are those that recovery expects for the environment and
    the root actor (rts.c:1420-1432). *)
Theorem C27_bootstrap : forall s a b r, kreach key_start s -> rev (kout s) = a :: b :: r -> snd a = -11 /\ snd b = -12.
Proof.
  intros s a b r H E. assert (R : - 2 ^ 63 <= key_start < 2 ^ 63) by (unfold key_start; lia).
  pose proof (C27_keys _ _ R H) as K. rewrite <- map_rev, E in K.
  assert (L : exists n, length (kout s) = S (S n)). { rewrite <- rev_length, E. cbn. eauto. }
  destruct L as [n L]. rewrite L in K. cbn [map seq] in K. injection K as -> -> _. split; reflexivity.
Qed.
Print Assumptions C27_bootstrap.

(** After recovery, new keys differ from all recovered ones, as long as they do not
    reach the lower end of the 64-bit range. *)
Theorem C27_fresh_after_recovery : forall ks s, (forall k, In k ks -> - 2 ^ 63 <= k < 2 ^ 63) ->
  kreach (recovered_start ks) s -> Z.of_nat (length (kout s)) <= 2 ^ 63 + recovered_start ks ->
  NoDup (map snd (kout s)) /\ forall k, In k (map snd (kout s)) -> ~ In k ks.
Proof.
  intros ks s B H N. destruct (rec_fold ks 0) as [F0 F]. fold (recovered_start ks) in *.
  assert (R : - 2 ^ 63 <= recovered_start ks < 2 ^ 63) by lia.
  split; [eapply C27_unique; eauto; lia|]. intros k K Ko. apply in_rev in K. rewrite (C27_keys _ _ R H) in K.
  apply in_map_iff in K. destruct K as (i & <- & K). apply in_seq in K. specialize (F _ Ko).
  assert (E : wrapS 64 (recovered_start ks - 1 - Z.of_nat i) = recovered_start ks - 1 - Z.of_nat i) by (unfold wrapS; lia).
  rewrite E in *. lia.
Qed.
Print Assumptions C27_fresh_after_recovery.

(** Two threads, interleaved. *)
Example C27_case : exists s, kreach key_start s /\ kout s = [(2%nat, -12); (1%nat, -11)] /\ kpcs s 1%nat = KIn.
Proof.
  eexists. split; [|split].
  - eapply kr_step; [eapply kr_step; [eapply kr_step; [eapply kr_step; [eapply kr_step; [eapply kr_step; [eapply kr_step; [eapply kr_step; [eapply kr_step; [apply kr_init|]|]|]|]|]|]|]|]|].
    + apply (k_lock _ 1%nat); reflexivity.
    + apply (k_load _ 1%nat); reflexivity.
    + apply (k_store _ 1%nat (-10)); reflexivity.
    + apply (k_unlock _ 1%nat (-11)); reflexivity.
    + apply (k_lock _ 2%nat); reflexivity.
    + apply (k_load _ 2%nat); reflexivity.
    + apply (k_store _ 2%nat (-11)); reflexivity.
    + apply (k_unlock _ 2%nat (-12)); reflexivity.
    + apply (k_lock _ 1%nat); reflexivity.
  - reflexivity.
  - reflexivity.
Qed.

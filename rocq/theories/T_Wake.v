(** C28, C57: ready actors get executed. *)
From Verif Require Import Base M_Wake P_Wake P_WakeRun.
Local Open Scope nat_scope.

Section Theorems.
(** At least one worker besides the main thread; 256 worker threads at most (rts.h:25-34). *)
Variable n shared : nat.
Hypothesis shared_big : n < shared.
Hypothesis some_worker : 1 <= n.
Notation start := (winit n).
Notation wrun := (wrun n shared).

(** All threads are asleep in their event loops and nobody is about to wake one. *)
Definition all_asleep (s : wst) : Prop :=
  (forall t, t <= n -> wph s t = PPoll /\ wpend s t = false) /\ (forall t, wjobs s t = []).

(** When all threads sleep, no actor is ready. *)
Theorem C28_no_sleep_with_work : forall ls s q, wrun start ls s -> all_asleep s -> valid n shared q = true -> wq s q = [].
Proof.
  intros ls s q R [A J] V. pose proof (winv_run n shared shared_big some_worker _ _ _ (winv_init n shared) R) as I.
  destruct (wq s q) as [|a r] eqn:Q; [reflexivity|exfalso]. assert (N : wq s q <> []) by (rewrite Q; discriminate).
  apply orb_prop in V. destruct V as [V|V].
  - apply Nat.leb_le in V. destruct (A q V) as [A1 A2]. destruct (wi_own _ _ _ I q V N) as [C|[C|(t & C)]].
    + congruence. + rewrite A1 in C. exact C. + rewrite J in C. exact C.
  - apply Nat.eqb_eq in V. subst. destruct (wi_shared _ _ _ I N) as [(i & L & C)|(t & j & C & _)].
    + destruct (A i ltac:(lia)) as [A1 A2]. destruct C as [C|C]; [congruence|]. rewrite A1 in C. exact C.
    + rewrite J in C. exact C.
Qed.

(** Whatever has happened, if actor [a] is the first one in a ready queue then the threads on their
    own, without any help from outside and without new work, can get to a point where one
    of them takes it up. *)
Theorem C28_ready_actor_is_taken : forall ls s q a r, wrun start ls s -> valid n shared q = true -> wq s q = a :: r ->
  exists ls' s' t s'', wrun s ls' s' /\
    Forall (fun l => match l with WAsync _ _ _ | WReady _ _ _ | WIo _ | WTimer _ | WYield _ => False | _ => True end) ls' /\
    wstep n shared s' (WTake t q a) s''.
Proof.
  intros ls s q a r R V Q. pose proof (winv_run n shared shared_big some_worker _ _ _ (winv_init n shared) R) as I.
  destruct (served_always n shared shared_big some_worker s q a r I V Q) as (s' & t & s'' & (ls' & F & W) & St).
  exists ls', s', t, s''. auto.
Qed.
End Theorems.
Print Assumptions C28_no_sleep_with_work.
Print Assumptions C28_ready_actor_is_taken.

(** An actor is ready, worker 2 sleeps, and nobody is going to wake it up: the actor has to wait until
    worker 1 has finished executing another one, however long that takes. *)
Theorem C57_idle_worker_refuted : exists ls s, wrun 2 4 (winit 2) ls s /\
  wq s 4 = [11] /\ wph s 1 = PRun /\ wph s 0 = PPoll /\ wpend s 0 = false /\
  wph s 2 = PPoll /\ wpend s 2 = false /\ wstat s 2 = WIdle /\ (forall t, wjobs s t = []).
Proof.
  destruct (wrunf 2 4 (winit 2) sleepers) as [s|] eqn:E; [|vm_compute in E; discriminate].
  destruct (wrunf_ok 2 4 sleepers _ _ E) as [ls R]. exists ls, s. split; [exact R|]. clear R.
  vm_compute in E. injection E as <-. repeat split. intros [|[|t]]; reflexivity.
Qed.
Print Assumptions C57_idle_worker_refuted.

(** The hypotheses are met: the execution above, and its part before the actors become ready. *)
Example C28_case : exists ls s ls1 s1, wrun 2 4 (winit 2) ls s /\ wq s 4 = [11] /\
  wrun 2 4 (winit 2) ls1 s1 /\ all_asleep 2 s1.
Proof.
  destruct C57_idle_worker_refuted as (ls & s & R & Q & _). exists ls, s.
  destruct (wrunf 2 4 (winit 2) (firstn 11 sleepers ++ [WPoll 0; WCheck 0; WNone 0])) as [s1|] eqn:E; [|vm_compute in E; discriminate].
  destruct (wrunf_ok 2 4 _ _ _ E) as [ls1 R1]. exists ls1, s1. split; [exact R|]. split; [exact Q|]. split; [exact R1|]. clear R R1.
  vm_compute in E. injection E as <-. split.
  - intros t L. destruct t as [|[|[|t]]]; [split; reflexivity..|lia].
  - intros [|[|[|t]]]; reflexivity.
Qed.

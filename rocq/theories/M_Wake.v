(** Model of how worker threads are put to sleep and woken: base/rts/rts.c:374-397 wake_wt,
    1659-1865 wt_work_cb, 1867-1899 main_loop, 2834-2848 (start), the wake-up parts of
    base/rts/q.c:18-40 ENQ_ready and 114-131 DEQ_ready, and of libuv's event loop.

    Granularity: each dequeue attempt and each enqueue is one step, so are each reading of a
    worker's state and each uv_async_send.  Sequential consistency is assumed.

    Simplifications: what actors do is abstract: a thread that executes an actor may make any
    actor ready.  (M_Rts.v has the details; there threads never sleep.)  rts_exit and
    maybe_sync_pause are left out.  Libuv: a loop blocks in its poll phase; uv_async_send(&wake_ev[t])
    makes the flag of t pending, which makes t leave the poll phase, and after that it
    reaches the check phase, which calls wt_work_cb.  A loop may leave the poll phase also for other
    reasons (I/O, timers). *)
From Verif Require Import Base.
Local Open Scope nat_scope.

(** Where a thread is. *)
Inductive phase :=
| PNew      (* before uv_run, rts.c:1888-1892 *)
| PPoll     (* in the poll phase of its event loop, possibly asleep *)
| PPre      (* in callbacks that run before the poll phase (timers, pending, closing) *)
| PCb       (* in callbacks of the poll phase, on the way to wt_work_cb *)
| PTop      (* rts.c:1671: about to try its own ready queue *)
| PShared   (* q.c:129: own queue was empty, about to try the shared one *)
| PGot      (* rts.c:1681-1690: has an actor, has not set its state to WT_Working *)
| PRun      (* rts.c:1691-1850: executing it, state WT_Working *)
| PEnd.     (* rts.c:1851-1859: state WT_Idle again *)

(** wt_stats[t].state (rts.h). *)
Inductive wstate := WNoExist | WIdle | WWorking.

(** What is left to do of calls of wake_wt. *)
Inductive wjob :=
| WHead (q : nat)   (* rts.c:378: about to look whether queue q is empty *)
| WScan (i : nat).  (* rts.c:384-389: about to look at the state of worker i *)

Record wst := mkW {
  wq : nat -> list nat;       (* ready queues *)
  wpend : nat -> bool;        (* pending flag of wake_ev[t] *)
  wph : nat -> phase;
  wjobs : nat -> list wjob;
  wstat : nat -> wstate
}.

Definition wupd {A} (f : nat -> A) (k : nat) (x : A) : nat -> A := fun k' => if k' =? k then x else f k'.

Section Wake.
(** num_wthreads, and the number of the shared queue: SHARED_RQ = 256 > num_wthreads (rts.h:25-34,
    ACTON_THREADS). *)
Variable n shared : nat.

(** The queues that exist: one for each thread 0..n and the shared one. *)
Definition valid (q : nat) : bool := (q <=? n) || (q =? shared).

Definition set_q f s := mkW f (wpend s) (wph s) (wjobs s) (wstat s).
Definition set_pend f s := mkW (wq s) f (wph s) (wjobs s) (wstat s).
Definition set_ph f s := mkW (wq s) (wpend s) f (wjobs s) (wstat s).
Definition set_jobs f s := mkW (wq s) (wpend s) (wph s) f (wstat s).
Definition set_stat f s := mkW (wq s) (wpend s) (wph s) (wjobs s) f.

Definition move (t : nat) (p : phase) (s : wst) : wst := set_ph (wupd (wph s) t p) s.

(** q.c:32-38: ENQ_ready by thread t wakes the thread that serves the queue unless that is t.  (Threads
    t > n are not workers, wctx == NULL: no wake-up here.) *)
Definition enq_jobs (t q : nat) : list wjob := if (t <=? n) && negb (t =? q) then [WHead q] else [].

(** One step of a pending wake_wt. *)
Definition job_step (t : nat) (j : wjob) (rest : list wjob) (s : wst) : wst :=
  match j with
  | WHead q =>
      match wq s q with
      | [] => set_jobs (wupd (wjobs s) t rest) s
      | _ => if q =? shared then set_jobs (wupd (wjobs s) t (WScan 1 :: rest)) s
             else set_pend (wupd (wpend s) q true) (set_jobs (wupd (wjobs s) t rest) s)
      end
  | WScan i =>
      if n <? i then set_jobs (wupd (wjobs s) t rest) s
      else match wstat s i with
           | WIdle => set_pend (wupd (wpend s) i true) (set_jobs (wupd (wjobs s) t rest) s)
           | _ => set_jobs (wupd (wjobs s) t (WScan (S i) :: rest)) s
           end
  end.

Inductive wlabel :=
| WStart (t : nat)
| WPoll (t : nat)            (* leaves the poll phase because of wake_ev *)
| WIo (t : nat)              (* ... for another reason *)
| WTimer (t : nat)           (* instead of polling, runs callbacks of other phases *)
| WBack (t : nat)            (* and goes on to the poll phase *)
| WAsync (t q a : nat)       (* $ASYNC or handle_timeout in a callback makes actor a ready *)
| WCheck (t : nat)           (* the check phase begins *)
| WTake (t q a : nat)        (* dequeues actor a from queue q *)
| WNone (t : nat)            (* finds a queue empty *)
| WWork (t : nat)            (* sets its state to WT_Working *)
| WReady (t q a : nat)       (* makes actor a ready, while executing an actor *)
| WDone (t : nat)            (* has finished executing and set its state to WT_Idle *)
| WAgain (t : nat)           (* next round of the loop in wt_work_cb *)
| WYield (t : nat)           (* rts.c:1856-1864: 20ms are over: wakes itself *)
| WJob (t : nat).            (* next step of a pending wake_wt *)

Inductive wstep (s : wst) : wlabel -> wst -> Prop :=
| ws_start t : t <= n -> wph s t = PNew -> wjobs s t = [] ->
    wstep s (WStart t) (move t PPoll (set_stat (wupd (wstat s) t WIdle) s))
| ws_poll t : wph s t = PPoll -> wjobs s t = [] -> wpend s t = true ->
    wstep s (WPoll t) (move t PCb (set_pend (wupd (wpend s) t false) s))
| ws_io t : wph s t = PPoll -> wjobs s t = [] -> wstep s (WIo t) (move t PCb s)
| ws_timer t : wph s t = PPoll -> wjobs s t = [] -> wstep s (WTimer t) (move t PPre s)
| ws_back t : t <= n -> wph s t = PPre -> wjobs s t = [] -> wstep s (WBack t) (move t PPoll s)
  (* rts.c:940-945, 1138-1143: ENQ_ready, then wake_wt *)
| ws_async t q a : wph s t = PCb \/ wph s t = PPre -> wjobs s t = [] -> valid q = true ->
    wstep s (WAsync t q a) (set_q (wupd (wq s) q (wq s q ++ [a])) (set_jobs (wupd (wjobs s) t (enq_jobs t q ++ [WHead q])) s))
| ws_check t : t <= n -> wph s t = PCb -> wjobs s t = [] -> wstep s (WCheck t) (move t PTop s)
| ws_own t a r : wph s t = PTop -> wjobs s t = [] -> wq s t = a :: r ->
    wstep s (WTake t t a) (move t PGot (set_q (wupd (wq s) t r) (set_jobs (wupd (wjobs s) t [WHead shared]) s)))
| ws_own_none t : wph s t = PTop -> wjobs s t = [] -> wq s t = [] ->
    wstep s (WNone t) (move t (if t =? 0 then PPoll else PShared) s)
| ws_shared t a r : wph s t = PShared -> wjobs s t = [] -> wq s shared = a :: r ->
    wstep s (WTake t shared a) (move t PGot (set_q (wupd (wq s) shared r) (set_jobs (wupd (wjobs s) t [WHead shared]) s)))
| ws_shared_none t : wph s t = PShared -> wjobs s t = [] -> wq s shared = [] ->
    wstep s (WNone t) (move t PPoll s)
| ws_work t : wph s t = PGot -> wjobs s t = [] ->
    wstep s (WWork t) (move t PRun (set_stat (wupd (wstat s) t WWorking) s))
| ws_ready t q a : wph s t = PRun -> wjobs s t = [] -> valid q = true ->
    wstep s (WReady t q a) (set_q (wupd (wq s) q (wq s q ++ [a])) (set_jobs (wupd (wjobs s) t (enq_jobs t q)) s))
| ws_done t : wph s t = PRun -> wjobs s t = [] ->
    wstep s (WDone t) (move t PEnd (set_stat (wupd (wstat s) t WIdle) s))
| ws_again t : wph s t = PEnd -> wjobs s t = [] -> wstep s (WAgain t) (move t PTop s)
| ws_yield t : wph s t = PEnd -> wjobs s t = [] ->
    wstep s (WYield t) (move t PPoll (set_pend (wupd (wpend s) t true) s))
| ws_job t j rest : wjobs s t = j :: rest -> wstep s (WJob t) (job_step t j rest s).

(** rts.c:2834-2848: initially every thread has a pending wake-up; threads that are not workers are
    in callbacks all the time (libuv's thread pool). *)
Definition winit : wst :=
  mkW (fun _ => []) (fun t => t <=? n) (fun t => if t <=? n then PNew else PPre) (fun _ => []) (fun _ => WNoExist).

Inductive wrun : wst -> list wlabel -> wst -> Prop :=
| wr_nil s : wrun s [] s
| wr_cons s l s1 ls s2 : wstep s l s1 -> wrun s1 ls s2 -> wrun s (l :: ls) s2.
End Wake.

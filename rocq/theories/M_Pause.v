(** Model of the stop-the-world pause of worker threads, base/rts/rts.c:248-372, with the part
    of the worker loop it guards, rts.c:1664-1681.
    Everything between lock and unlock of sync_pause_lock is one step; a wait on the condition
    variable splits the step.  As the waits are timed (rts.c:268-280) a waiting thread may
    look again at any moment.  Waking up threads that sleep in libuv (wake_all_wt) is not
    modelled: a worker at the top of its loop may always go on.
    Calls from threads that are not workers (they get -1 at once, rts.c:284-286, 323-325) are
    not modelled. *)
From Verif Require Import Base.
Local Open Scope nat_scope.

(** Where a worker thread is. *)
Inductive pph :=
| PTop      (* outside actor code, before maybe_sync_pause: rts.c:1672 *)
| PParked   (* in the wait of maybe_sync_pause: rts.c:357 *)
| PFree     (* maybe_sync_pause has returned: rts.c:1674 *)
| PExec     (* executing actor code: rts.c:1681-1850 *)
| PWait.    (* in the wait of acton_sync_pause_begin: rts.c:306 *)

(** What can be seen of the interface: results of begin (true is 0, false is -1), calls of end. *)
Inductive pev := EvBegin (w : nat) (ok : bool) | EvEnd (w : nat).

Record pst := mkPst {
  preq : bool;               (* sync_pause_requested *)
  powner : option nat;       (* sync_pause_owner, None for -1 *)
  pcount : nat;              (* sync_pause_parked_count *)
  pstarted : bool;           (* sync_pause_workers_are_started *)
  pparked : nat -> bool;     (* sync_pause_parked *)
  pexit : bool;              (* rts_exit *)
  pphase : nat -> pph;
  plog : list pev            (* newest first *)
}.

Definition pset {A} (f : nat -> A) (t : nat) (x : A) : nat -> A := fun t' => if t' =? t then x else f t'.

(** Worker w goes to phase x. *)
Definition goto (s : pst) (w : nat) (x : pph) : pst :=
  mkPst (preq s) (powner s) (pcount s) (pstarted s) (pparked s) (pexit s) (pset (pphase s) w x) (plog s).

Definition is_owner (s : pst) (w : nat) : bool := match powner s with Some o => o =? w | None => false end.

(** rts.c:351-358: one round of the loop of maybe_sync_pause. *)
Definition pause_check (s : pst) (w : nat) : pst :=
  if preq s && negb (is_owner s w) && negb (pexit s) then
    if pparked s w then goto s w PParked
    else mkPst (preq s) (powner s) (S (pcount s)) (pstarted s) (pset (pparked s) w true) (pexit s) (pset (pphase s) w PParked) (plog s)
  else goto s w PFree.

(** rts.c:289-303: acton_sync_pause_begin up to its loop. *)
Definition pause_begin (s : pst) (w : nat) : pst :=
  if negb (pstarted s) || preq s || pexit s then
    mkPst (preq s) (powner s) (pcount s) (pstarted s) (pparked s) (pexit s) (pphase s) (EvBegin w false :: plog s)
  else mkPst true (Some w) 0 (pstarted s) (fun _ => false) (pexit s) (pset (pphase s) w PWait) (plog s).

(** rts.c:305-318: one round of the loop of acton_sync_pause_begin, and what follows it.
    n is num_wthreads. *)
Definition pause_wait (n : nat) (s : pst) (w : nat) : pst :=
  if (pcount s <? n) && negb (pexit s) then s
  else if pexit s then
    mkPst false None 0 (pstarted s) (pparked s) (pexit s) (pset (pphase s) w PExec) (EvBegin w false :: plog s)
  else mkPst (preq s) (powner s) (pcount s) (pstarted s) (pparked s) (pexit s) (pset (pphase s) w PExec) (EvBegin w true :: plog s).

(** rts.c:328-338: acton_sync_pause_end. *)
Definition pause_end (s : pst) (w : nat) : pst :=
  if negb (preq s) || negb (is_owner s w) then
    mkPst (preq s) (powner s) (pcount s) (pstarted s) (pparked s) (pexit s) (pphase s) (EvEnd w :: plog s)
  else mkPst false None 0 (pstarted s) (pparked s) (pexit s) (pphase s) (EvEnd w :: plog s).

(** One step of the system; the workers are 0 .. n. *)
Inductive pstep (n : nat) (s : pst) : pst -> Prop :=
| ps_check w : w <= n -> (pphase s w = PTop \/ pphase s w = PParked) -> pstep n s (pause_check s w)
    (* rts.c:1673, or another round after the timed wait *)
| ps_exit_seen w : w <= n -> pphase s w = PFree -> pexit s = true -> pstep n s (goto s w PTop)          (* rts.c:1674-1676 *)
| ps_nothing w : w <= n -> pphase s w = PFree -> pexit s = false -> pstep n s (goto s w PTop)           (* rts.c:1677-1679 *)
| ps_run w : w <= n -> pphase s w = PFree -> pexit s = false -> pstep n s (goto s w PExec)              (* rts.c:1681-1697 *)
| ps_done w : w <= n -> pphase s w = PExec -> pstep n s (goto s w PTop)                                 (* the continuation returns *)
| ps_begin w : w <= n -> pphase s w = PExec -> pstep n s (pause_begin s w)
| ps_wait w : w <= n -> pphase s w = PWait -> pstep n s (pause_wait n s w)
| ps_end w : w <= n -> pphase s w = PExec -> pstep n s (pause_end s w)
| ps_started : pstep n s (mkPst (preq s) (powner s) (pcount s) true (pparked s) (pexit s) (pphase s) (plog s))      (* rts.c:362-366, 3019 *)
| ps_exit : pstep n s (mkPst (preq s) (powner s) (pcount s) (pstarted s) (pparked s) true (pphase s) (plog s)).     (* rts.c:2307 *)

(** rts.c:250-256: the start. *)
Definition pause_init : pst := mkPst false None 0 false (fun _ => false) false (fun _ => PTop) [].

Inductive preach (n : nat) : pst -> Prop :=
| pr_init : preach n pause_init
| pr_step s s' : preach n s -> pstep n s s' -> preach n s'.

(** The rounds of maybe_sync_pause of the workers in a list, one after the other. *)
Definition checks (s : pst) (l : list nat) : pst := fold_left pause_check l s.

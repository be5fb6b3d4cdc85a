(** Model of the actor runtime: base/rts/q.c and the message handling of
    base/rts/rts.c, without the database (#ifdef ACTON_DB, db == NULL).

    Granularity: every section protected by a spinlock is one atomic step; so is
    every stretch of code between two such sections that touches only the actor
    the thread is running.  Threads interleave arbitrarily at these steps.

    A thread that is in the middle of a C function is represented by the list of
    things it still has to do ([instr]); an empty list is a thread at the top of the
    loop in wt_work_cb or in its libuv event loop.

    Simplifications:
    - The intrusive links ($next of actors and of messages) are modelled as lists.
      An actor has one $next, used both for ready queues and for m->$waiting; that
      it is never in two of these lists at once is part of C22.
    - Sequential consistency is assumed.
    - The code of actors is arbitrary: at each point of its execution an actor may do
      any [act]; so theorems hold for every program.  (One restriction: it leaves only
      try blocks it has entered.)
    - wake_wt and the libuv loop are in M_Wake.v. maybe_sync_pause and statistics are not modelled.
    - Message keys are their creation rank (see C27 for get_next_key). *)
From Verif Require Import Base S_Rts.
Local Open Scope nat_scope.

Definition upd {A} (f : nat -> A) (k : nat) (x : A) : nat -> A :=
  fun k' => if k' =? k then x else f k'.

Section Model.
Context {U V : Type}.
Variable vfalse vdone : V.
(** Index of the queue shared by all worker threads: 256, or 0 in a build without
    threads (base/rts/rts.h:25-34). *)
Variable shared : nat.

Notation cont := (cont U).
Notation ret := (ret U V).
Notation outcome := (outcome V).
Notation event := (event U V).

(** m->$cont: code to run, or one of the marks NULL and 1 (rts.c:698-702). *)
Inductive mcont := Code (c : cont) | MarkResult | MarkException.

(** rts.c:701-702. *)
Definition frozen (c : mcont) : bool := match c with Code _ => false | _ => true end.

(** Pending work of a thread. *)
Inductive instr :=
| IBegin (a : aid)                      (* rts.c:1683-1697: about to call the continuation of a *)
| IRun (a : aid) (m : mid) (c : cont) (v : V)  (* rts.c:1697: inside cont->__call__(cont, val) *)
| IReady (a : aid)                      (* about to call ENQ_ready(a) *)
| IFlush (a : aid)                      (* rts.c:1069-1079,1108-1111: reverse_outgoing_queue and FLUSH_outgoing_local.
                                            In the $RWAIT case the code reverses before ADD_waiting (rts.c:1808); the
                                            model reverses here; without the race that is the same. *)
| ISend (a : aid) (m : mid)             (* rts.c:1112-1128: one iteration of its loop *)
| IEnq (m : mid)                        (* rts.c:942, 1140: ENQ_msg(m, m->$to) *)
| ISetVal (a : aid) (m : mid) (o : outcome) (* rts.c:1727, 1761 *)
| IFreeze (a : aid) (m : mid) (o : outcome) (* rts.c:1728, 1762: FREEZE_waiting *)
| IWake (x : mid) (o : outcome) (b : aid) (* rts.c:1729-1736, 1770-1778: one iteration *)
| IDeq (a : aid) (m : mid)              (* rts.c:1738, 1779: DEQ_msg(current) *)
| IAdd (a : aid) (m x : mid)            (* rts.c:1815: ADD_waiting(current, x) *)
| IResume (a : aid) (m x : mid).        (* rts.c:1820-1828 *)

Record state := mkState {
  mto : mid -> aid;            (* rts.h:130-140: fields of messages *)
  mcnt : mid -> mcont;
  mval : mid -> V;
  mwait : mid -> list aid;
  mbase : mid -> Z;
  mbox : aid -> list mid;      (* rts.h:155-167: fields of actors; B_Msg, B_Msg_tail *)
  out : aid -> list mid;       (* $outgoing, newest first *)
  waitsfor : aid -> option mid;
  catch : aid -> list (cont * option V);
  aff : aid -> nat;
  rq : nat -> list aid;        (* q.h: ready queues *)
  timerQ : list mid;
  todo : tid -> list instr;
  next : mid;                  (* number of messages created *)
  clock : Z;
  log : list event;            (* what happened, newest first *)
  crashed : bool               (* a NULL pointer was dereferenced *)
}.

Definition set_mcnt f s := mkState (mto s) f (mval s) (mwait s) (mbase s) (mbox s) (out s) (waitsfor s) (catch s) (aff s) (rq s) (timerQ s) (todo s) (next s) (clock s) (log s) (crashed s).
Definition set_mval f s := mkState (mto s) (mcnt s) f (mwait s) (mbase s) (mbox s) (out s) (waitsfor s) (catch s) (aff s) (rq s) (timerQ s) (todo s) (next s) (clock s) (log s) (crashed s).
Definition set_mwait f s := mkState (mto s) (mcnt s) (mval s) f (mbase s) (mbox s) (out s) (waitsfor s) (catch s) (aff s) (rq s) (timerQ s) (todo s) (next s) (clock s) (log s) (crashed s).
Definition set_mbox f s := mkState (mto s) (mcnt s) (mval s) (mwait s) (mbase s) f (out s) (waitsfor s) (catch s) (aff s) (rq s) (timerQ s) (todo s) (next s) (clock s) (log s) (crashed s).
Definition set_out f s := mkState (mto s) (mcnt s) (mval s) (mwait s) (mbase s) (mbox s) f (waitsfor s) (catch s) (aff s) (rq s) (timerQ s) (todo s) (next s) (clock s) (log s) (crashed s).
Definition set_waitsfor f s := mkState (mto s) (mcnt s) (mval s) (mwait s) (mbase s) (mbox s) (out s) f (catch s) (aff s) (rq s) (timerQ s) (todo s) (next s) (clock s) (log s) (crashed s).
Definition set_catch f s := mkState (mto s) (mcnt s) (mval s) (mwait s) (mbase s) (mbox s) (out s) (waitsfor s) f (aff s) (rq s) (timerQ s) (todo s) (next s) (clock s) (log s) (crashed s).
Definition set_aff f s := mkState (mto s) (mcnt s) (mval s) (mwait s) (mbase s) (mbox s) (out s) (waitsfor s) (catch s) f (rq s) (timerQ s) (todo s) (next s) (clock s) (log s) (crashed s).
Definition set_rq f s := mkState (mto s) (mcnt s) (mval s) (mwait s) (mbase s) (mbox s) (out s) (waitsfor s) (catch s) (aff s) f (timerQ s) (todo s) (next s) (clock s) (log s) (crashed s).
Definition set_timerQ f s := mkState (mto s) (mcnt s) (mval s) (mwait s) (mbase s) (mbox s) (out s) (waitsfor s) (catch s) (aff s) (rq s) f (todo s) (next s) (clock s) (log s) (crashed s).
Definition set_todo f s := mkState (mto s) (mcnt s) (mval s) (mwait s) (mbase s) (mbox s) (out s) (waitsfor s) (catch s) (aff s) (rq s) (timerQ s) f (next s) (clock s) (log s) (crashed s).
Definition set_clock f s := mkState (mto s) (mcnt s) (mval s) (mwait s) (mbase s) (mbox s) (out s) (waitsfor s) (catch s) (aff s) (rq s) (timerQ s) (todo s) (next s) f (log s) (crashed s).
Definition logev e s := mkState (mto s) (mcnt s) (mval s) (mwait s) (mbase s) (mbox s) (out s) (waitsfor s) (catch s) (aff s) (rq s) (timerQ s) (todo s) (next s) (clock s) (e :: log s) (crashed s).
Definition crash s := mkState (mto s) (mcnt s) (mval s) (mwait s) (mbase s) (mbox s) (out s) (waitsfor s) (catch s) (aff s) (rq s) (timerQ s) (todo s) (next s) (clock s) (log s) true.

(** rts.c:458-470 B_MsgG_newXX: a new message; its value is $Done$instance. *)
Definition new_msg (to : aid) (c : cont) (base : Z) (s : state) : state :=
  let m := next s in
  mkState (upd (mto s) m to) (upd (mcnt s) m (Code c)) (upd (mval s) m vdone) (upd (mwait s) m [])
          (upd (mbase s) m base) (mbox s) (out s) (waitsfor s) (catch s) (aff s) (rq s) (timerQ s)
          (todo s) (S m) (clock s) (log s) (crashed s).

(** q.c:18-40 ENQ_ready (without the wake-up). *)
Definition enq_ready (a : aid) (s : state) : state :=
  set_rq (upd (rq s) (aff s a) (rq s (aff s a) ++ [a])) s.

(** q.c:137-151 ENQ_msg, followed by ENQ_ready if the queue was empty (rts.c:942-945,
    1118-1120, 1140-1143). *)
Definition enq_msg (t : tid) (m : mid) (rest : list instr) (s : state) : state :=
  let B := mto s m in
  let pending := match mbox s B with [] => [IReady B] | _ => [] end in
  logev (EArrive B m (clock s))
    (set_todo (upd (todo s) t (pending ++ rest)) (set_mbox (upd (mbox s) B (mbox s B ++ [m])) s)).

(** rts.c:734-754 ENQ_timed: before the first message with a later baseline. *)
Fixpoint enq_timed (base : mid -> Z) (m : mid) (q : list mid) : list mid :=
  match q with
  | [] => [m]
  | x :: r => if (base x <=? base m)%Z then x :: enq_timed base m r else m :: q
  end.

(** rts.c:758-771 DEQ_timed. *)
Definition deq_timed (base : mid -> Z) (now : Z) (q : list mid) : option (mid * list mid) :=
  match q with
  | [] => None
  | x :: r => if (base x <=? now)%Z then Some (x, r) else None
  end.

(** One micro-step of a thread whose next thing to do is [i]. *)
Definition exec (t : tid) (i : instr) (rest : list instr) (s : state) : option state :=
  match i with
  | IBegin a => Some
      match mbox s a with
      | [] => crash s
      | m :: _ =>
          match mcnt s m with
          | Code c => logev (EBegin a m c (mval s m)) (set_todo (upd (todo s) t (IRun a m c (mval s m) :: rest)) s)
          | _ => crash s
          end
      end
  | IRun _ _ _ _ => None (* see run_act *)
  | IReady a => Some (enq_ready a (set_todo (upd (todo s) t rest) s))
  | IFlush a => Some
      (set_out (upd (out s) a []) (set_todo (upd (todo s) t (map (ISend a) (rev (out s a)) ++ rest)) s))
  | ISend a m => Some
      match mbox s a with
      | [] => crash s
      | m0 :: _ =>
          if (mbase s m =? mbase s m0)%Z then enq_msg t m rest s
          else logev (ETimed m) (set_timerQ (enq_timed (mbase s) m (timerQ s)) (set_todo (upd (todo s) t rest) s))
      end
  | IEnq m => Some (enq_msg t m rest s)
  | ISetVal a m o => Some
      (set_mval (upd (mval s) m (match o with OVal v => v | OExc e => e end))
        (set_todo (upd (todo s) t (IFreeze a m o :: rest)) s))
  | IFreeze a m o => Some
      (logev (EFinish m o)
        (set_mcnt (upd (mcnt s) m (match o with OVal _ => MarkResult | OExc _ => MarkException end))
          (set_mwait (upd (mwait s) m [])
            (set_todo (upd (todo s) t (map (IWake m o) (mwait s m) ++ IDeq a m :: rest)) s))))
  | IWake x o b => Some
      match mbox s b with
      | [] => crash s
      | mb :: _ =>
          let s1 := match o with
                    | OVal v => set_mval (upd (mval s) mb v) s
                    | OExc e => set_mcnt (upd (mcnt s) mb (Code CFail)) (set_mval (upd (mval s) mb e) s)
                    end in
          set_waitsfor (upd (waitsfor s) b None) (set_todo (upd (todo s) t (IReady b :: rest)) s1)
      end
  | IDeq a m => Some
      match mbox s a with
      | [] => set_todo (upd (todo s) t rest) s
      | _ :: r => set_mbox (upd (mbox s) a r)
                    (set_todo (upd (todo s) t (match r with [] => rest | _ => IReady a :: rest end)) s)
      end
  | IAdd a m x => Some
      (if frozen (mcnt s x)
       then set_todo (upd (todo s) t (IFlush a :: IResume a m x :: rest)) s
       else set_mwait (upd (mwait s) x (a :: mwait s x))
             (set_waitsfor (upd (waitsfor s) a (Some x))
               (set_todo (upd (todo s) t (IFlush a :: rest)) s)))
  | IResume a m x => Some
      (let s1 := set_mval (upd (mval s) m (mval s x)) s in
       let s2 := match mcnt s x with MarkException => set_mcnt (upd (mcnt s) m (Code CFail)) s1 | _ => s1 end in
       set_todo (upd (todo s) t (IReady a :: rest)) s2)
  end.

(** What the code of an actor may do. *)
Inductive act :=
| AAsync (B : aid) (c : cont)    (* rts.c:933-948 $ASYNC, called by actor code *)
| AAfter (d : Z) (c : cont)      (* rts.c:950-957 $AFTER, d = sec * 1000000 as an integer *)
| APush (c : cont)               (* rts.c:963-968 $PUSH_C, up to its return value *)
| APop                           (* rts.c:970-980 $POP_C, $DROP_C *)
| AAff (i : nat)                 (* rts.c:225-236 pin_actor_affinity, set_actor_affinity *)
| ARet (r : ret).                (* cont->__call__ returns r, or $RAISE(e) longjmps here: RFail e *)

(** rts.c:1724-1832: the switch on r.tag. *)
Definition on_return (t : tid) (a : aid) (m : mid) (r : ret) (s : state) : state :=
  let s0 := logev (EReturn a m r) s in
  match r with
  | RDone v => set_todo (upd (todo s0) t [IFlush a; ISetVal a m (OVal v)]) s0
  | RCont c v => set_todo (upd (todo s0) t [IReady a])
                  (set_mcnt (upd (mcnt s0) m (Code c)) (set_mval (upd (mval s0) m v) s0))
  | RFail e =>
      match catch s0 a with
      | (c, _) :: tl =>
          set_todo (upd (todo s0) t [IReady a])
            (set_catch (upd (catch s0) a ((c, Some e) :: tl))
              (set_mcnt (upd (mcnt s0) m (Code c)) (set_mval (upd (mval s0) m vfalse) s0)))
      | [] => set_todo (upd (todo s0) t [IFlush a; ISetVal a m (OExc e)]) s0
      end
  | RWait c x => set_todo (upd (todo s0) t [IAdd a m x]) (set_mcnt (upd (mcnt s0) m (Code c)) s0)
  end.

(** $DoneD___call__ and $FailD___call__ (rts.c:783-785, 821-823) return what they were
    given; program continuations may do anything, but await only messages that exist. *)
Definition allowed (c : cont) (v : V) (x : act) (s : state) : Prop :=
  match c with
  | CDone => x = ARet (RDone v)
  | CFail => x = ARet (RFail v)
  | CUser _ => match x with
               | ARet (RWait _ y) => y < next s
               | _ => True
               end
  end.

Definition run_act (t : tid) (a : aid) (m : mid) (x : act) (s : state) : option state :=
  match x with
  | AAsync B c => Some
      match mbox s a with
      | [] => crash s
      | m0 :: _ => logev (EAsync a B (next s) c) (set_out (upd (out s) a (next s :: out s a)) (new_msg B c (mbase s m0) s))
      end
  | AAfter d c => Some
      match mbox s a with
      | [] => crash s
      | m0 :: _ => logev (EAfter a (next s) d c)
                     (set_out (upd (out s) a (next s :: out s a)) (new_msg a c (mbase s m0 + d) s))
      end
  | APush c => Some (logev (EPush a c) (set_catch (upd (catch s) a ((c, None) :: catch s a)) s))
  | APop => match catch s a with
            | [] => None
            | (_, x) :: r => Some (logev (EPop a x) (set_catch (upd (catch s) a r) s))
            end
  | AAff i => Some (set_aff (upd (aff s) a i) s)
  | ARet r => Some (on_return t a m r s)
  end.

(** Choices of the scheduler and of the outside world. *)
Inductive label :=
| LDeq (t : tid) (q : nat)          (* t dequeues an actor from ready queue q *)
| LRun (t : tid) (x : act)          (* the actor t is executing does x *)
| LStep (t : tid)                   (* t does the next thing it has to do *)
| LExt (t : tid) (B : aid) (c : cont) (* an event loop callback in t calls $ASYNC(B, c) *)
| LFire (t : tid)                   (* handle_timeout in t *)
| LTick (d : Z).                    (* time passes *)

(** q.c:77-131: thread t serves queue t and, unless t = 0, the shared queue.  (That the
    shared queue is tried only when the thread's own is empty is not modelled: more
    schedules are allowed than the code has.) *)
Definition serves (t : tid) (q : nat) : bool := (q =? t) || (negb (t =? 0) && (q =? shared)).

Inductive step (s : state) : label -> state -> Prop :=
| step_deq t q a r :
    todo s t = [] -> serves t q = true -> rq s q = a :: r ->
    step s (LDeq t q) (set_rq (upd (rq s) q r) (set_todo (upd (todo s) t [IBegin a]) s))
| step_run t x a m c v s' :
    todo s t = [IRun a m c v] -> allowed c v x s -> run_act t a m x s = Some s' ->
    step s (LRun t x) s'
| step_step t i rest s' :
    todo s t = i :: rest -> exec t i rest s = Some s' ->
    step s (LStep t) s'
| step_ext t B c :
    todo s t = [] ->
    step s (LExt t B c)
      (logev (EExt B (next s) (clock s) c)
        (set_todo (upd (todo s) t [IEnq (next s)]) (new_msg B c (clock s) s)))
| step_fire t m r :
    todo s t = [] -> deq_timed (mbase s) (clock s) (timerQ s) = Some (m, r) ->
    step s (LFire t) (logev (EFire m (clock s)) (set_timerQ r (set_todo (upd (todo s) t [IEnq m]) s)))
| step_tick d : (0 <= d)%Z -> step s (LTick d) (set_clock (clock s + d)%Z s).

(** The beginning: no messages, nobody ready (the bootstrap messages of
    rts.c:1550-1561 arrive as [LExt]). [v0] fills unused fields. *)
Definition init (v0 : V) (t0 : Z) (aff0 : aid -> nat) : state :=
  mkState (fun _ => 0) (fun _ => MarkResult) (fun _ => v0) (fun _ => []) (fun _ => 0%Z)
          (fun _ => []) (fun _ => []) (fun _ => None) (fun _ => []) aff0
          (fun _ => []) [] (fun _ => []) 0 t0 [] false.

(** Executions, oldest label first.  A crashed program stops. *)
Inductive run : state -> list label -> state -> Prop :=
| run_nil s : run s [] s
| run_cons s l s1 ls s2 : crashed s = false -> step s l s1 -> run s1 ls s2 -> run s (l :: ls) s2.

(** ** The race in the $RWAIT case

    rts.c:1815-1816 hands the actor over to the awaited message (ADD_waiting) before sending
    its messages (FLUSH_outgoing_local).  Thread t is still sending messages of a: *)
Definition flushing (s : state) (t : tid) (a : aid) : Prop :=
  In (IFlush a) (todo s t) \/ exists m, In (ISend a m) (todo s t).

(** Schedules in which no thread takes up an actor while another is still sending its
    messages. *)
Definition no_race (s : state) (l : label) : Prop :=
  match l with
  | LDeq t q => forall a r t', rq s q = a :: r -> ~ flushing s t' a
  | _ => True
  end.

Inductive race_free : state -> list label -> state -> Prop :=
| rf_nil s : race_free s [] s
| rf_cons s l s1 ls s2 : crashed s = false -> no_race s l -> step s l s1 -> race_free s1 ls s2 -> race_free s (l :: ls) s2.

End Model.

Arguments mcont U : clear implicits.
Arguments instr U V : clear implicits.
Arguments state U V : clear implicits.
Arguments act U V : clear implicits.
Arguments label U V : clear implicits.

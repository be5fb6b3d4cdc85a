(** base/rts/rts.c with a database: executing, saving, crashing and restoring.

    Simplifications.  The actors are there from the start, with rows and queues; actors created
    later, timers and exceptions are left out.  A program awaits only messages sent by the piece
    of code that awaits (the synchronous method call).  Keys are naturals that grow (in the code,
    negative numbers that shrink).  The database is one server that stays up; of its queues
    (C42) only this program, one consumer with the same id after every start, reads; what a
    transaction writes appears at its commit (C43).  Every pending transition is atomic:
    executing a piece of code, the read of save_actor_state, the commit, and what follows it. *)
From Verif Require Import Base S_Recovery.
From Coq Require Import Arith.
Open Scope nat_scope.

Section M.
Context {st code val : Type} (prog : programs st code val) (none : val) (actors : list nat).

(** base/rts/rts.h:130-140 B_Msg: $to, $cont (None: MARK_RESULT), value.  [m_code], the code the message
    was sent with, is not in the program; it is there to state properties. *)
Record msg := Msg { m_to : nat; m_code : code; m_cont : option code; m_val : val }.

(** Where the worker thread is with the actor (base/rts/rts.c:1724-1830): not there; a piece of
    code was done, or waits for a message; the read of save_actor_state was done and returned
    the head; the transaction is committed. *)
Inductive phase :=
| Idle
| Finished (v : val)
| Waiting (k : code) (x : nat)
| Read (v : val) (head : nat)
| Saved (v : val)
| SavedWaiting (k : code) (x : nat).
Definition is_idle (p : phase) : bool := match p with Idle => true | _ => false end.

Record mem := Mem {
  st_of : nat -> st;                  (* attributes of the actor objects *)
  q_of : nat -> list nat;             (* keys of the messages from $Actor.B_Msg on *)
  out_of : nat -> list nat;           (* $outgoing, oldest first *)
  wait_of : nat -> option nat;        (* $waitsfor *)
  phase_of : nat -> phase;
  msg_of : nat -> option msg;
  next_key : nat;
  busy : list nat }.                  (* actors a worker thread is executing or saving *)

(** Tables ACTORS_TABLE ($waitsfor and the attributes) and MSGS_TABLE; queues with the numbers of
    entries read and consumed. *)
Record db := Db {
  d_st : nat -> st; d_wait : nat -> option nat; d_msg : nat -> option msg;
  d_q : nat -> list nat; d_read : nat -> nat; d_cons : nat -> nat; d_next : nat }.

(** [hist], the messages handled and committed, is not in the program either. *)
Record world := World { m : mem; d : db; hist : list (handling st code) }.
Definition letters (ms : nat -> option msg) (ks : list nat) : list (nat * code) :=
  flat_map (fun k => match ms k with Some x => [(m_to x, m_code x)] | None => [] end) ks.

(** base/rts/rts.c:933-946 $ASYNC: new messages, pushed on the outgoing list of the sender. *)
Fixpoint new_msgs (o : list (nat * code)) (k : nat) (ms : nat -> option msg) : nat -> option msg :=
  match o with
  | [] => ms
  | (to, c) :: o => new_msgs o (S k) (set ms k (Some (Msg to c (Some c) none)))
  end.
Definition sending (a : nat) (s : st) (o : list (nat * code)) (w : mem) : mem :=
  Mem (set (st_of w) a s) (q_of w) (set (out_of w) a (out_of w a ++ seq (next_key w) (length o))) (wait_of w) (phase_of w)
      (new_msgs o (next_key w) (msg_of w)) (next_key w + length o) (busy w).
Definition with_msg (k : nat) (x : msg) (w : mem) : mem :=
  Mem (st_of w) (q_of w) (out_of w) (wait_of w) (phase_of w) (set (msg_of w) k (Some x)) (next_key w) (busy w).
Definition with_phase (a : nat) (p : phase) (b : list nat) (w : mem) : mem :=
  Mem (st_of w) (q_of w) (out_of w) (wait_of w) (set (phase_of w) a p) (msg_of w) (next_key w) b.

(** base/rts/rts.c:1683-1756 wt_work_cb: an actor from the ready queue, with its first message.
    [workers] is the number of worker threads.  A piece of code that goes on leaves the actor
    ready. *)
Definition do_run (workers : nat) (a : nat) (w : world) : option world :=
  if negb (length (busy (m w)) <? workers) || negb (is_idle (phase_of (m w) a)) then None else
  match q_of (m w) a, wait_of (m w) a with
  | k :: _, None =>
      match msg_of (m w) k with
      | Some (Msg to c0 (Some c) v) =>
          match prog a c (st_of (m w) a) v with
          | Done s o r => Some (World (with_phase a (Finished r) (a :: busy (m w)) (sending a s o (m w))) (d w) (hist w))
          | Cont s o c' v' => Some (World (with_msg k (Msg to c0 (Some c') v') (sending a s o (m w))) (d w) (hist w))
          | Wait s o c' i => Some (World (with_phase a (Waiting c' (next_key (m w) + i)) (a :: busy (m w)) (sending a s o (m w))) (d w) (hist w))
          end
      | _ => None
      end
  | _, _ => None
  end.

(** base/rts/rts.c:1584-1587 the read in save_actor_state, outside the transaction:
    backend/queue.c:515-597 read_queue of one entry. *)
Definition do_read (a : nat) (w : world) : option world :=
  match phase_of (m w) a with
  | Finished v =>
      let h := Nat.min (d_read (d w) a + 1) (length (d_q (d w) a)) in
      Some (World (with_phase a (Read v h) (busy (m w)) (m w))
                  (Db (d_st (d w)) (d_wait (d w)) (d_msg (d w)) (d_q (d w)) (set (d_read (d w)) a h) (d_cons (d w)) (d_next (d w)))
                  (hist w))
  | _ => None
  end.

(** Rows of the outgoing messages and of the current one (base/rts/rts.c:1502-1513,1577). *)
Fixpoint save_msgs (ks : list nat) (w : nat -> option msg) (t : nat -> option msg) : nat -> option msg :=
  match ks with [] => t | k :: ks => save_msgs ks w (set t k (w k)) end.
(** base/rts/rts.c:1085-1103 FLUSH_outgoing_db, :1108-1129 FLUSH_outgoing_local: each outgoing message
    to the end of the queue of its receiver. *)
Fixpoint enqueue (ks : list nat) (ms : nat -> option msg) (q : nat -> list nat) : nat -> list nat :=
  match ks with
  | [] => q
  | k :: ks => match ms k with
               | Some x => enqueue ks ms (set q (m_to x) (q (m_to x) ++ [k]))
               | None => enqueue ks ms q
               end
  end.
Definition saved (a k cons : nat) (w : world) : db :=
  let ms := msg_of (m w) in
  Db (set (d_st (d w)) a (st_of (m w) a)) (set (d_wait (d w)) a (wait_of (m w) a))
     (save_msgs (out_of (m w) a ++ [k]) ms (d_msg (d w)))
     (enqueue (out_of (m w) a) ms (d_q (d w))) (d_read (d w)) (set (d_cons (d w)) a cons)
     (fold_left (fun n k => Nat.max n (S k)) (out_of (m w) a ++ [k]) (d_next (d w))).

(** The transactions of base/rts/rts.c:1569-1600 (save_actor_state) and :1787-1803 ($RWAIT): a commit
    that succeeds.  The server aborts if the consume head moves back or beyond the read head
    (backend/queue.c:406-412).  [hist] records that the message was handled. *)
Definition do_commit (a : nat) (w : world) : option world :=
  match q_of (m w) a with
  | [] => None
  | k :: _ =>
      match phase_of (m w) a with
      | Read v h =>
          if (d_cons (d w) a <=? h) && (h <=? d_read (d w) a)
          then Some (World (with_phase a (Saved v) (busy (m w)) (m w)) (saved a k h w)
                           (hist w ++ map (fun c => Handled a c (letters (msg_of (m w)) (out_of (m w) a)) (st_of (m w) a)) (map snd (letters (msg_of (m w)) [k]))))
          else None
      | Waiting c x => Some (World (with_phase a (SavedWaiting c x) (busy (m w)) (m w)) (saved a k (d_cons (d w) a) w) (hist w))
      | _ => None
      end
  end.

(** A commit that is refused: the loop starts again (base/rts/rts.c:1569,1596-1599). *)
Definition do_refuse (a : nat) (w : world) : option world :=
  match phase_of (m w) a with
  | Read v h => Some (World (with_phase a (Finished v) (busy (m w)) (m w)) (d w) (hist w))
  | _ => None
  end.

Definition unbusy (a : nat) (b : list nat) : list nat := filter (fun x => negb (x =? a)) b.

(** base/rts/rts.c:1601 FLUSH_outgoing_local, :1727-1741: the message is marked and holds the result, the
    actors that wait for it get it, the message is dequeued.  :1804-1830: the continuation is
    set, the actor waits or, if the result is there already, is ready. *)
Definition do_flush (a : nat) (w : world) : option world :=
  match q_of (m w) a with
  | [] => None
  | k :: _ =>
      match msg_of (m w) k, phase_of (m w) a with
      | Some x, Saved v =>
          let q := enqueue (out_of (m w) a) (msg_of (m w)) (q_of (m w)) in
          let ms := set (msg_of (m w)) k (Some (Msg (m_to x) (m_code x) None v)) in
          let woken := filter (fun b => match wait_of (m w) b with Some y => y =? k | None => false end) actors in
          let ms := fold_left (fun ms b => match q_of (m w) b with
                                           | kb :: _ => match ms kb with Some y => set ms kb (Some (Msg (m_to y) (m_code y) (m_cont y) v)) | None => ms end
                                           | [] => ms
                                           end) woken ms in
          let wait := fold_left (fun f b => set f b None) woken (wait_of (m w)) in
          Some (World (Mem (st_of (m w)) (set q a (tl (q a))) (set (out_of (m w)) a []) wait (set (phase_of (m w)) a Idle) ms
                           (next_key (m w)) (unbusy a (busy (m w)))) (d w) (hist w))
      | Some x, SavedWaiting c y =>
          let q := enqueue (out_of (m w) a) (msg_of (m w)) (q_of (m w)) in
          match msg_of (m w) y with
          | Some (Msg _ _ None r) =>
              Some (World (Mem (st_of (m w)) q (set (out_of (m w)) a []) (wait_of (m w)) (set (phase_of (m w)) a Idle)
                               (set (msg_of (m w)) k (Some (Msg (m_to x) (m_code x) (Some c) r))) (next_key (m w)) (unbusy a (busy (m w)))) (d w) (hist w))
          | Some _ =>
              Some (World (Mem (st_of (m w)) q (set (out_of (m w)) a []) (set (wait_of (m w)) a (Some y)) (set (phase_of (m w)) a Idle)
                               (set (msg_of (m w)) k (Some (Msg (m_to x) (m_code x) (Some c) (m_val x)))) (next_key (m w)) (unbusy a (busy (m w)))) (d w) (hist w))
          | None => None
          end
      | _, _ => None
      end
  end.

(** A crash, and base/rts/rts.c:1282-1447 deserialize_system: rows become objects; an actor waits again for a
    message without result; its queue is what read_queued_msg (:1195-1214) finds, entry by
    entry, until nothing is left to read. *)
Definition do_crash (w : world) : world :=
  let d := d w in
  World (Mem (d_st d) (fun a => skipn (d_read d a) (d_q d a)) (fun _ => [])
             (fun a => match d_wait d a with
                       | Some k => match d_msg d k with Some (Msg _ _ (Some _) _) => Some k | _ => None end
                       | None => None
                       end)
             (fun _ => Idle) (d_msg d) (d_next d) [])
        (Db (d_st d) (d_wait d) (d_msg d) (d_q d) (fun a => Nat.max (d_read d a) (length (d_q d a))) (d_cons d) (d_next d))
        (hist w).

Inductive action := ARun (a : nat) | ARead (a : nat) | ACommit (a : nat) | ARefuse (a : nat) | AFlush (a : nat) | ACrash.
Definition exec (workers : nat) (x : action) (w : world) : option world :=
  match x with
  | ARun a => do_run workers a w
  | ARead a => do_read a w
  | ACommit a => do_commit a w
  | ARefuse a => do_refuse a w
  | AFlush a => do_flush a w
  | ACrash => Some (do_crash w)
  end.
Fixpoint run (workers : nat) (l : list action) (w : world) : option world :=
  match l with [] => Some w | x :: l => match exec workers x w with Some w => run workers l w | None => None end end.

(** The start: actors with their states and rows, and first messages. *)
Definition start (s0 : nat -> st) (first : list (nat * code)) : world :=
  let ms := new_msgs first 0 (fun _ => None) in
  let q := enqueue (seq 0 (length first)) ms (fun _ => []) in
  World (Mem s0 q (fun _ => []) (fun _ => None) (fun _ => Idle) ms (length first) [])
        (Db s0 (fun _ => None) ms q (fun _ => 0) (fun _ => 0) (length first)) [].
End M.
Arguments World {st code val}.
Arguments Mem {st code val}.
Arguments Db {st code val}.

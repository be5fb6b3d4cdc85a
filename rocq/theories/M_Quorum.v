(** The client side of the replicated database: how the answers of the servers
    to one request are collected, how the caller waits for them, and what is
    returned (backend/client_api.c). *)
From Coq Require Import List ZArith Lia Bool Arith.
From Verif Require Import S_Quorum.
Import ListNotations.
Open Scope Z_scope.

(** [db->quorum_size = (int) (replication_factor / 2) + 1]
    (client_api.c:176). *)
Definition quorum_size (rf : nat) : nat := (rf / 2 + 1)%nat.

(** db.h:59-66, txns.h:13-17, client_api.h:43: the codes used below. *)
Definition NO_QUORUM_ERR : Z := -1.
Definition DB_ERR_NO_CONSUMER : Z := -3.
Definition DB_ERR_DUPLICATE_QUEUE : Z := -6.
Definition DB_ERR_DUPLICATE_CONSUMER : Z := -7.
Definition VAL_STATUS_ABORT_SCHEMA : Z := -8.
Definition VAL_STATUS_COMMIT : Z := 0.
Definition VAL_STATUS_ABORT : Z := 1.
Definition NO_SUCH_TXN : Z := -3.
Definition DUPLICATE_TXN : Z := -2.

(** [add_reply_to_msg_callback] (client_api.c:3567-3583): the replies that
    count for the wake-up of the caller.  Only acknowledgements and queue
    replies have a status there. *)
Definition valid_reply (b : body) : bool :=
  match b with
  | Ack s | Entries s _ _ =>
      negb ((s <? 0) && negb (s =? DB_ERR_DUPLICATE_QUEUE)
                     && negb (s =? DB_ERR_DUPLICATE_CONSUMER))
  | Rows _ _ => true
  end.

Definition n_valid (rs : list reply) : nat :=
  length (filter (fun r => valid_reply (what r)) rs).

(** The loops over [mc->replies].  [count_ok okp] counts the replies accepted
    by the operation and keeps the status of the last other one
    ([*minority_status], initially 0). *)
Definition okp (o : op) (b : body) : bool :=
  match o, b with
  (* client_api.c:1330, 1408, 1480, 2258, 2331, 2514, 3358; 3201; 3287 *)
  | Write, Ack s | Validate, Ack s | Abort, Ack s => s =? 0
  (* client_api.c:2186 *)
  | CreateQueue, Ack s => (s =? 0) || (s =? DB_ERR_DUPLICATE_QUEUE)
  (* client_api.c:2597 *)
  | Subscribe, Ack s => (s =? 0) || (s =? DB_ERR_DUPLICATE_CONSUMER)
  (* client_api.c:2699 *)
  | Unsubscribe, Ack s => (s =? 0) || (s =? DB_ERR_NO_CONSUMER)
  (* client_api.c:1691, 1778, 1879, 1969, 2063 *)
  | Search, Rows n _ => n >=? 0
  (* client_api.c:2407-2419 *)
  | ReadQueue, Entries s _ _ => negb (s <? 0)
  | _, _ => false   (* assert on the reply type *)
  end.

(** client_api.c:3201-3206: validation reports a minority status only for
    schema errors; elsewhere every reply that is not accepted is reported. *)
Definition reported (o : op) (b : body) : bool :=
  match o with
  | Validate => status_of b =? VAL_STATUS_ABORT_SCHEMA
  | _ => true
  end.

Fixpoint count_ok (o : op) (rs : list reply) (ok : nat) (minority : Z) : nat * Z :=
  match rs with
  | [] => (ok, minority)
  | r :: rs =>
      if okp o (what r) then count_ok o rs (S ok) minority
      else if reported o (what r) then count_ok o rs ok (status_of (what r))
      else count_ok o rs ok minority
  end.

(** client_api.c:1693-1694: a search keeps the first accepted reply. *)
Fixpoint first_ok (o : op) (rs : list reply) : option body :=
  match rs with
  | [] => None
  | r :: rs => if okp o (what r) then Some (what r) else first_ok o rs
  end.

Definition upto_of (b : body) : Z :=
  match b with Entries _ i _ => i | _ => 0 end.

(** client_api.c:2416: a queue read keeps the reply with the highest
    [queue_index] (the first of them). *)
Fixpoint best_ok (o : op) (rs : list reply) (resp : option body) : option body :=
  match rs with
  | [] => resp
  | r :: rs =>
      if okp o (what r)
      then best_ok o rs
             (match resp with
              | None => Some (what r)
              | Some b => if upto_of (what r) >? upto_of b
                          then Some (what r) else resp
              end)
      else best_ok o rs resp
  end.

(** What a call returns: the code, [*minority_status], and the reply that the
    result is read from.  (The client's own list of subscriptions, which
    [Subscribe] and [Unsubscribe] consult after the servers, is left out.) *)
Record outcome := Outcome { ret : Z; minority : Z; result : option body }.

(** The part of a call after the wait, when enough replies were there
    (client_api.c:1325-1349 and the same place of the other functions). *)
Definition conclude (o : op) (q : nat) (rs : list reply) : outcome :=
  let '(ok, m) := count_ok o rs 0%nat 0 in
  match o with
  | Abort =>   (* client_api.c:3281-3304: the last error, unless a quorum is fine *)
      Outcome (if (q <=? ok)%nat then 0 else m) m None
  | Validate =>   (* client_api.c:3214-3223 *)
      Outcome (if (ok <? q)%nat then VAL_STATUS_ABORT else VAL_STATUS_COMMIT) m None
  | _ =>
      if (ok <? q)%nat then Outcome NO_QUORUM_ERR m None
      else match o with
           | Search => Outcome 0 m (first_ok o rs)
           | ReadQueue =>   (* returns response->status *)
               let b := best_ok o rs None in
               Outcome (match b with Some b => status_of b | None => 0 end) m b
           | _ => Outcome 0 m None
           end
  end.

(** The caller.  [Started]: before [pthread_mutex_lock(mc->lock)].  [Locked]:
    holds it.  [Sleepy]: has seen too few replies, still holds it.  [Asleep]:
    in [pthread_cond_timedwait].  [Woken]: back from
    [wait_on_msg_callback].  [Enough]: passed the test of
    [mc->no_replies < db->quorum_size].  [Concluded]: has gone through the
    replies.  [Returned]: has deleted the callback and returned.
    (client_api.c:1175-1208, 1317-1349) *)
Inductive caller :=
| Started | Locked | Sleepy | Asleep | Woken | Enough
| Concluded (r : outcome)
| Returned (r : outcome).

(** [got]: [mc->replies] up to [mc->no_replies].  [signalling]: the
    communication thread has added a reply and must still signal
    (client_api.c:989-1001).  [overrun]: a reply was written past the end of
    [mc->replies], which has [replication_factor] places
    (client_api.c:3552). *)
Record state := State {
  got : list reply; signalling : bool; who : caller; overrun : bool }.

Definition init : state := State [] false Started false.

(** One step of one of the two threads.  [None]: the step is not possible. *)
Inductive event :=
| Arrive (r : reply)   (* communication thread: add_reply_to_msg_callback *)
| Signal               (* communication thread: pthread_cond_signal *)
| Lock | Check | Sleep | Timeout | Count | Conclude | Delete.   (* caller *)

Section Call.
Variable rf : nat.
Variable o : op.
Let q := quorum_size rf.

(** client_api.c:962-1007, 3559-3592.  A reply to a deleted callback is
    dropped.  The signal follows if a quorum of valid replies is there. *)
Definition arrive (r : reply) (s : state) : option state :=
  if signalling s then None   (* still under msg_callbacks_lock *)
  else match who s with
  | Returned _ => Some s   (* node == NULL: dropped *)
  | _ =>
      let rs := got s ++ [r] in
      Some (State rs (q <=? n_valid rs)%nat (who s)
                  (overrun s || (rf <? length rs)%nat))
  end.

Definition holds_lock (c : caller) : bool :=
  match c with Locked | Sleepy => true | _ => false end.

Definition step (e : event) (s : state) : option state :=
  match e with
  | Arrive r => arrive r s
  | Signal =>   (* client_api.c:992-1000, needs mc->lock *)
      if signalling s && negb (holds_lock (who s))
      then Some (State (got s) false
                       (match who s with Asleep => Woken | c => c end) (overrun s))
      else None
  | Lock =>   (* client_api.c:1186 *)
      match who s with
      | Started => Some (State (got s) (signalling s) Locked (overrun s))
      | _ => None
      end
  | Check =>   (* client_api.c:1188-1193 *)
      match who s with
      | Locked => Some (State (got s) (signalling s)
                         (if (q <=? length (got s))%nat then Woken else Sleepy)
                         (overrun s))
      | _ => None
      end
  | Sleep =>   (* client_api.c:1198, entry: releases the lock *)
      match who s with
      | Sleepy => Some (State (got s) (signalling s) Asleep (overrun s))
      | _ => None
      end
  | Timeout =>   (* client_api.c:1198, return without a signal *)
      match who s with
      | Asleep => Some (State (got s) (signalling s) Woken (overrun s))
      | _ => None
      end
  | Count =>   (* client_api.c:1317-1323 *)
      match who s with
      | Woken => Some (State (got s) (signalling s)
                        (if (length (got s) <? q)%nat
                         then Concluded (Outcome NO_QUORUM_ERR 0 None) else Enough)
                        (overrun s))
      | _ => None
      end
  | Conclude =>   (* client_api.c:1325-1349 *)
      match who s with
      | Enough => Some (State (got s) (signalling s)
                          (Concluded (conclude o q (got s))) (overrun s))
      | _ => None
      end
  | Delete =>   (* client_api.c:1010-1029, waits for msg_callbacks_lock *)
      match who s with
      | Concluded r => if signalling s then None
                       else Some (State (got s) false (Returned r) (overrun s))
      | _ => None
      end
  end.

Fixpoint run (es : list event) (s : state) : option state :=
  match es with
  | [] => Some s
  | e :: es => match step e s with Some s' => run es s' | None => None end
  end.

(** A call: nothing is sent if there are too few servers
    (client_api.c:1296-1301); otherwise it is [run] from [init]. *)
Definition call (servers : list nat) (es : list event) : option state :=
  if (length servers <? q)%nat
  then Some (State [] false (Returned (Outcome NO_QUORUM_ERR 0 None)) false)
  else run es init.
End Call.

(** The replies that arrive in a run, in their order. *)
Fixpoint arrivals (es : list event) : list reply :=
  match es with
  | [] => []
  | Arrive r :: es => r :: arrivals es
  | _ :: es => arrivals es
  end.

(** What a caller of the replicated database relies on, said without the
    client's code: majorities of servers, and which answers are favourable. *)
From Coq Require Import List ZArith Arith.
Import ListNotations.
Open Scope Z_scope.

(** A set of servers (without repetitions) that is more than half of the
    replication factor. *)
Definition majority (rf : nat) (servers : list nat) : Prop :=
  NoDup servers /\ (rf < 2 * length servers)%nat.

(** The answers of a server.  [Ack]: done, or an error code (0 is success).
    [Rows]: the rows found (at least 0 cells) or an error (a negative count),
    and the rows themselves.  [Entries]: a status (negative: an error), the
    position in the queue up to which the answer reads, and the entries. *)
Inductive body :=
| Ack (status : Z)
| Rows (cells : Z) (rows : Z)
| Entries (status : Z) (upto : Z) (entries : Z).

Record reply := Reply { from : nat; what : body }.

(** The requests of the client. *)
Inductive op :=
| Write          (* insert, delete, enqueue, consume, delete queue, commit *)
| CreateQueue
| Subscribe
| Unsubscribe
| Search         (* any query of rows *)
| ReadQueue
| Validate       (* "may this transaction commit?" *)
| Abort.

(** The answers that say that the server has done what was asked: success, or,
    where that is just as good, that it had been done before. *)
Definition favourable (o : op) (b : body) : Prop :=
  match o, b with
  | CreateQueue, Ack s => s = 0 \/ s = -6   (* the queue is there already *)
  | Subscribe, Ack s => s = 0 \/ s = -7     (* subscribed already *)
  | Unsubscribe, Ack s => s = 0 \/ s = -3   (* not subscribed *)
  | Write, Ack s | Validate, Ack s | Abort, Ack s => s = 0
  | Search, Rows n _ => 0 <= n
  | ReadQueue, Entries s _ _ => 0 <= s
  | _, _ => False
  end.

(** The kind of answer the servers give to a request. *)
Definition fits (o : op) (b : body) : Prop :=
  match o, b with
  | Search, Rows _ _ | ReadQueue, Entries _ _ _ => True
  | Search, _ | ReadQueue, _ => False
  | _, Ack _ => True
  | _, _ => False
  end.

(** The status carried by an answer. *)
Definition status_of (b : body) : Z :=
  match b with Ack s => s | Rows n _ => n | Entries s _ _ => s end.

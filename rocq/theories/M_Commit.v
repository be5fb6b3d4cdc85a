(** A transaction on the replicated database: the servers' handlers
    (backend/actondb.c, backend/txns.c) and the client's protocol
    (backend/client_api.c).

    The world is one client's transaction on all servers.  A round is a
    request sent to the servers of which those in [delivered] handle it and of
    whose replies the client looks at those of [seen], in that order
    (C87 is about how that list comes about).  A server that handles a request
    late handles it before the client's next one, since requests on one
    connection keep their order; so [delivered] and [seen] cover delays.
    Whether a server's validation finds a conflict is given by [votes]; the
    conflict test itself is the subject of C43. *)
From Coq Require Import List ZArith Lia Bool Arith.
From Verif Require Import S_Quorum M_Quorum.
Import ListNotations.
Open Scope Z_scope.

(** What a server knows about the transaction (entry of [db->txn_state]):
    nothing, or its state and its write set (txns.h, txns.c:450-488). *)
Inductive txn := Absent | Active (ws : list Z) | Validated (ws : list Z).

(** [store]: the writes applied to the server's tables, in their order. *)
Record server := Server { up : bool; entry : txn; store : list Z }.

Inductive message := Begin | Put (w : Z) | ValidateM | CommitM | AbortM.

(** A failed assertion ends the server's process. *)
Definition dead (s : server) : server := Server false (entry s) (store s).

(** The handlers: the new state of the server and the status of its
    acknowledgement, if there is one. *)
Definition handle (vote : Z) (m : message) (s : server) : server * option Z :=
  if negb (up s) then (s, None) else
  match m with
  | Begin =>   (* handle_new_txn, actondb.c:878-908 *)
      match entry s with
      | Absent => (Server true (Active []) (store s), Some 0)
      | _ => (s, Some DUPLICATE_TXN)
      end
  | Put w =>   (* db_insert_in_txn, txns.c:632-639; actondb.c:1084-1089 *)
      match entry s with
      | Absent => (dead s, None)   (* NO_SUCH_TXN, assert(0) *)
      | Active ws => (Server true (Active (ws ++ [w])) (store s), Some 0)
      | Validated ws => (Server true (Validated (ws ++ [w])) (store s), Some 0)
      end
  | ValidateM =>   (* validate_txn, txns.c:450-488 *)
      match entry s with
      | Absent => (s, Some NO_SUCH_TXN)
      | Active ws =>
          if vote =? VAL_STATUS_COMMIT
          then (Server true (Validated ws) (store s), Some VAL_STATUS_COMMIT)
          else (s, Some vote)
      | Validated _ => (dead s, None)   (* assert(ts->state == TXN_STATUS_ACTIVE) *)
      end
  | CommitM =>   (* handle_commit_txn, actondb.c:918-932; persist_txn, txns.c:543-580.
                    The result of the single writes is taken to be 0. *)
      match entry s with
      | Absent => (s, Some NO_SUCH_TXN)
      | Active ws | Validated ws => (Server true Absent (store s ++ ws), Some 0)
      end
  | AbortM =>   (* abort_txn, txns.c:582-585; actondb.c:1242-1243 *)
      match entry s with
      | Absent => (dead s, None)   (* NO_SUCH_TXN, assert(status == 0) *)
      | _ => (Server true Absent (store s), Some 0)
      end
  end.

Definition world := nat -> server.

Record round := Round { delivered : list nat; seen : list nat }.

Definition mem (n : nat) (l : list nat) : bool := existsb (Nat.eqb n) l.

Section Txn.
Variable rf : nat.
Variable votes : nat -> Z.
Let q := quorum_size rf.

(** All servers after a round. *)
Definition after (m : message) (d : round) (w : world) : world :=
  fun n => if mem n (delivered d) then fst (handle (votes n) m (w n)) else w n.

(** The replies the client looks at. *)
Definition replies (m : message) (d : round) (w : world) : list reply :=
  flat_map (fun n =>
    if mem n (delivered d)
    then match snd (handle (votes n) m (w n)) with
         | Some z => [Reply n (Ack z)]
         | None => []
         end
    else []) (seen d).

(** client_api.c:1317-1323 and its copies, then the loop over the replies. *)
Definition answer (o : op) (rs : list reply) : Z :=
  if (length rs <? q)%nat then NO_QUORUM_ERR else ret (conclude o q rs).

(** remote_new_txn, client_api.c:3085-3159.  Its loop over the replies is that
    of an abort.  (A txnid that a server has already is not modelled: txnids
    are fresh.) *)
Definition begin_txn (d : round) (w : world) : world * Z :=
  (after Begin d w, answer Abort (replies Begin d w)).

(** remote_insert_in_txn, client_api.c:1256-1352. *)
Definition put (x : Z) (d : round) (w : world) : world * Z :=
  (after (Put x) d w, answer Write (replies (Put x) d w)).

(** client_api.c:3411-3420: [_remote_persist_txn] until it succeeds.  [None]:
    still trying after these rounds. *)
Fixpoint persist (ds : list round) (w : world) : world * option Z :=
  match ds with
  | [] => (w, None)
  | d :: ds =>
      let w' := after CommitM d w in
      if answer Write (replies CommitM d w) =? 0
      then (w', Some VAL_STATUS_COMMIT)
      else persist ds w'
  end.

(** remote_commit_txn, client_api.c:3371-3463: validation, then commit or
    abort.  The result of the abort round is not looked at. *)
Definition commit (v : round) (ds : list round) (a : round) (w : world)
  : world * option Z :=
  let w1 := after ValidateM v w in
  let r := answer Validate (replies ValidateM v w) in
  if r =? VAL_STATUS_COMMIT then persist ds w1
  else if r =? NO_QUORUM_ERR then (w1, Some NO_QUORUM_ERR)
  else (after AbortM a w1, Some r).

(** The writes of a transaction, each in its round; the results are 0. *)
Fixpoint puts (xs : list (Z * round)) (w : world) : world :=
  match xs with
  | [] => w
  | (x, d) :: xs => puts xs (after (Put x) d w)
  end.
End Txn.

(** The writes a server holds for the transaction. *)
Definition held (s : server) : list Z :=
  match entry s with Absent => [] | Active ws | Validated ws => ws end.

Definition holds (s : server) : bool :=
  up s && match entry s with Absent => false | _ => true end.

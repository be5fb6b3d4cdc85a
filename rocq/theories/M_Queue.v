(** The database's queues: backend/queue.c, backend/queue.h, backend/consumer_state.h,
    and the answers of the server, backend/actondb.c.

    One queue of one table, with individual (not group) subscribers.  The entries are in
    the skip list model of M_Skiplist; the subscribers, which are in a second skip list,
    are an association list here (that the skip list is a map is C39), and so is the
    table of queues ([serve]).  An entry's columns are one number.  Vector clocks are
    left out.  The server handles one message at a time, so that an operation is one
    step; [reserve] and [store] are the two halves of enqueue for callers with threads. *)
From Verif Require Import Base M_Skiplist.

(** A failed assert(): the process ends. *)
Definition abort {A} : res A := Exn RuntimeError.
Definition assert {A} (b : bool) (k : res A) : res A := if b then k else abort.

(** backend/queue.h:29-39 error codes and read status. *)
Definition DB_ERR_NO_QUEUE : Z := -2.
Definition DB_ERR_NO_CONSUMER : Z := -3.
Definition DB_ERR_QUEUE_COMPLETE : Z := -4.
Definition DB_ERR_QUEUE_HEAD_INVALID : Z := -5.
Definition DB_ERR_DUPLICATE_CONSUMER : Z := -7.
Definition READ_INCOMPLETE : Z := 0.
Definition READ_COMPLETE : Z := 1.

(** backend/consumer_state.h:39-55 struct consumer_state. *)
Record cons := Cons { rdh : Z; csh : Z; ntf : bool }.

(** backend/db.h struct db_row: no_entries, cells, consumer_state. *)
Record queue := Queue { qn : Z; qcells : slist; qcons : list (Z * cons) }.

Fixpoint clook (l : list (Z * cons)) (c : Z) : option cons :=
  match l with
  | [] => None
  | (k, x) :: t => if k =? c then Some x else clook t c
  end.
Fixpoint cset (l : list (Z * cons)) (c : Z) (x : cons) : list (Z * cons) :=
  match l with
  | [] => [(c, x)]
  | (k, y) :: t => if k =? c then (k, x) :: t else (k, y) :: cset t c x
  end.
Fixpoint cdel (l : list (Z * cons)) (c : Z) : list (Z * cons) :=
  match l with
  | [] => []
  | (k, y) :: t => if k =? c then t else (k, y) :: cdel t c
  end.

Definition with_cons (q : queue) (l : list (Z * cons)) : queue := Queue (qn q) (qcells q) l.

(** backend/queue.c:1057-1145 create_queue: an entry -2 is stored first. *)
Definition create_queue (junk seed : Z) : res (queue * Z) :=
  do (l, seed) <- insert (create junk) (-2) 0 seed;
  Ok (Queue 0 l [], seed).

(** backend/queue.c:1222-1239 get_consumer_state. *)
Definition get_consumer_state : cons := Cons (-1) (-1) false.

(** backend/queue.c:785-825 __subscribe_queue. *)
Definition subscribe_queue (q : queue) (c : Z) : queue * Z :=
  match clook (qcons q) c with
  | Some _ => (q, DB_ERR_DUPLICATE_CONSUMER)
  | None => (with_cons q (cset (qcons q) c get_consumer_state), 0)
  end.

(** backend/queue.c:951-983 _unsubscribe_queue: the test whether the consumer existed
    looks at the wrong variable. *)
Definition unsubscribe_queue (q : queue) (c : Z) : queue * Z :=
  (with_cons q (cdel (qcons q) c), 0).

(** backend/queue.c:164-243 notify_subscriber; [up c] says that the subscriber's socket is
    open and can be written, or that it is a local one. *)
Definition notify_one (up : Z -> bool) (e : Z * cons) : bool := negb (ntf (snd e)) && up (fst e).

(** backend/queue.c:245-256 notify_subscribers. *)
Definition notify_subscribers (l : list (Z * cons)) (up : Z -> bool) : list (Z * cons) * list Z :=
  (map (fun e => (fst e, if notify_one up e then Cons (rdh (snd e)) (csh (snd e)) true else snd e)) l,
   map fst (filter (notify_one up) l)).

(** backend/queue.c:271-284: the part of enqueue under the lock. *)
Definition reserve (q : queue) : queue * Z := (Queue (qn q + 1) (qcells q) (qcons q), qn q).

(** backend/queue.c:286-302: table_insert, which returns 0, and the notifications. *)
Definition store (q : queue) (id v seed : Z) (up : Z -> bool) : res (queue * Z * list Z) :=
  do (l, seed) <- insert (qcells q) id v seed;
  let '(cs, told) := notify_subscribers (qcons q) up in
  Ok (Queue (qn q) l cs, seed, told).

(** backend/queue.c:258-327 enqueue. *)
Definition enqueue (q : queue) (v seed : Z) (up : Z -> bool) : res (queue * Z * list Z) :=
  let '(q, id) := reserve q in store q id v seed up.

(** backend/db.c:682 the loop of table_range_search_clustering, from *start_row = [x];
    backend/actondb.c:708-729 get_queue_read_response_packet walks the same nodes. *)
Fixpoint collect (fuel : nat) (l : slist) (x : addr) (last : Z) : res (list (Z * Z)) :=
  match fuel with
  | O => NoFuel
  | S fuel =>
    do n <- node l x;
    do p <- fwd l x 0;
    match p with
    | Some y => if skey n <? last
                then do r <- collect fuel l y last; Ok ((skey n, sval n) :: r)
                else Ok [(skey n, sval n)]
    | None => Ok [(skey n, sval n)]
    end
  end.

(** backend/db.c:648-686 table_range_search_clustering with one clustering key. *)
Definition range_search (l : slist) (first last : Z) : res (list (Z * Z)) :=
  do p <- search_higher l first;
  match p with
  | None => Ok []
  | Some x => collect (S (snext l)) l x last
  end.

Definition min (x y : Z) : Z := if x <? y then x else y.

(** What a request is answered with: a status, and for reads the new head and the
    entries (number, value). *)
Inductive qout := Ack (st : Z) | Rd (st head : Z) (es : list (Z * Z)).

(** The common part of read_queue (backend/queue.c:561-602) and peek_queue
    (backend/queue.c:635-666): entries from [from] + 1 on. *)
Definition fetch (q : queue) (from max : Z) : res (Z * Z * list (Z * Z)) :=
  let new := min (from + max) (qn q - 1) in
  let start := from + 1 in
  do es <- range_search (qcells q) start new;
  assert (zlen es =? new - start + 1)
  (Ok (if new =? qn q - 1 then READ_COMPLETE else READ_INCOMPLETE, new, es)).

(** backend/queue.c:515-604 read_queue; [max_entries] is an int. *)
Definition read_queue (q : queue) (c max_entries : Z) : res (queue * qout) :=
  let max := wrapS 32 max_entries in
  match clook (qcons q) c with
  | None => Ok (q, Rd DB_ERR_NO_CONSUMER (-1) [])
  | Some x =>
      assert (rdh x <=? qn q - 1)
      (if rdh x =? qn q - 1 then Ok (q, Rd READ_COMPLETE (rdh x) [])
       else
         do (st, new, es) <- fetch q (rdh x) max;
         let x := Cons new (csh x) (if st =? READ_COMPLETE then false else ntf x) in
         Ok (with_cons q (cset (qcons q) c x), Rd st new es))
  end.

(** backend/queue.c:606-667 peek_queue. *)
Definition peek_queue (q : queue) (c max_entries offset : Z) : res qout :=
  let max := wrapS 32 max_entries in
  match clook (qcons q) c with
  | None => Ok (Rd DB_ERR_NO_CONSUMER (-1) [])
  | Some x =>
      let from := if 0 <=? offset then offset else rdh x in
      assert (from <=? qn q - 1)
      (if from =? qn q - 1 then Ok (Rd READ_COMPLETE from [])
       else do (st, new, es) <- fetch q from max; Ok (Rd st new es))
  end.

(** backend/queue.c:669-733 replay_queue.  When there is nothing to replay the caller's
    variable for the new offset is not assigned; 0 stands for it. *)
Definition replay_queue (q : queue) (c offset max_entries : Z) : res qout :=
  let max := wrapS 32 max_entries in
  match clook (qcons q) c with
  | None => Ok (Rd DB_ERR_NO_CONSUMER 0 [])
  | Some x =>
      assert (rdh x <=? qn q - 1)
      (assert (csh x + offset <=? rdh x)
       (if csh x + offset =? rdh x then Ok (Rd READ_COMPLETE 0 [])
        else
          let new := min (csh x + offset + max) (rdh x) in
          let start := csh x + offset in
          do es <- range_search (qcells q) start new;
          assert (zlen es =? new - start)
          (Ok (Rd (if new =? rdh x then READ_COMPLETE else READ_INCOMPLETE) new es))))
  end.

(** backend/queue.c:735-782 consume_queue; the new head is returned as an int. *)
Definition consume_queue (q : queue) (c new : Z) : res (queue * Z) :=
  match clook (qcons q) c with
  | None => Ok (q, DB_ERR_NO_CONSUMER)
  | Some x =>
      let y := Cons (rdh x) (csh x) false in
      assert (csh x <=? rdh x)
      (if rdh x <? new then Ok (with_cons q (cset (qcons q) c y), DB_ERR_QUEUE_HEAD_INVALID)
       else if new =? csh x then Ok (with_cons q (cset (qcons q) c y), DB_ERR_QUEUE_COMPLETE)
       else Ok (with_cons q (cset (qcons q) c (Cons (rdh x) new false)), wrapS 32 new))
  end.

(** backend/queue.c:427-473 set_private_read_head: the effect of a read in a transaction
    (which itself is a peek, backend/txns.c:824), when the transaction is persisted
    (backend/txns.c:518). *)
Definition set_private_read_head (q : queue) (c new : Z) : res (queue * Z) :=
  match clook (qcons q) c with
  | None => Ok (q, DB_ERR_NO_CONSUMER)
  | Some x =>
      assert (new <=? qn q - 1)
      (assert ((rdh x <=? new) && (csh x <=? new))
       (Ok (with_cons q (cset (qcons q) c (Cons new (csh x) (ntf x))), 0)))
  end.

(** backend/queue.c:475-513 set_private_consume_head, likewise (backend/txns.c:522). *)
Definition set_private_consume_head (q : queue) (c new : Z) : res (queue * Z) :=
  match clook (qcons q) c with
  | None => Ok (q, DB_ERR_NO_CONSUMER)
  | Some x =>
      assert (new <=? qn q - 1)
      (assert ((new <=? rdh x) && (csh x <=? new))
       (Ok (with_cons q (cset (qcons q) c (Cons (rdh x) new (ntf x))), 0)))
  end.

(** Requests. *)
Inductive qop :=
| QSub (c : Z) | QUnsub (c : Z) | QEnq (v : Z) (up : Z -> bool)
| QRead (c max : Z) | QPeek (c max offset : Z) | QReplay (c offset max : Z) | QCons (c head : Z)
| QTxnRead (c head : Z) | QTxnCons (c head : Z).

(** A request on an existing queue: the new state, the answer, and the subscribers that
    are sent a notification. *)
Definition qexec (q : queue) (seed : Z) (o : qop) : res (queue * Z * qout * list Z) :=
  match o with
  | QSub c => let '(q, st) := subscribe_queue q c in Ok (q, seed, Ack st, [])
  | QUnsub c => let '(q, st) := unsubscribe_queue q c in Ok (q, seed, Ack st, [])
  | QEnq v up => do (q, seed, told) <- enqueue q v seed up; Ok (q, seed, Ack 0, told)
  | QRead c max => do (q, r) <- read_queue q c max; Ok (q, seed, r, [])
  | QPeek c max off => do r <- peek_queue q c max off; Ok (q, seed, r, [])
  | QReplay c off max => do r <- replay_queue q c off max; Ok (q, seed, r, [])
  | QCons c h => do (q, st) <- consume_queue q c h; Ok (q, seed, Ack st, [])
  | QTxnRead c h => do (q, st) <- set_private_read_head q c h; Ok (q, seed, Ack st, [])
  | QTxnCons c h => do (q, st) <- set_private_consume_head q c h; Ok (q, seed, Ack st, [])
  end.

(** What happened: request, answer, subscribers notified. *)
Definition event := (qop * qout * list Z)%type.

Fixpoint qrun (q : queue) (seed : Z) (os : list qop) : res (list event) :=
  match os with
  | [] => Ok []
  | o :: t => do (q, seed, r, told) <- qexec q seed o;
              do tr <- qrun q seed t; Ok ((o, r, told) :: tr)
  end.

(** From the creation of the queue. *)
Definition history (junk seed : Z) (os : list qop) : res (list event) :=
  do (q, seed) <- create_queue junk seed; qrun q seed os.

(** backend/actondb.c:1125-1200: what the server does with a request on a queue that does
    not exist (all functions return DB_ERR_NO_QUEUE then). *)
Definition serve_absent (o : qop) : res Z :=
  match o with
  | QSub _ | QCons _ _ => Ok DB_ERR_NO_QUEUE
  | QUnsub _ | QEnq _ _ => assert (DB_ERR_NO_QUEUE =? 0) (Ok 0)
  | _ => assert ((DB_ERR_NO_QUEUE =? READ_COMPLETE) || (DB_ERR_NO_QUEUE =? READ_INCOMPLETE)
                 || (DB_ERR_NO_QUEUE =? DB_ERR_NO_CONSUMER)) (Ok 0)
  end.

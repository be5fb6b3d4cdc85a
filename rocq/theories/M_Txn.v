(** Transactions: backend/txns.c, backend/txn_state.c, and the requests of backend/actondb.c
    that use them.

    Rows are in the tables of M_Table; a queue is the list of its entries and the heads of
    its subscribers (that the database's queues are this is C42).  Queues have a name space
    of their own.  A consumer's number stands for its application, shard and number.
    Versions are left out, and so are the reads of queues in transactions (C65). *)
From Verif Require Import Base S_Table S_Txn M_Table.
From Verif Require M_Queue.

(** backend/txn_state.h struct txn_write: the change, and local_order. *)
Record tw := TW { op : wr; lo : Z }.

(** backend/db_queries.h QUERY_TYPE_... *)
Definition qtype (w : wr) : Z :=
  match w with
  | Upd _ _ _ => 0 | Del _ _ => 1 | Enq _ _ _ => 9 | Csm _ _ _ _ => 11 | Crt _ _ => 12 | Dlq _ _ => 13
  end.
Definition QUERY_TYPE_ENQUEUE : Z := 9.

(** The first no_primary_keys + no_clustering_keys of column_values. *)
Definition keys (w : wr) : list Z :=
  match w with Upd _ p _ => p | Del _ p => p | _ => [] end.

(** backend/txn_state.c:42-46. *)
Fixpoint keys_cmp (k1 k2 : list Z) : Z :=
  match k1, k2 with
  | x :: k1, y :: k2 => if x =? y then keys_cmp k1 k2 else wrapS 32 (wrapS 32 x - y)
  | _, _ => 0
  end.

(** backend/txn_state.c:25-79 txn_write_cmp.  The 64-bit differences are computed exactly
    (the code's overflow for keys 2^63 apart is not modelled). *)
Definition txn_write_cmp (a b : tw) : Z :=
  let '(a1, b1) := (op a, op b) in
  if negb (table_of a1 =? table_of b1) then wrapS 32 (table_of a1 - table_of b1)
  else if qtype a1 <? QUERY_TYPE_ENQUEUE then
    if negb (zlen (keys a1) =? zlen (keys b1)) then zlen (keys a1) - zlen (keys b1)
    else keys_cmp (keys a1) (keys b1)
  else if negb (qtype a1 =? qtype b1) then qtype a1 - qtype b1
  else
    match a1, b1 with
    | Csm _ q1 c1 _, Csm _ q2 c2 _ =>
        if negb (q1 =? q2) then wrapS 32 (q1 - q2)
        else if negb (c1 =? c2) then wrapS 32 (c1 - c2) else 0
    | Enq _ _ _, _ | Crt _ _, _ => if negb (lo a =? lo b) then wrapS 32 (lo a - lo b) else 0
    | _, _ => 0
    end.

(** A node of the write set: [nkey] is None when the key points to freed memory. *)
Record node := Node { nkey : option tw; nval : tw }.

(** backend/skiplist.c:131-144 skiplist_search, on the lowest level (the levels above it
    skip nodes at random; C39). *)
Definition hit (w : tw) (n : option node) : res (option node) :=
  match n with
  | None => Ok None
  | Some n => do k <- orUB (nkey n);
              Ok (if txn_write_cmp w k =? 0 then Some n else None)
  end.
Fixpoint wsearch (l : list node) (w : tw) (x : option node) : res (option node) :=
  match l with
  | [] => hit w x
  | n :: t => do k <- orUB (nkey n);
              if txn_write_cmp k w <=? 0 then wsearch t w (Some n) else hit w x
  end.

(** backend/skiplist.c:80-117 skiplist_insert, likewise: an equal node keeps its key.
    [freeing]: that key is freed by the caller (backend/txn_state.c:373). *)
Fixpoint winsert (l : list node) (w : tw) (freeing : bool) : res (list node) :=
  match l with
  | [] => Ok [Node (Some w) w]
  | n :: t => do k <- orUB (nkey n);
              if txn_write_cmp k w <? 0 then do r <- winsert t w freeing; Ok (n :: r)
              else if txn_write_cmp w k =? 0 then Ok (Node (if freeing then None else nkey n) w :: t)
              else Ok (Node (Some w) w :: n :: t)
  end.

(** backend/txn_state.h struct txn_state: the write set, and state == TXN_STATUS_VALIDATED.
    (The read set is never filled by the server.) *)
Record txn := Txn { ws : list node; valid : bool }.

(** backend/txn_state.c:360-377 add_write_to_txn, :541-556 add_consume_queue_to_txn (search,
    insert, free the write found); :506-515 add_enqueue_to_txn, :558-576
    add_create_queue_to_txn and add_delete_queue_to_txn (insert). *)
Definition add_write (l : list node) (w : wr) : res (list node) :=
  let t := TW w (zlen l) in
  match w with
  | Upd _ _ _ | Del _ _ | Csm _ _ _ _ =>
      do p <- wsearch l t None;
      winsert l t (match p with Some _ => true | None => false end)
  | _ => winsert l t false
  end.

Record sq := SQ { ents : list Z; heads : list (Z * (Z * Z)) }.
Record db := DB { tabs : list (Z * table); qs : list (Z * list (Z * sq)) }.
Record srv := Srv { sdb : db; txns : list (Z * txn) }.

Definition qlook (d : db) (t q : Z) : option sq :=
  match zlook (qs d) t with Some l => zlook l q | None => None end.
Definition qput (d : db) (t q : Z) (x : sq) : db :=
  DB (tabs d) (zupd (qs d) t (match zlook (qs d) t with Some l => zupd l q x | None => [] end)).

Definition DB_ERR_NO_TABLE : Z := -1.
Definition DB_ERR_DUPLICATE_QUEUE : Z := -6.
Definition DUPLICATE_TXN : Z := -2.
Definition NO_SUCH_TXN : Z := -3.
Definition VAL_STATUS_COMMIT : Z := 0.
Definition VAL_STATUS_ABORT : Z := 1.
Definition VAL_STATUS_ABORT_SCHEMA : Z := -8.

(** backend/queue.c:258-302 enqueue. *)
Definition do_enqueue (d : db) (t q x : Z) : db * Z :=
  match qlook d t q with
  | None => (d, M_Queue.DB_ERR_NO_QUEUE)
  | Some s => (qput d t q (SQ (ents s ++ [x]) (heads s)), 0)
  end.

(** backend/queue.c:475-513 set_private_consume_head. *)
Definition set_consume_head (d : db) (t q c new : Z) : res (db * Z) :=
  match qlook d t q with
  | None => Ok (d, M_Queue.DB_ERR_NO_QUEUE)
  | Some s =>
      match zlook (heads s) c with
      | None => Ok (d, M_Queue.DB_ERR_NO_CONSUMER)
      | Some (rd, cs) =>
          assert (new <=? zlen (ents s) - 1)
          (assert ((new <=? rd) && (cs <=? new))
           (Ok (qput d t q (SQ (ents s) (zupd (heads s) c (rd, new))), 0)))
      end
  end.

(** backend/queue.c:1057-1145 create_queue and :1147-1220 delete_queue. *)
Definition do_create (d : db) (t q : Z) : db * Z :=
  match zlook (qs d) t with
  | None => (d, DB_ERR_NO_TABLE)
  | Some l => match zlook l q with
              | Some _ => (d, DB_ERR_DUPLICATE_QUEUE)
              | None => (DB (tabs d) (zupd (qs d) t (l ++ [(q, SQ [] [])])), 0)
              end
  end.
Definition do_delete (d : db) (t q : Z) : db * Z :=
  match zlook (qs d) t with
  | None => (d, DB_ERR_NO_TABLE)
  | Some l => match zlook l q with
              | None => (d, M_Queue.DB_ERR_NO_QUEUE)
              | Some _ => (DB (tabs d) (zupd (qs d) t (zdel l q)), 0)
              end
  end.

(** backend/db.c:980-996 db_insert_transactional and :1181-1194
    db_delete_row_transactional (which uses the primary key only). *)
Definition db_insert (d : db) (t : Z) (path data : list Z) : res (db * Z) :=
  match zlook (tabs d) t with
  | None => Ok (d, -1)
  | Some tb => do tb <- table_insert tb (path ++ data) (Nat.pred (length path));
               Ok (DB (zupd (tabs d) t tb) (qs d), 0)
  end.
Definition db_delete_row (d : db) (t : Z) (keys : list Z) : res (db * Z) :=
  match zlook (tabs d) t with
  | None => Ok (d, -1)
  | Some tb => do pk <- orUB (zget keys 0);
               let '(tb, st) := table_delete_row tb pk in
               Ok (DB (zupd (tabs d) t tb) (qs d), st)
  end.

(** backend/txns.c:492-540 persist_write. *)
Definition persist_write (d : db) (w : wr) : res (db * Z) :=
  match w with
  | Upd t p data => db_insert d t p data
  | Del t ks => db_delete_row d t ks
  | Enq t q x => Ok (do_enqueue d t q x)
  | Csm t q c h => set_consume_head d t q c h
  | Crt t q => Ok (do_create d t q)
  | Dlq t q => Ok (do_delete d t q)
  end.

(** backend/txns.c:542-586 persist_txn: the status is that of the last write. *)
Fixpoint persist (d : db) (l : list node) (st : Z) : res (db * Z) :=
  match l with
  | [] => Ok (d, st)
  | n :: t => do (d, st) <- persist_write d (op (nval n)); persist d t st
  end.

(** backend/txns.c:357-412 is_write_invalidated, the loop over the other transactions for
    UPDATE and DELETE. *)
Fixpoint conflict (l : list (Z * txn)) (i : Z) (w : tw) : res bool :=
  match l with
  | [] => Ok false
  | (j, x) :: t =>
      if negb (valid x) || (j =? i) then conflict t i w
      else do p <- wsearch (ws x) w None;
           match p with Some _ => Ok true | None => conflict t i w end
  end.

(** backend/txns.c:316-449 is_write_invalidated: the status of the transaction. *)
Definition invalidated (s : srv) (i : Z) (w : tw) : res Z :=
  match op w with
  | Upd _ _ _ | Del _ _ => do b <- conflict (txns s) i w; Ok (if b then VAL_STATUS_ABORT else 0)
  | Enq t q _ | Csm t q _ _ => Ok (match qlook (sdb s) t q with None => VAL_STATUS_ABORT_SCHEMA | Some _ => 0 end)
  | Crt t q => Ok (match qlook (sdb s) t q with None => 0 | Some _ => VAL_STATUS_ABORT end)
  | Dlq t q => Ok (match qlook (sdb s) t q with None => VAL_STATUS_ABORT | Some _ => 0 end)
  end.

Fixpoint validate_writes (s : srv) (i : Z) (l : list node) : res Z :=
  match l with
  | [] => Ok VAL_STATUS_COMMIT
  | n :: t => do st <- invalidated s i (nval n);
              if st =? 0 then validate_writes s i t else Ok st
  end.

(** backend/txns.c:452-490 validate_txn. *)
Definition validate_txn (s : srv) (i : Z) : res (srv * Z) :=
  match zlook (txns s) i with
  | None => Ok (s, NO_SUCH_TXN)
  | Some x =>
      assert (negb (valid x))
      (do st <- validate_writes s i (ws x);
       Ok (if st =? VAL_STATUS_COMMIT then Srv (sdb s) (zupd (txns s) i (Txn (ws x) true)) else s, st))
  end.

(** backend/queue.c:735-782 consume_queue. *)
Definition do_consume (d : db) (t q c new : Z) : res (db * Z) :=
  match qlook d t q with
  | None => Ok (d, M_Queue.DB_ERR_NO_QUEUE)
  | Some s =>
      match zlook (heads s) c with
      | None => Ok (d, M_Queue.DB_ERR_NO_CONSUMER)
      | Some (rd, cs) =>
          assert (cs <=? rd)
          (Ok (if rd <? new then (d, M_Queue.DB_ERR_QUEUE_HEAD_INVALID)
               else if new =? cs then (d, M_Queue.DB_ERR_QUEUE_COMPLETE)
               else (qput d t q (SQ (ents s) (zupd (heads s) c (rd, new))), wrapS 32 new)))
      end
  end.

(** backend/actondb.c:343-400 handle_write_query, :738-762 and :786-870 the handlers of
    queue requests, and what the server asserts (:1084-1199), outside transactions. *)
Definition direct (d : db) (w : wr) : res (db * Z) :=
  match w with
  | Upd t p data =>
      do _ <- orUB (zlook (tabs d) t);
      assert (match data with [] => false | _ => true end)
      (do (d, st) <- db_insert d t p data; assert (st =? 0) (Ok (d, st)))
  | Del t ks =>
      do _ <- orUB (zlook (tabs d) t);
      assert (zlen ks =? 1) (do (d, st) <- db_delete_row d t ks; assert (st =? 0) (Ok (d, st)))
  | Enq t q x => let '(d, st) := do_enqueue d t q x in assert (st =? 0) (Ok (d, st))
  | Csm t q c h => do_consume d t q c h
  | Crt t q => Ok (do_create d t q)
  | Dlq t q => let '(d, st) := do_delete d t q in assert (st =? 0) (Ok (d, st))
  end.

(** The checks of handle_write_query before a write is added to a transaction. *)
Definition acceptable (d : db) (w : wr) : res unit :=
  match w with
  | Upd t _ data => do _ <- orUB (zlook (tabs d) t);
                    assert (match data with [] => false | _ => true end) (Ok tt)
  | Del t _ => do _ <- orUB (zlook (tabs d) t); Ok tt
  | _ => Ok tt
  end.

(** In a transaction that is not known the answer is NO_SUCH_TXN: the server asserts that
    a write, an enqueue or the deletion of a queue returns 0. *)
Definition unknown_ok (w : wr) : bool :=
  match w with Csm _ _ _ _ | Crt _ _ => true | _ => false end.

(** backend/actondb.c:1080-1250 one request: the new state and the answer. *)
Definition serve (s : srv) (r : req) : res (srv * ans) :=
  match r with
  | RBegin i =>
      match zlook (txns s) i with
      | Some _ => Ok (s, Status DUPLICATE_TXN)
      | None => Ok (Srv (sdb s) (txns s ++ [(i, Txn [] false)]), Status 0)
      end
  | RWrite None w => do (d, st) <- direct (sdb s) w; Ok (Srv d (txns s), Status st)
  | RWrite (Some i) w =>
      do _ <- acceptable (sdb s) w;
      match zlook (txns s) i with
      | None => assert (unknown_ok w) (Ok (s, Status NO_SUCH_TXN))
      | Some x => do l <- add_write (ws x) w;
                  Ok (Srv (sdb s) (zupd (txns s) i (Txn l (valid x))), Status 0)
      end
  | RRead _ t pk =>
      do tb <- orUB (zlook (tabs (sdb s)) t);
      do cs <- server_read tb pk []; Ok (s, Cells cs)
  | RValidate i => do (s, st) <- validate_txn s i; Ok (s, Status st)
  | RCommit i =>
      match zlook (txns s) i with
      | None => Ok (s, Status NO_SUCH_TXN)
      | Some x => do (d, st) <- persist (sdb s) (ws x) 0;
                  Ok (Srv d (zdel (txns s) i), Status st)
      end
  | RAbort i =>
      match zlook (txns s) i with
      | None => abort
      | Some _ => Ok (Srv (sdb s) (zdel (txns s) i), Status 0)
      end
  end.

Fixpoint run (s : srv) (rs : list req) : res (srv * list ans) :=
  match rs with
  | [] => Ok (s, [])
  | r :: rs => do (s, a) <- serve s r; do (s, l) <- run s rs; Ok (s, a :: l)
  end.

(** What a user can read of a database. *)
Definition read_cell (tb : table) (p : list Z) : option (list Z) :=
  match p with
  | [] => None
  | pk :: ks => match table_search_clustering tb pk ks with Ok (Some r) => Some (cols r) | _ => None end
  end.
Definition view_of (d : db) : view :=
  View (fun t p => match zlook (tabs d) t with Some tb => read_cell tb p | None => None end)
       (fun t q => option_map ents (qlook d t q))
       (fun t q c => match qlook d t q with Some s => option_map snd (zlook (heads s) c) | None => None end).

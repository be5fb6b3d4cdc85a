(** The database's tables: backend/db.c, and the answers of the server to reads and
    writes of rows, backend/actondb.c.

    The skip lists that hold the rows of a table and the cells of a row are lists sorted by
    key (that a skip list is a sorted map is C39; the key LONG_MAX, which it cannot hold,
    does not occur).  A column is a number, also the blob that can come last.  Version
    stamps, indexes and tombstones are left out.  A primary key is one column, the first
    (db_create_schema accepts one primary key only, and the server makes it column 0). *)
From Verif Require Import Base S_Table.
From Verif Require M_Queue.

Notation abort := M_Queue.abort.
Notation assert := M_Queue.assert.

(** backend/skiplist.c:131 skiplist_search, :80 skiplist_insert, skiplist_delete and
    skiplist_search_higher, on the sorted list. *)
Fixpoint sget {A} (l : list (Z * A)) (k : Z) : option A :=
  match l with
  | [] => None
  | (j, x) :: t => if j =? k then Some x else sget t k
  end.
Fixpoint sput {A} (l : list (Z * A)) (k : Z) (x : A) : list (Z * A) :=
  match l with
  | [] => [(k, x)]
  | (j, y) :: t => if j <? k then (j, y) :: sput t k x
                   else if j =? k then (j, x) :: t
                   else (k, x) :: (j, y) :: t
  end.
Fixpoint sdel {A} (l : list (Z * A)) (k : Z) : list (Z * A) :=
  match l with
  | [] => []
  | (j, y) :: t => if j =? k then t else (j, y) :: sdel t k
  end.
Fixpoint shigher {A} (l : list (Z * A)) (k : Z) : list (Z * A) :=
  match l with
  | [] => []
  | (j, y) :: t => if j <? k then shigher t k else (j, y) :: t
  end.

(** backend/db.h struct db_cell: [cells] is NULL or a skip list, [cols] the columns
    (no_columns = 0 is the empty list). *)
Inductive row := Row (cells : option (list (Z * row))) (cols : list Z).
Definition cells (r : row) := match r with Row c _ => c end.
Definition cols (r : row) := match r with Row _ c => c end.

(** backend/db.h struct db_schema: min_no_cols, min_no_clustering_keys, clustering_key_idxs;
    struct db_table. *)
Record schema := Schema { min_cols : Z; min_cks : nat; ck_idxs : list Z }.
Record table := Table { tschema : schema; rows : list (Z * row) }.

(** backend/db.c:76 and :379 the column that holds the [i]th clustering key. *)
Definition col_index (s : schema) (i : nat) : res Z :=
  if (i <? min_cks s)%nat then orUB (nth_error (ck_idxs s) i) else Ok (Z.of_nat i).

(** The clustering keys of a write, [i], [i]+1, ... ([n] of them). *)
Fixpoint cks (s : schema) (vals : list Z) (i n : nat) : res (list Z) :=
  match n with
  | O => Ok []
  | S n => do j <- col_index s i;
           do k <- orUB (zget vals j);
           do r <- cks s vals (S i) n; Ok (k :: r)
  end.

(** backend/db.c:60-108 create_db_row_schemaless: the columns are stored in the loop over
    the clustering keys, in its last round. *)
Fixpoint new_row (ks data : list Z) : row :=
  match ks with
  | [] => Row None []
  | [k] => Row (Some [(k, Row None data)]) []
  | k :: ks => Row (Some [(k, new_row ks data)]) []
  end.

(** backend/db.c:377-426: the walk down an existing row.  A search in a row whose cells
    are NULL dereferences NULL. *)
Fixpoint put (r : row) (ks data : list Z) : res row :=
  match ks with
  | [] => assert (match cells r with None => true | Some _ => false end) (Ok (Row None data))
  | k :: ks =>
      do l <- orUB (cells r);
      let c := match sget l k with
               | Some c => c
               | None => Row (match ks with [] => None | _ => Some [] end) []
               end in
      do c <- put c ks data;
      Ok (Row (Some (sput l k c)) (cols r))
  end.

(** backend/db.c:346-436 table_insert of [vals] with [n] clustering keys. *)
Definition table_insert (t : table) (vals : list Z) (n : nat) : res table :=
  let s := tschema t in
  assert (min_cks s <=? n)%nat
  (assert (1 + Z.of_nat n <? zlen vals)
   (do pk <- orUB (zget vals 0);
    do ks <- cks s vals 0 n;
    let data := skipn (1 + n) vals in
    do r <- match sget (rows t) pk with
            | None => Ok (new_row ks data)
            | Some r => put r ks data
            end;
    Ok (Table s (sput (rows t) pk r)))).

(** backend/db.c:498-511 table_search. *)
Definition table_search (t : table) (pk : Z) : option row := sget (rows t) pk.

(** backend/db.c:600-622: the loop of table_search_clustering. *)
Fixpoint descend (r : row) (ks : list Z) : res (option row) :=
  match ks with
  | [] => Ok (Some r)
  | k :: ks => do l <- orUB (cells r);
               match sget l k with
               | None => Ok None
               | Some c => descend c ks
               end
  end.

(** backend/db.c:585-623 table_search_clustering. *)
Definition table_search_clustering (t : table) (pk : Z) (ks : list Z) : res (option row) :=
  assert (match ks with [] => false | _ => true end)
  (match table_search t pk with
   | None => Ok None
   | Some r => descend r ks
   end).

(** backend/db.c:940-959 table_delete_row: 1 if there was no such row. *)
Definition table_delete_row (t : table) (pk : Z) : table * Z :=
  match sget (rows t) pk with
  | None => (t, 1)
  | Some _ => (Table (tschema t) (sdel (rows t) pk), 0)
  end.

(** backend/db.c:540 and :682 the loops that find the end of a range; the caller takes as
    many nodes from the start as are counted here. *)
Fixpoint upto {A} (l : list (Z * A)) (last : Z) : list (Z * A) :=
  match l with
  | [] => []
  | x :: t => match t with
              | [] => [x]
              | _ => if fst x <? last then x :: upto t last else [x]
              end
  end.

Definition LONG_MIN : Z := - 2 ^ 63.
Definition LONG_MAX : Z := 2 ^ 63 - 1.

(** backend/db.c:513-543 table_range_search; [None] is a pair of NULL keys. *)
Definition table_range_search (t : table) (b : option (Z * Z)) : list (Z * row) :=
  match b with
  | None => rows t
  | Some (lo, hi) =>
      if (lo =? LONG_MIN) && (hi =? LONG_MAX - 1) then rows t
      else upto (shigher (rows t) lo) hi
  end.

(** backend/db.c:648-686 table_range_search_clustering: the keys [ks] of the row, and a
    range of the next clustering key; [None] is the answer -1. *)
Definition table_range_search_clustering (t : table) (pk : Z) (ks : list Z) (lo hi : Z)
  : res (option (list (Z * row))) :=
  match table_search t pk with
  | None => Ok (Some [])
  | Some r =>
      do p <- descend r ks;
      match p with
      | None => Ok None
      | Some r => do l <- orUB (cells r); Ok (Some (upto (shigher l lo) hi))
      end
  end.

(** backend/actondb.c:421 and :443: a row without cells is a cell itself. *)
Definition leaf (r : row) : bool :=
  match cells r with None => true | Some [] => true | Some _ => false end.

(** backend/actondb.c:416-434 count_cells: the number of cells, and *max_depth + the number
    of rows that are not cells. *)
Fixpoint count_cells (r : row) (depth : Z) : Z * Z :=
  match r with
  | Row None _ | Row (Some []) _ => (1, depth)
  | Row (Some l) _ =>
      fold_left (fun a (x : Z * row) =>
                   let '(n, d) := count_cells (snd x) (snd a) in (fst a + n, d))
                l (0, depth + 1)
  end.

(** A cell that is sent to the client: its keys and its columns. *)
Definition cell := (list Z * list Z)%type.

(** backend/actondb.c:436-474 serialize_cells: [key] is result->key, [path] the keys above
    ([depth] - 1 of them), [size] the number of keys that key_path has room for. *)
Fixpoint serialize_cells (r : row) (key : Z) (path : list Z) (size schema_keys : Z) : res (list cell) :=
  let depth := zlen path + 1 in
  if depth <=? size then
    let path := path ++ [key] in
    match r with
    | Row None c | Row (Some []) c =>
        assert (match c with [] => false | _ => true end)
        (assert (schema_keys <=? depth) (Ok [(path, c)]))
    | Row (Some l) _ =>
        (fix go (l : list (Z * row)) : res (list cell) :=
           match l with
           | [] => Ok []
           | (k, c) :: t => do a <- serialize_cells c k path size schema_keys;
                            do b <- go t; Ok (a ++ b)
           end) l
    end
  else UB.

Definition schema_keys (s : schema) : Z := 1 + Z.of_nat (min_cks s).

(** backend/actondb.c:476-541 get_read_response_packet, [key] the last key asked for. *)
Definition read_response (s : schema) (key : Z) (p : option row) : res (list cell) :=
  match p with
  | None => Ok []
  | Some r =>
      if leaf r then
        assert (0 <? zlen (cols r)) (assert (min_cols s <=? zlen (cols r)) (Ok [([key], cols r)]))
      else
        let '(n, d) := count_cells r 1 in
        do cs <- serialize_cells r key [] d (schema_keys s);
        assert (zlen cs =? n) (Ok cs)
  end.

(** backend/actondb.c:543-561 handle_read_query, and the answer.  The transaction of the
    query is not looked at. *)
Definition server_read (t : table) (pk : Z) (ks : list Z) : res (list cell) :=
  match ks with
  | [] => read_response (tschema t) pk (table_search t pk)
  | _ => do p <- table_search_clustering t pk ks;
         read_response (tschema t) (last ks pk) p
  end.

Fixpoint serialize_all (l : list (Z * row)) (size sk : Z) : res (list cell) :=
  match l with
  | [] => Ok []
  | (k, r) :: t => do a <- serialize_cells r k [] size sk;
                   do b <- serialize_all t size sk; Ok (a ++ b)
  end.

(** backend/actondb.c:594-643 get_range_read_response_packet. *)
Definition range_response (s : schema) (p : option (list (Z * row))) : res (list cell) :=
  match p with
  | None => abort
  | Some l =>
      let cd := map (fun x => count_cells (snd x) 1) l in
      let n := fold_right Z.add 0 (map fst cd) in
      let d := fold_right Z.max 0 (map snd cd) in
      do cs <- serialize_all l d (schema_keys s);
      assert (zlen cs =? n) (Ok cs)
  end.

(** backend/actondb.c:645-674 handle_range_read_query. *)
Definition server_range (t : table) (b : option (Z * Z)) : res (list cell) :=
  range_response (tschema t) (Some (table_range_search t b)).
Definition server_range_clustering (t : table) (pk : Z) (ks : list Z) (lo hi : Z) : res (list cell) :=
  do p <- table_range_search_clustering t pk ks lo hi;
  range_response (tschema t) p.

(** backend/actondb.c:343-400, :1084-1089: a write outside a transaction of the keys
    [path] (primary key first) and the columns [data], and the deletion of a row; the
    server asserts that the status is 0. *)
Definition server_write (t : table) (path data : list Z) : res table :=
  assert (match data with [] => false | _ => true end)
  (table_insert t (path ++ data) (Nat.pred (length path))).
Definition server_delete (t : table) (pk : Z) : res table :=
  let '(t, st) := table_delete_row t pk in assert (st =? 0) (Ok t).

(** backend/actondb.c:64-67, :250-275 the schema of the server's tables. *)
Definition state_schema : schema := Schema 3 1 [1; 2].

(** Schemas with [d] clustering keys, in the columns after the primary key. *)
Definition std (d : nat) (s : schema) : Prop :=
  min_cks s = d /\ forall i, (i < d)%nat -> nth_error (ck_idxs s) i = Some (Z.of_nat (S i)).

(** Requests one after another. *)
Definition trun1 (r : res table) (o : top) : res table :=
  do t <- r;
  match o with
  | TWrite p data => server_write t p data
  | TDelete pk => Ok (fst (table_delete_row t pk))
  end.
Definition trun (t : table) (os : list top) : res table := fold_left trun1 os (Ok t).

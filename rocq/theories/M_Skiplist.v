(** The database's ordered map: backend/skiplist.c, backend/skiplist.h,
    backend/fastrand.h.

    Nodes live in a heap; a freed node is absent, so that using it is [UB].  malloc
    returns a fresh address (addresses are not reused: a simplification) and does not
    fail.  WORD keys and values are 64-bit numbers; keys are compared as int64_t. *)
From Verif Require Import Base.

Definition addr := nat.

(** backend/skiplist.h:16-20 struct snode. *)
Record snode := SNode { skey : Z; sval : Z; sfwd : list (option addr) }.

(** backend/skiplist.h:22-28 struct skiplist; [snext] is the next address malloc
    returns. *)
Record slist := SList { sheap : addr -> option snode; slevel : nat; sno : Z; snext : addr }.

Definition HDR : addr := 0%nat.
Definition LONG_MAX : Z := 9223372036854775807.
(** backend/skiplist.h:11. *)
Definition MAX_LEVEL : nat := 6.

(** backend/skiplist.c:31-33: the 64-bit difference is converted to int.  (A difference
    outside 64 bits is undefined in C; the theorems only compare keys that are nearer.) *)
Definition long_cmp (e1 e2 : Z) : Z := wrapS 32 (e1 - e2).

(** backend/skiplist.c:54-70 skiplist_init with long_cmp: the header's key is LONG_MAX,
    its value is not initialised. *)
Definition create (junk : Z) : slist :=
  SList (fun a => if Nat.eqb a HDR then Some (SNode LONG_MAX junk (repeat None MAX_LEVEL)) else None)
        0%nat 0 1%nat.

(** backend/fastrand.h FASTRAND and backend/skiplist.c:72-78 rand_level. *)
Definition fastrand (seed : Z) : Z := wrapU 32 (214013 * seed + 2531011).
Definition rand_level (seed : Z) : nat * Z :=
  let s := fastrand seed in
  (Z.to_nat (Z.land (Z.shiftr s 16) 32767 mod 6), s).

Definition node (l : slist) (x : addr) : res snode := orUB (sheap l x).
Definition fwd (l : slist) (x : addr) (i : nat) : res (option addr) :=
  do n <- node l x; orUB (nth_error (sfwd n) i).

Definition put_node (l : slist) (x : addr) (n : option snode) : slist :=
  SList (fun a => if Nat.eqb a x then n else sheap l a) (slevel l) (sno l) (snext l).

Definition set_nth {A} (l : list A) (i : nat) (v : A) : list A := firstn i l ++ v :: skipn (S i) l.

Definition set_fwd (l : slist) (x : addr) (i : nat) (p : option addr) : res slist :=
  do n <- node l x;
  if Nat.ltb i (length (sfwd n))
  then Ok (put_node l x (Some (SNode (skey n) (sval n) (set_nth (sfwd n) i p))))
  else UB.

(** while (x->forward[i] != NULL && test(x->forward[i]->key)) x = x->forward[i]; *)
Fixpoint walk (fuel : nat) (l : slist) (test : Z -> bool) (i : nat) (x : addr) : res addr :=
  match fuel with
  | O => NoFuel
  | S fuel =>
    do p <- fwd l x i;
    match p with
    | None => Ok x
    | Some y => do n <- node l y;
                if test (skey n) then walk fuel l test i y else Ok x
    end
  end.

(** The loop over the levels from [i] down to 0, which every operation starts with; the
    second component is the array update[0..i]. *)
Fixpoint descend (l : slist) (test : Z -> bool) (i : nat) (x : addr) : res (addr * list addr) :=
  do y <- walk (S (snext l)) l test i x;
  match i with
  | O => Ok (y, [y])
  | S j => do (z, us) <- descend l test j y; Ok (z, us ++ [y])
  end.

(** backend/skiplist.c:108-112: link the new node [a] into levels i, i+1, ... *)
Fixpoint chain (l : slist) (a : addr) (update : list addr) (i n : nat) : res slist :=
  match n with
  | O => Ok l
  | S n =>
    do u <- orUB (nth_error update i);
    do p <- fwd l u i;
    do l1 <- set_fwd l a i p;
    do l2 <- set_fwd l1 u i (Some a);
    chain l2 a update (S i) n
  end.

(** backend/skiplist.c:95-114: the second branch of skiplist_insert. *)
Definition insert_new (l : slist) (key value : Z) (update : list addr) (seed : Z) : res (slist * Z) :=
  let '(level, seed) := rand_level seed in
  let update := if Nat.ltb (slevel l) level
                then update ++ repeat HDR (level - slevel l) else update in
  let lv := if Nat.ltb (slevel l) level then level else slevel l in
  let a := snext l in
  let l1 := SList (sheap l) lv (sno l) (S a) in
  let l2 := put_node l1 a (Some (SNode key value (repeat None (S level)))) in
  do l3 <- chain l2 a update 0 (S level);
  Ok (SList (sheap l3) (slevel l3) (sno l3 + 1) (snext l3), seed).

(** backend/skiplist.c:80-117 skiplist_insert. *)
Definition insert (l : slist) (key value seed : Z) : res (slist * Z) :=
  do (x, update) <- descend l (fun k => long_cmp k key <? 0) (slevel l) HDR;
  do p <- fwd l x 0;
  match p with
  | Some y =>
      do n <- node l y;
      if long_cmp key (skey n) =? 0
      then Ok (put_node l y (Some (SNode (skey n) value (sfwd n))), seed)
      else insert_new l key value update seed
  | None => insert_new l key value update seed
  end.

(** backend/skiplist.c:131-145 skiplist_search: the address of the node found. *)
Definition search (l : slist) (key : Z) : res (option addr) :=
  do (x, _) <- descend l (fun k => long_cmp k key <=? 0) (slevel l) HDR;
  do n <- node l x;
  if negb (skey n =? LONG_MAX) && (long_cmp key (skey n) =? 0) then Ok (Some x) else Ok None.

(** backend/skiplist.c:147-160 skiplist_search_higher. *)
Definition search_higher (l : slist) (key : Z) : res (option addr) :=
  do (x, _) <- descend l (fun k => long_cmp k key <? 0) (slevel l) HDR;
  fwd l x 0.

(** backend/skiplist.c:190-198 skiplist_search_lower. *)
Definition search_lower (l : slist) (key : Z) : res addr :=
  do (x, _) <- descend l (fun k => long_cmp k key <=? 0) (slevel l) HDR; Ok x.

(** backend/skiplist.c:223-227: unlink [x] from levels i, i+1, ..., level. *)
Fixpoint unchain (l : slist) (x : addr) (update : list addr) (i n : nat) : res slist :=
  match n with
  | O => Ok l
  | S n =>
    do u <- orUB (nth_error update i);
    do p <- fwd l u i;
    match p with
    | Some y => if Nat.eqb y x then
                  do q <- fwd l x i;
                  do l1 <- set_fwd l u i q;
                  unchain l1 x update (S i) n
                else Ok l
    | None => Ok l
    end
  end.

(** backend/skiplist.c:233-234: while (list->level > 0 && header->forward[level] == NULL)
    list->level--. *)
Fixpoint shrink (l : slist) (lv : nat) : res nat :=
  match lv with
  | O => Ok O
  | S j => do p <- fwd l HDR lv;
           match p with None => shrink l j | Some _ => Ok lv end
  end.

(** backend/skiplist.c:208-239 skiplist_delete: the value of the deleted node, or NULL. *)
Definition delete (l : slist) (key : Z) : res (slist * Z) :=
  do (x, update) <- descend l (fun k => long_cmp k key <? 0) (slevel l) HDR;
  do p <- fwd l x 0;
  let x := match p with Some y => y | None => x end in
  do n <- node l x;
  if long_cmp (skey n) key =? 0 then
    do l1 <- unchain l x update 0 (S (slevel l));
    do n1 <- node l1 x;
    let value := sval n1 in
    let l2 := put_node l1 x None in
    do lv <- shrink l2 (slevel l2);
    Ok (SList (sheap l2) lv (sno l2 - 1) (snext l2), value)
  else Ok (l, 0).

(** Iterating with HEAD and NEXT (backend/skiplist.h:13-14). *)
Fixpoint items_from (fuel : nat) (l : slist) (x : addr) : res (list (Z * Z)) :=
  match fuel with
  | O => NoFuel
  | S fuel =>
    do p <- fwd l x 0;
    match p with
    | None => Ok []
    | Some y => do n <- node l y; do t <- items_from fuel l y; Ok ((skey n, sval n) :: t)
    end
  end.
Definition items (l : slist) : res (list (Z * Z)) := items_from (S (snext l)) l HDR.

(** backend/skiplist.c:162-187 skiplist_get_range up to the first access through
    start_node: NULL is tested the wrong way round. *)
Definition get_range (l : slist) (start_key end_key : Z) : res (Z * Z) :=
  do p <- search_higher l start_key;
  match p with
  | Some _ => Ok (-1, 0)                      (* returns -1 and no nodes *)
  | None => UB                                (* x->forward with x = NULL *)
  end.

(** backend/skiplist.c:119-129 skiplist_clone. *)
Fixpoint clone_items (its : list (Z * Z)) (l : slist) (seed : Z) : res (slist * Z) :=
  match its with
  | [] => Ok (l, seed)
  | (k, v) :: t => do (l1, s1) <- insert l k v seed; clone_items t l1 s1
  end.
Definition clone (l : slist) (junk seed : Z) : res (slist * Z) :=
  do its <- items l; clone_items its (create junk) seed.

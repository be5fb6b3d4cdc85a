(** Vector clocks: backend/failure_detector/vector_clock.c and vector_clock.h.

    A clock is an array of [capacity] pairs (node id, counter), of which the first
    [no_nodes] are in use.  Contents of memory fresh from malloc are given by the
    parameter [junk]; reading outside the array is [UB].  no_nodes and capacity do not
    overflow an int (2^30 nodes: a simplification). *)
From Verif Require Import Base.

(** vector_clock.h:45-56. *)
Record vclock := VC { vn : Z; varr : list (Z * Z) }.
Definition capacity (v : vclock) : Z := zlen (varr v).

Definition DEFAULT_SIZE : Z := 8.
Definition VC_INCOMPARABLE : Z := -2.
Definition VC_DISJOINT : Z := -3.

Definition ent (v : vclock) (i : Z) : res (Z * Z) := orUB (zget (varr v) i).
Definition put (v : vclock) (i : Z) (e : Z * Z) : res vclock :=
  do a <- orUB (zset (varr v) i e); Ok (VC (vn v) a).

(** vector_clock.h:23-43 BINARY_SEARCH_NODEID: found_idx and exact_match. *)
Fixpoint bsearch (fuel : nat) (v : vclock) (id first last found : Z) : res (Z * bool) :=
  match fuel with
  | O => NoFuel
  | S fuel =>
    if first <=? last then
      let middle := Z.quot (first + last) 2 in
      do e <- ent v middle;
      if fst e =? id then Ok (middle, true)
      else if fst e <? id then bsearch fuel v id (middle + 1) last middle
      else bsearch fuel v id first (middle - 1) found
    else Ok (found, false)
  end.
Definition find_node (v : vclock) (id : Z) : res (Z * bool) :=
  bsearch (S (length (varr v))) v id 0 (vn v - 1) (-1).

(** vector_clock.c:29-41 increment_vc (signed overflow of the counter is undefined). *)
Definition increment_vc (v : vclock) (id : Z) : res (vclock * Z) :=
  do (i, exact) <- find_node v id;
  if negb exact then Ok (v, -1)
  else do e <- ent v i;
       if 2 ^ 63 <=? snd e + 1 then UB
       else do v1 <- put v i (fst e, snd e + 1); Ok (v1, 0).

(** vector_clock.c:62-71: the loop of compare_vc. *)
Fixpoint compare_loop (k : nat) (v1 v2 : vclock) (i : Z) (first_bigger second_bigger : bool) : res Z :=
  match k with
  | O => Ok (if first_bigger && second_bigger then VC_DISJOINT
             else if first_bigger then 1
             else if second_bigger then -1 else 0)
  | S k =>
    do e1 <- ent v1 i;
    do e2 <- ent v2 i;
    if negb (fst e1 =? fst e2) then Ok VC_INCOMPARABLE
    else if snd e2 <? snd e1 then compare_loop k v1 v2 (i + 1) true second_bigger
    else if snd e1 <? snd e2 then compare_loop k v1 v2 (i + 1) first_bigger true
    else compare_loop k v1 v2 (i + 1) first_bigger second_bigger
  end.

(** vector_clock.c:49-81 compare_vc ([None] is NULL). *)
Definition compare_vc (v1 v2 : option vclock) : res Z :=
  match v1, v2 with
  | None, None => Ok 0
  | None, _ | _, None => Ok VC_INCOMPARABLE
  | Some v1, Some v2 =>
    if negb (vn v1 =? vn v2) then Ok VC_INCOMPARABLE
    else compare_loop (Z.to_nat (vn v1)) v1 v2 0 false false
  end.

Section Junk.
  Variable junk : Z -> Z * Z.
  Definition fresh (n : Z) : list (Z * Z) := map (fun i => junk (Z.of_nat i)) (seq 0 (Z.to_nat n)).

  (** vector_clock.c:306-319 grow_vc. *)
  Definition grow_vc (v : vclock) : res vclock :=
    do a <- orUB (blit (fresh (vn v * 2)) 0 (varr v) 0 (vn v)); Ok (VC (vn v) a).

  (** vector_clock.c:155-156: for (idx = no_nodes; idx > found_idx+1; idx--)
      node_ids[idx] = node_ids[idx-1]; [k] iterations are left. *)
  Fixpoint shift_up (k : nat) (v : vclock) (idx : Z) : res vclock :=
    match k with
    | O => Ok v
    | S k => do e <- ent v (idx - 1); do v1 <- put v idx e; shift_up k v1 (idx - 1)
    end.

  (** vector_clock.c:140-164 add_component_vc; initial_counter is an int. *)
  Definition add_component_vc (v : vclock) (id initial_counter : Z) : res (vclock * Z) :=
    do (found, exact) <- find_node v id;
    if (exact : bool) then Ok (v, -1)
    else
      do v1 <- (if vn v =? capacity v then grow_vc v else Ok v);
      do v2 <- shift_up (Z.to_nat (vn v1 - (found + 1))) v1 (vn v1);
      do v3 <- put v2 (found + 1) (id, if 0 <? initial_counter then initial_counter else 0);
      Ok (VC (vn v3 + 1) (varr v3), 0).

  (** vector_clock.c:92-93: the element is read before the bound is tested. *)
  Fixpoint scan (fuel : nat) (v : vclock) (id dest_idx : Z) : res Z :=
    match fuel with
    | O => NoFuel
    | S fuel =>
      do e <- ent v dest_idx;
      if (fst e <? id) && (dest_idx <? vn v) then scan fuel v id (dest_idx + 1) else Ok dest_idx
    end.

  (** vector_clock.c:90-105: one component of the source. *)
  Definition update_one (v : vclock) (e : Z * Z) : res vclock :=
    do d <- scan (S (S (length (varr v)))) v (fst e) 0;
    do hit <- (if d <? vn v then do x <- ent v d; Ok (fst x =? fst e) else Ok false);
    if (hit : bool) then
      do x <- ent v d;
      if snd x <? snd e then put v d (fst x, snd e) else Ok v
    else
      do (v1, status) <- add_component_vc v (fst e) (wrapS 32 (snd e));
      if status =? 0 then Ok v1 else UB.                  (* assert(status == 0) *)

  Fixpoint update_loop (k : nat) (v src : vclock) (i : Z) : res vclock :=
    match k with
    | O => Ok v
    | S k => do e <- ent src i; do v1 <- update_one v e; update_loop k v1 src (i + 1)
    end.

  (** vector_clock.c:83-108 update_vc. *)
  Definition update_vc (v src : vclock) : res vclock := update_loop (Z.to_nat (vn src)) v src 0.

  (** vector_clock.c:274-291 copy_vc. *)
  Definition copy_vc (v : vclock) : res vclock :=
    do a <- orUB (blit (fresh (capacity v)) 0 (varr v) 0 (vn v)); Ok (VC (vn v) a).

  (** vector_clock.c:116-127: the counters are copied as long as the node ids agree;
      the flag is alloc_new_vc. *)
  Fixpoint replace_loop (k : nat) (v src : vclock) (i : Z) : res (vclock * bool) :=
    match k with
    | O => Ok (v, false)
    | S k =>
      do e <- ent v i;
      do s <- ent src i;
      if negb (fst e =? fst s) then Ok (v, true)
      else do v1 <- put v i (fst e, snd s); replace_loop k v1 src (i + 1)
    end.

  (** vector_clock.c:110-138 update_or_replace_vc. *)
  Definition update_or_replace_vc (dest : option vclock) (src : vclock) : res vclock :=
    match dest with
    | None => copy_vc src
    | Some v =>
      if negb (vn v =? vn src) then copy_vc src
      else do (v1, alloc_new) <- replace_loop (Z.to_nat (vn src)) v src 0;
           if (alloc_new : bool) then copy_vc src else Ok v1
    end.
End Junk.

(** vector_clock.c:166-176 get_component_vc. *)
Definition get_component_vc (v : vclock) (id : Z) : res Z :=
  do (i, exact) <- find_node v id;
  if (exact : bool) then do e <- ent v i; Ok (snd e) else Ok (-1).

(** vector_clock.c:191-192: for (idx = found_idx; idx < no_nodes; idx++)
    node_ids[idx] = node_ids[idx+1]. *)
Fixpoint shift_down (k : nat) (v : vclock) (idx : Z) : res vclock :=
  match k with
  | O => Ok v
  | S k => do e <- ent v (idx + 1); do v1 <- put v idx e; shift_down k v1 (idx + 1)
  end.

(** vector_clock.c:180-197 remove_component_vc. *)
Definition remove_component_vc (v : vclock) (id : Z) : res (vclock * Z) :=
  do (i, exact) <- find_node v id;
  if negb exact then Ok (v, -1)
  else do v1 <- shift_down (Z.to_nat (vn v - i)) v i; Ok (VC (vn v1 - 1) (varr v1), 0).

(** vector_clock.c:199-201 cmpfunc: the difference of two ints. *)
Definition cmpfunc (a b : Z * Z) : res Z :=
  let d := fst a - fst b in
  if (- 2 ^ 31 <=? d) && (d <? 2 ^ 31) then Ok d else UB.

(** qsort of the C library, modelled as insertion sort: it is called on pairwise
    different keys, so every sorting algorithm gives the same result. *)
Fixpoint ins (e : Z * Z) (l : list (Z * Z)) : res (list (Z * Z)) :=
  match l with
  | [] => Ok [e]
  | x :: t => do c <- cmpfunc e x;
              if c <=? 0 then Ok (e :: x :: t) else do t1 <- ins e t; Ok (x :: t1)
  end.
Fixpoint qsort (l : list (Z * Z)) : res (list (Z * Z)) :=
  match l with
  | [] => Ok []
  | e :: t => do t1 <- qsort t; ins e t1
  end.

(** vector_clock.c:203-229 init_vc with [pairs] = the first init_no_nodes node ids and
    counters (0 for a NULL array). *)
Definition init_vc (pairs : list (Z * Z)) (sort_node_ids : bool) : res vclock :=
  let n := zlen pairs in
  let cap := (if DEFAULT_SIZE <? n then n else DEFAULT_SIZE) * 2 in
  do p <- (if sort_node_ids then qsort pairs else Ok pairs);
  Ok (VC n (p ++ repeat (0, 0) (Z.to_nat (cap - n)))).

(** vector_clock.c:255-258. *)
Definition init_empty_vc : res vclock := init_vc [] false.
(** vector_clock.c:260-265. *)
Definition init_local_vc_id (id : Z) : res vclock := init_vc [(id, 0)] false.

(** VectorClockMessage: ids and counters. *)
Record vmsg := VMsg { mids : list Z; mcounters : list Z }.

(** vector_clock.c:331-342 init_vc_msg. *)
Fixpoint msg_loop (k : nat) (v : vclock) (i : Z) : res vmsg :=
  match k with
  | O => Ok (VMsg [] [])
  | S k => do e <- ent v i; do m <- msg_loop k v (i + 1); Ok (VMsg (fst e :: mids m) (snd e :: mcounters m))
  end.
Definition init_vc_msg (v : vclock) : res vmsg := msg_loop (Z.to_nat (vn v)) v 0.

(** vector_clock.c:293-304 init_vc_from_msg: n_ids decides, the counters are not
    counted. *)
Fixpoint pairs_of (ids counters : list Z) : res (list (Z * Z)) :=
  match ids with
  | [] => Ok []
  | i :: ids => match counters with
                | [] => UB
                | c :: counters => do t <- pairs_of ids counters; Ok ((i, c) :: t)
                end
  end.
Definition init_vc_from_msg (m : vmsg) : res vclock :=
  do p <- pairs_of (mids m) (mcounters m); init_vc p false.

(** vector_clock.c:231-253 get_node_id for IPv4 (address and port in host order):
    (uint32_t << 16) | uint16_t, returned as int. *)
Definition get_node_id (addr port : Z) : Z := wrapS 32 (Z.lor (wrapU 32 (Z.shiftl addr 16)) port).

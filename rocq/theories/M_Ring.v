(** Placement of objects on servers: backend/hash_ring.c, backend/hash_ring.h.

    A bucket is a struct of the caller that has a key and a status field; the callbacks
    get_key and get_live_field select them (in the client library they are get_rts_key
    and get_rts_live_field, backend/client_api.c:642-650).  The structs live in
    [rmem], indexed by address.  Every function holds the ring's lock from start to
    end, so its body is one step. *)
From Verif Require Import Base M_Skiplist M_Hash32.

(** backend/hash_ring.h:27-28. *)
Definition BUCKET_LIVE : Z := 0.
Definition BUCKET_DEAD : Z := 1.

(** backend/hash_ring.h:30-35 struct hash_ring, and the bucket structs (key, status). *)
Record ring := Ring { rbuckets : slist; rlive : Z; rmem : list (Z * Z) }.

(** backend/hash_ring.c:24-33 get_hash_ring. *)
Definition get_hash_ring (junk : Z) : ring := Ring (create junk) 0 [].

(** hash32((uint32_t) id). *)
Definition place (id : Z) : Z := hash32 (wrapU 32 id).

Definition get_key (r : ring) (b : Z) : res Z := do s <- orUB (zget (rmem r) b); Ok (fst s).
Definition get_live_field (r : ring) (b : Z) : res Z := do s <- orUB (zget (rmem r) b); Ok (snd s).

(** Writing through get_live_field. *)
Definition put_status (r : ring) (b st : Z) : res ring :=
  do s <- orUB (zget (rmem r) b);
  do mem <- orUB (zset (rmem r) b (fst s, st));
  Ok (Ring (rbuckets r) (rlive r) mem).

(** The caller allocates a bucket struct (e.g. get_rts_descriptor,
    backend/client_api.c:606-635). *)
Definition new_bucket (r : ring) (key st : Z) : ring * Z :=
  (Ring (rbuckets r) (rlive r) (rmem r ++ [(key, st)]), zlen (rmem r)).

(** backend/hash_ring.c:48-68 add_bucket.  skiplist_insert returns 0. *)
Definition add_bucket (r : ring) (b seed : Z) : res (ring * Z * Z) :=
  do k <- get_key r b;
  let id_hash := place k in
  do p <- search (rbuckets r) id_hash;
  match p with
  | Some _ => Ok (r, seed, -1)
  | None =>
      do st <- get_live_field r b;
      let live := if st =? BUCKET_LIVE then rlive r + 1 else rlive r in
      do (l, seed) <- insert (rbuckets r) id_hash b seed;
      Ok (Ring l live (rmem r), seed, 0)
  end.

(** backend/hash_ring.c:70-74 lookup_bucket: the value of the node found. *)
Definition lookup_bucket (r : ring) (id : Z) : res (option Z) :=
  do p <- search (rbuckets r) (place id);
  match p with
  | None => Ok None
  | Some a => do n <- node (rbuckets r) a; Ok (Some (sval n))
  end.

(** backend/hash_ring.c:76-96 get_bucket_status. *)
Definition get_bucket_status (r : ring) (b : Z) : res Z :=
  do k <- get_key r b;
  do p <- lookup_bucket r k;
  match p with None => Ok (-1) | Some v => get_live_field r v end.

(** backend/hash_ring.c:98-126 set_bucket_status; [id] is the argument called bucket. *)
Definition set_bucket_status (r : ring) (id status : Z) : res (ring * Z) :=
  do p <- lookup_bucket r id;
  match p with
  | None => Ok (r, -1)
  | Some v =>
      do st <- get_live_field r v;
      let live := if st =? status then rlive r
                  else if status =? BUCKET_LIVE then rlive r + 1 else rlive r - 1 in
      do r1 <- put_status (Ring (rbuckets r) live (rmem r)) v status;
      Ok (r1, 0)
  end.

(** backend/hash_ring.c:128-136 mark_bucket_dead, mark_bucket_live. *)
Definition mark_bucket_dead (r : ring) (id : Z) : res (ring * Z) := set_bucket_status r id BUCKET_DEAD.
Definition mark_bucket_live (r : ring) (id : Z) : res (ring * Z) := set_bucket_status r id BUCKET_LIVE.

(** What get_buckets_for_object returns: NULL, a bucket, or a skip list of buckets (it
    only ever returns an empty one, when live_buckets is negative). *)
Inductive answer := Null | Bucket (b : Z) | Set_of (l : list Z).

(** backend/hash_ring.c:158-180: the loop.  With a replication factor of 1 or less its
    guard is result == NULL, with a greater one it is 0 < replicas: either way the guard
    does not change, because the function returns as soon as it finds a live bucket
    (after adding it to the list result, which is then lost: not modelled). *)
Fixpoint ring_loop (fuel : nat) (r : ring) (p : option addr) : res answer :=
  match fuel with
  | O => NoFuel
  | S fuel =>
    do p <- match p with Some a => Ok (Some a) | None => fwd (rbuckets r) HDR 0 end;
    do a <- orUB p;
    do n <- node (rbuckets r) a;
    do st <- get_live_field r (sval n);
    if st =? BUCKET_LIVE then Ok (Bucket (sval n))
    else do q <- fwd (rbuckets r) a 0; ring_loop fuel r q
  end.

(** backend/hash_ring.c:138-185 get_buckets_for_object. *)
Definition get_buckets_for_object (fuel : nat) (r : ring) (object_id factor : Z) : res answer :=
  let replicas := if factor <? rlive r then factor else rlive r in
  if replicas =? 0 then Ok Null
  else do p <- search_higher (rbuckets r) (place object_id);
       if (1 <? factor) && negb (0 <? replicas) then Ok (Set_of [])
       else ring_loop fuel r p.

(** backend/client_api.c:652-689 add_rts_to_membership: a server (the runtime system of
    some host) announces its status.  The list of known servers, which is keyed by
    address, is [rmem] here: a server's key is computed from its address (get_node_id)
    and distinct servers are taken to have distinct keys. *)
Fixpoint find_key (mem : list (Z * Z)) (k i : Z) : option Z :=
  match mem with
  | [] => None
  | s :: mem => if fst s =? k then Some i else find_key mem k (i + 1)
  end.
Definition add_rts_to_membership (r : ring) (key status seed : Z) : res (ring * Z * Z) :=
  match find_key (rmem r) key 0 with
  | Some b => do r1 <- put_status r b status; Ok (r1, seed, -1)
  | None => let '(r1, b) := new_bucket r key status in
            do t <- add_bucket r1 b seed;
            let '(r2, seed, st) := t in
            if st =? 0 then Ok (r2, seed, 0) else UB    (* assert(status == 0) *)
  end.

(** Calls on a ring; a bucket that is returned is shown by its key. *)
Inductive rop :=
| RAdd (id status : Z)            (* allocate a bucket and add it *)
| RSet (id status : Z)
| RStatus (id : Z)                (* get_bucket_status on a bucket with that key *)
| RLocate (object_id factor : Z).

Inductive rout := RInt (z : Z) | RAns (a : answer).

Definition rexec (r : ring) (seed : Z) (o : rop) : res (ring * Z * rout) :=
  match o with
  | RAdd id st => let '(r1, b) := new_bucket r id st in
                  do t <- add_bucket r1 b seed;
                  let '(r2, s, z) := t in Ok (r2, s, RInt z)
  | RSet id st => do t <- set_bucket_status r id st;
                  let '(r1, z) := t in Ok (r1, seed, RInt z)
  | RStatus id => let '(r1, b) := new_bucket r id BUCKET_LIVE in
                  do z <- get_bucket_status r1 b; Ok (r1, seed, RInt z)
  | RLocate x f => do a <- get_buckets_for_object (2 * snext (rbuckets r) + 2) r x f;
                   match a with
                   | Bucket b => do k <- get_key r b; Ok (r, seed, RAns (Bucket k))
                   | _ => Ok (r, seed, RAns a)
                   end
  end.

Fixpoint rexec_all (r : ring) (seed : Z) (os : list rop) : res (ring * Z * list rout) :=
  match os with
  | [] => Ok (r, seed, [])
  | o :: os => do t <- rexec r seed o;
               let '(r1, s1, x) := t in
               do t2 <- rexec_all r1 s1 os;
               let '(r2, s2, xs) := t2 in Ok (r2, s2, x :: xs)
  end.

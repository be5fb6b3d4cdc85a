(** Model of base/rts/netstring.c (deps/libnetstring/netstring.c is the same but for the
    allocator) and of the loop that reads requests from the monitor socket (base/rts/rts.c,
    backend/actondb.c).

    A buffer is the list of its bytes; reading outside of it is undefined behaviour.
    Simplifications: bytes are 0..255 (the code passes a plain char to isdigit, which the C libraries
    accept for negative values); memory allocation succeeds; buffers are shorter than 2^63 bytes, so that
    the int i and the size_t sums do not overflow. *)
From Verif Require Import Base M_Bigint.
Local Open Scope Z_scope.

(** netstring.h:20-25: the error codes. *)
Definition NS_TOO_LONG : Z := -1.
Definition NS_NO_COLON : Z := -2.
Definition NS_TOO_SHORT : Z := -3.
Definition NS_NO_COMMA : Z := -4.
Definition NS_LEADING_ZERO : Z := -5.
Definition NS_NO_LENGTH : Z := -6.

Definition isdigit (c : Z) : bool := (48 <=? c) && (c <=? 57).

(** What a call does: an error code, or success with the start and the length of the string in the
    buffer, and the new values of *pbuffer (as an offset) and *pbuffer_length. *)
Inductive nsret := NsErr (code : Z) | NsOk (start len next remaining : Z).

(** netstring.c:53-58: the loop over the digits; i and len so far.  It is left at i = 9 at the latest. *)
Fixpoint ns_digits (fuel : nat) (buf : list Z) (i len : Z) : res (Z + Z * Z) :=
  match fuel with
  | O => NoFuel
  | S f =>
      if i <? zlen buf then
        do c <- orUB (zget buf i);
        if isdigit c then
          if 9 <=? i then Ok (inl NS_TOO_LONG)
          else ns_digits f buf (i + 1) (len * 10 + (c - 48))
        else Ok (inr (i, len))
      else Ok (inr (i, len))
  end.

(** netstring.c:33-79 netstring_read, on the buffer *pbuffer of length *pbuffer_length. *)
Definition netstring_read (buf : list Z) : res nsret :=
  if zlen buf <? 3 then Ok (NsErr NS_TOO_SHORT)
  else
    do c0 <- orUB (zget buf 0);
    do lead <- (if c0 =? 48 then do c1 <- orUB (zget buf 1); Ok (isdigit c1) else Ok false);
    if lead then Ok (NsErr NS_LEADING_ZERO)
    else if negb (isdigit c0) then Ok (NsErr NS_NO_LENGTH)
    else
      do r <- ns_digits 11 buf 0 0;
      match r with
      | inl e => Ok (NsErr e)
      | inr (i, len) =>
          if zlen buf <=? i + len + 1 then Ok (NsErr NS_TOO_SHORT)
          else
            do c <- orUB (zget buf i);
            if negb (c =? 58) then Ok (NsErr NS_NO_COLON)
            else
              let i := i + 1 in
              do k <- orUB (zget buf (i + len));
              if negb (k =? 44) then Ok (NsErr NS_NO_COMMA)
              else Ok (NsOk i len (i + len + 1) (zlen buf - (i + len + 1)))
      end.

(** The bytes from an offset: what a pointer into the buffer and a length denote. *)
Definition sub_bytes (buf : list Z) (start len : Z) : list Z := firstn (Z.to_nat len) (skipn (Z.to_nat start) buf).

(** netstring.c:96-109 netstring_list_count: the return code and the count.  rc is not set if the size is 0:
    its use is undefined.  The fuel bounds the iterations. *)
Fixpoint list_count_loop (fuel : nat) (buf : list Z) (rc : option Z) (count : Z) : res (Z * Z) :=
  match fuel with
  | O => NoFuel
  | S f =>
      let finish rc := if (rc =? NS_NO_LENGTH) || (rc =? NS_TOO_SHORT) then Ok (0, count) else Ok (rc, count) in
      if 0 <? zlen buf then
        do r <- netstring_read buf;
        match r with
        | NsErr e => finish e
        | NsOk _ _ next remaining => list_count_loop f (sub_bytes buf next remaining) (Some 0) (count + 1)
        end
      else match rc with None => UB | Some rc => finish rc end
  end.
Definition netstring_list_count (buf : list Z) : res (Z * Z) := list_count_loop (S (length buf)) buf None 0.

(** netstring.c:82-93 netstring_list_size: the return code and the total. *)
Fixpoint list_size_loop (fuel : nat) (buf : list Z) (rc : option Z) (size : Z) : res (Z * Z) :=
  match fuel with
  | O => NoFuel
  | S f =>
      let finish rc := if (rc =? NS_NO_LENGTH) || (rc =? NS_TOO_SHORT) then Ok (0, size - zlen buf) else Ok (rc, size - zlen buf) in
      if 0 <? zlen buf then
        do r <- netstring_read buf;
        match r with
        | NsErr e => finish e
        | NsOk _ _ next remaining => list_size_loop f (sub_bytes buf next remaining) (Some 0) size
        end
      else match rc with None => UB | Some rc => finish rc end
  end.
Definition netstring_list_size (buf : list Z) : res (Z * Z) := list_size_loop (S (length buf)) buf None (zlen buf).

(** netstring.c:112-119 numdigits. *)
Definition numdigits (len : Z) : Z :=
  let '(n, len) := (1, len) in
  let '(n, len) := if 100000000 <=? len then (n + 8, len / 100000000) else (n, len) in
  let '(n, len) := if 10000 <=? len then (n + 4, len / 10000) else (n, len) in
  let '(n, len) := if 100 <=? len then (n + 2, len / 100) else (n, len) in
  if 10 <=? len then n + 1 else n.

(** netstring.c:123-125 netstring_buffer_size. *)
Definition netstring_buffer_size (n : Z) : Z := numdigits n + n + 2.

(** strlen of a block of memory: undefined if there is no byte 0. *)
Fixpoint strlen (m : list Z) : res Z :=
  match m with
  | [] => UB
  | c :: r => if c =? 0 then Ok 0 else do n <- strlen r; Ok (n + 1)
  end.

(** Writes bytes at an offset of a block; outside of it: undefined. *)
Definition write_at (m : list Z) (off : Z) (s : list Z) : res (list Z) := orUB (blit m off s 0 (zlen s)).

(** netstring.c:131-164 netstring_add_ex: the block *netstring (None: the pointer is 0), and the bytes data.
    Returns the new block and the size.  New memory is filled with g (arbitrary bytes). *)
Definition netstring_add_ex (g : nat -> Z) (old : option (list Z)) (data : list Z) : res (list Z * Z) :=
  let len := zlen data in
  let num_len := numdigits len in
  let size_next := num_len + len + 2 in
  do p <- match old with
          | None => Ok (map g (seq 0 (Z.to_nat (size_next + 1))), 0)
          | Some m => do k <- strlen m;
                      let want := Z.to_nat (k + size_next + 1) in
                      Ok (firstn want m ++ map g (seq 0 (want - length m)), k)
          end;
  let '(m, size_prev) := p in
  if len =? 0 then
    do m <- write_at m size_prev [48; 58; 44; 0]; Ok (m, size_prev + size_next)
  else
    do m <- write_at m size_prev (sprintf_lu len ++ [58; 0]);
    let ptr := size_prev + num_len + 1 in
    do m <- write_at m ptr data;
    let ptr := ptr + len in
    do m <- write_at m ptr [44];
    do m <- write_at m (ptr + 1) [0];
    Ok (m, size_prev + size_next).

(** Adding one string after another. *)
Fixpoint add_all (g : nat -> Z) (old : option (list Z)) (size : Z) (l : list (list Z)) : res (option (list Z) * Z) :=
  match l with
  | [] => Ok (old, size)
  | d :: r => do x <- netstring_add_ex g old d; let '(m, n) := x in add_all g (Some m) n r
  end.

(** * The monitor socket *)

(** rts.c:2237-2247, actondb.c:2902-2910: the inner loop: from the buf_used bytes at buf_base, requests are read until
    an error or until nothing is left.  The requests and the bytes left. *)
Fixpoint mon_requests (fuel : nat) (buf : list Z) : res (list (list Z) * list Z) :=
  match fuel with
  | O => NoFuel
  | S f =>
      if zlen buf =? 0 then Ok ([], buf)
      else
        do r <- netstring_read buf;
        match r with
        | NsErr _ => Ok ([], buf)
        | NsOk start len next remaining =>
            do x <- mon_requests f (sub_bytes buf next remaining);
            let '(l, rest) := x in Ok (sub_bytes buf start len :: l, rest)
        end
  end.

(** rts.c:2230: rbuf has 64 bytes. *)
Definition mon_size : Z := 64.

(** rts.c:2233-2291: what the socket delivers, recv by recv.  A recv with no room left asks for 0 bytes and returns
    0, which ends the connection: the data not yet received is never read.  A chunk longer than the room is cut:
    the rest comes with the next recv.
    The requests handled, and the bytes in the buffer at the end. *)
Fixpoint mon_loop (fuel : nat) (used : list Z) (chunks : list (list Z)) : res (list (list Z)) :=
  match fuel with
  | O => NoFuel
  | S f =>
      match chunks with
      | [] => Ok []
      | c :: more =>
          let room := mon_size - zlen used in
          if room <=? 0 then Ok []
          else if zlen c =? 0 then mon_loop f used more
          else
            let got := firstn (Z.to_nat room) c in
            let left := skipn (Z.to_nat room) c in
            let buf := used ++ got in
            do x <- mon_requests (S (length buf)) buf;
            let '(l, rest) := x in
            do ls <- mon_loop f rest (left :: more);
            Ok (l ++ ls)
      end
  end.

(** memcmp of len bytes equal to 0: reads both blocks from the start, and stops at the first difference at the
    latest (reading on would be undefined at the end of a block). *)
Fixpoint memcmp_eq (a b : list Z) (len : nat) : res bool :=
  match len with
  | O => Ok true
  | S k => match a, b with
           | x :: a', y :: b' => if x =? y then memcmp_eq a' b' k else Ok false
           | _, _ => UB
           end
  end.

(** The answers the server gives: rts.c:2249-2290, without database. *)
Inductive answer := ActorsJson | StatsJson.
Definition lit_actors : list Z := [97; 99; 116; 111; 114; 115; 0].
Definition lit_wts : list Z := [87; 84; 83; 0].
Definition mon_answers (req : list Z) : res (list answer) :=
  do a <- memcmp_eq req lit_actors (length req);
  do w <- memcmp_eq req lit_wts (length req);
  Ok ((if a then [ActorsJson] else []) ++ (if w then [StatsJson] else [])).

(** A connection: from an empty buffer. *)
Definition mon_run (chunks : list (list Z)) : res (list (list Z)) := mon_loop (S (length (concat chunks) + length chunks)) [] chunks.

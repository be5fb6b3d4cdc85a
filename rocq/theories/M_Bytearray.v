(** Model of the mutable bytearray of base/builtin/str.c:1775-2861: representation,
    sequence operations, iteration and comparisons. *)
From Verif Require Import Base M_Slice S_Slice M_List S_List S_Bytearray.

(** struct B_bytearray (base/builtin/str.h): [b_buf] is the block str points to, one
    cell per byte, [None] for a byte that was never written; [b_n] is nbytes and [b_cap]
    is capacity, both 32-bit ints.  The block has capacity+1 cells. *)
Record ba := mkBa { b_buf : list (option Z); b_n : Z; b_cap : Z }.

(** base/builtin/str.c:333-339 NEW_UNFILLED_BYTEARRAY.  A negative size asks malloc for
    an impossible size or writes in front of the block: modelled as UB. *)
Definition ba_unfilled (n : Z) : res ba :=
  if n <? 0 then UB
  else Ok (mkBa (repeat None (Z.to_nat n) ++ [Some 0]) n n).

(** base/builtin/str.c:1863-1870 __init__ from a bytes object with the bytes [xs], whose
    block ends with a NUL (str.c:341-347); the NUL is copied too. *)
Definition ba_init (xs : list Z) : ba := mkBa (map Some xs ++ [Some 0]) (zlen xs) (zlen xs).

(** base/builtin/str.c:1831-1846 expand_bytearray.  The doubling loop is the one of
    list.c ([double_until]); acton_realloc keeps the old cells. *)
Definition ba_expand (b : ba) (n : Z) : res ba :=
  if b_n b + n <=? b_cap b then Ok b
  else
    let c0 := if b_cap b =? 0 then 1 else b_cap b in
    match double_until 32 c0 (b_n b + n) with
    | None => UB
    | Some c =>
        Ok (mkBa (firstn (Z.to_nat (c + 1)) (b_buf b)
                  ++ repeat None (Z.to_nat (c + 1) - length (b_buf b))) (b_n b) c)
    end.

(** base/builtin/str.c:1848-1854 copy. *)
Definition ba_copy (b : ba) : res ba :=
  do r <- ba_unfilled (b_n b);
  do d <- orUB (blit (b_buf r) 0 (b_buf b) 0 (b_n b));
  Ok (mkBa d (b_n b) (b_cap r)).

(** base/builtin/str.c:2680-2686 __getitem__; the index stays a 64-bit integer. *)
Definition ba_getitem (b : ba) (n : Z) : res Z :=
  let ix0 := if n <? 0 then b_n b + n else n in
  if (ix0 <? 0) || (b_n b <=? ix0) then Exn IndexError
  else cell (b_buf b) ix0.

(** base/builtin/str.c:2688-2698 __setitem__. *)
Definition ba_setitem (b : ba) (n v : Z) : res ba :=
  let ix0 := if n <? 0 then b_n b + n else n in
  if (ix0 <? 0) || (b_n b <=? ix0) then Exn IndexError
  else if (v <? 0) || (255 <? v) then Exn ValueError
  else
    do d <- orUB (zset (b_buf b) ix0 (Some v));
    Ok (mkBa d (b_n b) (b_cap b)).

(** base/builtin/str.c:2700-2709 __delitem__.  The terminating NUL is not moved. *)
Definition ba_delitem (b : ba) (n : Z) : res ba :=
  let ix0 := if n <? 0 then b_n b + n else n in
  if (ix0 <? 0) || (b_n b <=? ix0) then Exn IndexError
  else
    do d <- orUB (memmove (b_buf b) ix0 (ix0 + 1) (b_n b - (ix0 + 1)));
    Ok (mkBa d (b_n b - 1) (b_cap b)).

(** base/builtin/str.c:2711-2722 insert. *)
Definition ba_insert (b : ba) (n v : Z) : res ba :=
  let ln := b_n b in
  do e <- ba_expand b 1;
  let ix0 := if n <? 0 then (if ln + n <? 0 then 0 else ln + n)
             else (if n <? ln then n else ln) in
  do d1 <- orUB (memmove (b_buf e) (ix0 + 1) ix0 (ln - ix0 + 1));
  do d2 <- orUB (zset d1 ix0 (Some (Z.land v 255)));
  Ok (mkBa d2 (ln + 1) (b_cap e)).

(** base/builtin/str.c:2724-2729 append. *)
Definition ba_append (b : ba) (v : Z) : res ba :=
  do e <- ba_expand b 1;
  do d1 <- orUB (zset (b_buf e) (b_n e) (Some (Z.land v 255)));
  do d2 <- orUB (zset d1 (b_n e + 1) (Some 0));
  Ok (mkBa d2 (b_n e + 1) (b_cap e)).

(** base/builtin/str.c:2731-2739 reverse; the swap loop is the one of list.c:521-525. *)
Definition ba_reverse (b : ba) : res ba :=
  do d <- reverse_loop (Z.to_nat (b_n b / 2)) 0 (b_n b) (b_buf b);
  Ok (mkBa d (b_n b) (b_cap b)).

(** base/builtin/str.c:2754-2758, the copying loop of __getslice__: [t] is a long. *)
Fixpoint ba_getslice_loop (n : nat) (i t step : Z) (b r : ba) : res ba :=
  match n with
  | O => Ok r
  | S n' =>
      do w <- ba_getitem b t;
      do r' <- ba_setitem r i w;
      ba_getslice_loop n' (i + 1) (wrapS 64 (t + step)) step b r'
  end.

(** base/builtin/str.c:2747-2760 __getslice__. *)
Definition ba_getslice (b : ba) (s : slice) : res ba :=
  do q <- normalize_slice s (b_n b);
  let '(start, _, step, slen) := q in
  do r <- ba_unfilled slen;
  ba_getslice_loop (Z.to_nat slen) 0 start step b r.

(** base/builtin/str.c:2767-2768, the loop that collects the new bytes of __setslice__.
    The iterable yields the values [ys] and then, like every iterator of the library,
    raises StopIteration; nothing catches it. *)
Fixpoint ba_collect (ys : list Z) (other : ba) : res ba :=
  match ys with
  | [] => Exn StopIteration
  | y :: ys' => do o <- ba_append other y; ba_collect ys' o
  end.

(** base/builtin/str.c:2762-2803 __setslice__; the loops are those of list.c:477-480 and
    :497-498. *)
Definition ba_setslice (b : ba) (s : slice) (ys : list Z) : res ba :=
  let ln := b_n b in
  do o0 <- ba_unfilled 0;
  do other <- ba_collect ys o0;
  let olen := b_n other in
  do q <- normalize_slice s ln;
  let '(start, _, step, slen) := q in
  if negb (step =? 1) && negb (olen =? slen) then Exn ValueError
  else
    let copy := if olen <=? slen then olen else slen in
    do d <- setslice_loop (Z.to_nat copy) 0 (b_buf b) (b_buf other) (wrapS 32 start) step;
    if olen =? slen then Ok (mkBa d ln (b_cap b))
    else if olen <? slen then
      do d2 <- orUB (memmove d (start + copy) (start + slen) (ln - (start + slen)));
      Ok (mkBa d2 (ln - (slen - olen)) (b_cap b))
    else
      do e <- ba_expand (mkBa d ln (b_cap b)) (olen - slen);
      let rest := ln - (start + copy) in
      let incr := olen - slen in
      do d3 <- orUB (memmove (b_buf e) (start + copy + incr) (start + copy) rest);
      do d4 <- setslice_tail (Z.to_nat (olen - copy)) copy start d3 (b_buf other);
      Ok (mkBa d4 (ln + incr) (b_cap e)).

(** base/builtin/str.c:2805-2819 __delslice__; the loop is the one of list.c:510-513. *)
Definition ba_delslice (b : ba) (s : slice) : res ba :=
  do q <- normalize_slice s (b_n b);
  let '(start, _, step, slen) := q in
  if slen =? 0 then Ok b
  else
    do dp <- delslice_loop (Z.to_nat (slen - 1)) 0 start step (b_buf b);
    let '(d, p) := dp in
    do d' <- orUB (memmove d p (p + slen) (b_n b - 1 - (start + step * (slen - 1))));
    do d'' <- orUB (zset d' (b_n b - slen) (Some 0));
    Ok (mkBa d'' (b_n b - slen) (b_cap b)).

(** base/builtin/str.c:2662-2671 __contains__: the value is converted to unsigned char. *)
Fixpoint ba_contains_from (n : nat) (i c : Z) (d : list (option Z)) : res bool :=
  match n with
  | O => Ok false
  | S n' =>
      do x <- cell d i;
      if x =? c then Ok true else ba_contains_from n' (i + 1) c d
  end.
Definition ba_contains (b : ba) (v : Z) : res bool :=
  ba_contains_from (Z.to_nat (b_n b)) 0 (wrapU 8 v) (b_buf b).

(** base/builtin/str.c:2839-2845 __add__; nbytes is an int. *)
Definition ba_add (a b : ba) : res ba :=
  do r <- ba_unfilled (wrapS 32 (b_n a + b_n b));
  do d1 <- orUB (blit (b_buf r) 0 (b_buf a) 0 (b_n a));
  do d2 <- orUB (blit d1 (b_n a) (b_buf b) 0 (b_n b));
  Ok (mkBa d2 (b_n r) (b_cap r)).

(** base/builtin/str.c:2851-2861 __mul__; the factor is converted to an int; the copying
    loop is the one of list.c:315-316. *)
Definition ba_mul (a : ba) (n : Z) : res ba :=
  let nval := wrapS 32 n in
  if nval <=? 0 then ba_unfilled 0
  else
    do r <- ba_unfilled (wrapS 32 (b_n a * nval));
    do d <- mul_loop (Z.to_nat nval) 0 (b_n a) (b_buf r) (b_buf a);
    Ok (mkBa d (b_n r) (b_cap r)).

(** base/builtin/str.c:2615-2619, one call of the iterator's __next__; its state is the
    bytearray itself and the position [nxt]. *)
Definition baiter_next (b : ba) (nxt : Z) : res (Z * Z) :=
  if b_n b <=? nxt then Exn StopIteration
  else do x <- cell (b_buf b) nxt; Ok (x, nxt + 1).

(** A for loop over the bytearray: __next__ until StopIteration. *)
Fixpoint ba_iterate (fuel : nat) (b : ba) (nxt : Z) : res (list Z) :=
  match fuel with
  | O => NoFuel
  | S f => match baiter_next b nxt with
           | Ok (x, nxt') => do r <- ba_iterate f b nxt'; Ok (x :: r)
           | Exn StopIteration => Ok []
           | Exn e => Exn e
           | UB => UB
           | NoFuel => NoFuel
           end
  end.
Definition ba_contents (b : ba) : res (list Z) := ba_iterate (S (Z.to_nat (b_n b))) b 0.

(** base/builtin/str.c:2741-2745 __reversed__ and a for loop over the result. *)
Definition ba_reversed (b : ba) : res (list Z) :=
  do c <- ba_copy b; do r <- ba_reverse c; ba_contents r.

(** strcmp of the C library on two blocks: bytes are compared as unsigned char up to the
    first difference or a common NUL.  Reading past a block or an unwritten byte is UB.
    The result is -1, 0 or 1 (only its sign is used). *)
Fixpoint strcmp (a b : list (option Z)) : res Z :=
  match a, b with
  | Some x :: a', Some y :: b' =>
      if x =? y then (if x =? 0 then Ok 0 else strcmp a' b')
      else Ok (if x <? y then -1 else 1)
  | _, _ => UB
  end.

(** base/builtin/str.c:2589-2611, the six comparisons. *)
Definition ba_cmp (o : cmp) (a b : ba) : res bool :=
  do c <- strcmp (b_buf a) (b_buf b);
  Ok (match o with
      | CEq => c =? 0 | CNe => negb (c =? 0) | CLt => c <? 0
      | CLe => c <=? 0 | CGt => 0 <? c | CGe => 0 <=? c
      end).

(** ** The API of the specification, run on the model *)

Definition ba_obs (r : res ba) : res (lval Z) := do x <- r; mapr VSeq (ba_contents x).

(** The state after a mutating call; a call that raises changes nothing. *)
Definition ba_upd (b : ba) (r : res ba) : res (lval Z) * ba :=
  match r with
  | Ok b' => (Ok VUnit, b')
  | Exn e => (Exn e, b)
  | UB => (UB, b)
  | NoFuel => (NoFuel, b)
  end.

(** One call.  Len: str.c:2833-2835; Bool: str.c:1872-1874. *)
Definition ba_step (b : ba) (op : bop) : res (lval Z) * ba :=
  match op with
  | BAppend v => ba_upd b (ba_append b v)
  | BInsert n v => ba_upd b (ba_insert b n v)
  | BSetItem n v => ba_upd b (ba_setitem b n v)
  | BDelItem n => ba_upd b (ba_delitem b n)
  | BDelSlice s => ba_upd b (ba_delslice b s)
  | BReverse => ba_upd b (ba_reverse b)
  | BGetItem n => (mapr VElem (ba_getitem b n), b)
  | BGetSlice s => (ba_obs (ba_getslice b s), b)
  | BLen => (Ok (VInt (b_n b)), b)
  | BTrue => (Ok (VBool (0 <? b_n b)), b)
  | BContains v => (mapr VBool (ba_contains b v), b)
  | BIter => (mapr VSeq (ba_contents b), b)
  | BReversed => (mapr VSeq (ba_reversed b), b)
  | BCopy => (ba_obs (ba_copy b), b)
  | BAdd ys => (ba_obs (ba_add b (ba_init ys)), b)
  | BMul n => (ba_obs (ba_mul b n), b)
  end.

Fixpoint ba_run (b : ba) (ops : list bop) : list (res (lval Z)) * ba :=
  match ops with
  | [] => ([], b)
  | op :: ops' => let '(o, b1) := ba_step b op in
                  let '(os, b2) := ba_run b1 ops' in (o :: os, b2)
  end.

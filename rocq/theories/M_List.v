(** Model of base/builtin/list.c: the representation of lists and their methods. *)
From Verif Require Import Base M_Slice.

Section ListModel.
Context {A : Type}.

(** struct B_list (base/builtin/list.h:2-7).  [data] is the allocated array, one
    cell per $WORD, [None] for a NULL or uninitialised cell.  [len] and [cap] are
    32-bit ints.  Bounds of accesses are checked against the array [data], not
    against [cap]. *)
Record clist := mkList { data : list (option A); len : Z; cap : Z }.

(** Values returned by list methods. *)
Inductive lout := OUnit | OElem (a : A) | OInt (z : Z) | OBool (b : bool) | OList (l : clist).

(** base/builtin/list.c:46-67 B_listD_new.  Negative capacity ends the process
    (exit), modelled as UB; allocation failure is not modelled. *)
Definition list_new (capacity : Z) : res clist :=
  if capacity <? 0 then UB
  else Ok (mkList (repeat None (Z.to_nat capacity)) 0 capacity).

(** base/builtin/list.c:22-23, the doubling loop on a 32-bit int (-fwrapv).  32
    doublings of an int reach 0, after which the loop can only spin: [None] is
    non-termination. *)
Fixpoint double_until (fuel : nat) (c need : Z) : option Z :=
  if need <=? c then Some c
  else match fuel with
       | O => None
       | S f => double_until f (wrapS 32 (2 * c)) need
       end.

(** base/builtin/list.c:18-32 expand.  acton_realloc keeps the old cells. *)
Definition expand (l : clist) (n : Z) : res clist :=
  if len l + n <=? cap l then Ok l
  else
    let c0 := if cap l =? 0 then 1 else cap l in
    match double_until 32 c0 (len l + n) with
    | None => UB
    | Some c =>
        Ok (mkList (firstn (Z.to_nat c) (data l)
                    ++ repeat None (Z.to_nat c - length (data l))) (len l) c)
    end.

(** base/builtin/list.c:34-43 shrink. *)
Definition shrink (l : clist) : res clist :=
  if (20 <? cap l) && (2 * len l <? cap l)
  then
    let c := len l in
    do d <- orUB (blit (repeat None (Z.to_nat c)) 0 (data l) 0 c);
    Ok (mkList d (len l) c)
  else Ok l.

(** Read an initialised cell. *)
Definition cell (d : list (option A)) (i : Z) : res A :=
  match zget d i with
  | Some (Some a) => Ok a
  | _ => UB
  end.

(** base/builtin/list.c:155-162 B_listD_copy. *)
Definition list_copy (l : clist) : res clist :=
  do r <- list_new (len l);
  if 0 <? len l then
    do d <- orUB (blit (data r) 0 (data l) 0 (len l));
    Ok (mkList d (len l) (cap r))
  else Ok (mkList (data r) (len l) (cap r)).

(** base/builtin/list.c:164-169 B_listD_clear. *)
Definition list_clear (l : clist) : clist := mkList [] 0 0.

(** base/builtin/list.c:171-178 B_listD_extend with [other] a different object. *)
Definition list_extend (l other : clist) : res clist :=
  if len other =? 0 then Ok l
  else
    do e <- expand l (len other);
    do d <- orUB (blit (data e) (len e) (data other) 0 (len other));
    Ok (mkList d (len e + len other) (cap e)).

(** base/builtin/list.c:171-178 B_listD_extend with [other] == [lst]: after expand
    both pointers refer to the new array. *)
Definition list_extend_self (l : clist) : res clist :=
  if len l =? 0 then Ok l
  else
    do e <- expand l (len l);
    do d <- orUB (blit (data e) (len e) (data e) 0 (len e));
    Ok (mkList d (len e + len e) (cap e)).

(** base/builtin/list.c:180-199 B_listD_pop; the index is a 64-bit long. *)
Definition list_pop (l : clist) (i : option Z) : res (A * clist) :=
  let ix := match i with None => len l - 1 | Some i => i end in
  let ix0 := if ix <? 0 then len l + ix else ix in
  if (ix0 <? 0) || (len l <=? ix0) then Exn IndexError
  else
    do r <- cell (data l) ix0;
    do d1 <- orUB (memmove (data l) ix0 (ix0 + 1) (len l - (ix0 + 1)));
    do d2 <- orUB (zset d1 (len l - 1) None);
    do s <- shrink (mkList d2 (len l - 1) (cap l));
    Ok (r, s).

(** base/builtin/list.c:547-551 append. *)
Definition list_append (l : clist) (x : A) : res clist :=
  do e <- expand l 1;
  do d <- orUB (zset (data e) (len e) (Some x));
  Ok (mkList d (len e + 1) (cap e)).

(** base/builtin/list.c:535-545 insert. *)
Definition list_insert (l : clist) (n : Z) (x : A) : res clist :=
  let ln := len l in
  do e <- expand l 1;
  let ix0 := if n <? 0 then (if ln + n <? 0 then 0 else ln + n)
             else (if n <? ln then n else ln) in
  do d1 <- orUB (memmove (data e) (ix0 + 1) ix0 (ln - ix0));
  do d2 <- orUB (zset d1 ix0 (Some x));
  Ok (mkList d2 (ln + 1) (cap e)).

(** base/builtin/list.c:393-396, :407-410, :418-421: the index is first converted
    to a 32-bit int ([int ix = n]), then normalised. *)
Definition norm_index (ln n : Z) : Z :=
  let ix := wrapS 32 n in
  if ix <? 0 then ln + ix else ix.

(** base/builtin/list.c:392-404 __getitem__. *)
Definition list_getitem (l : clist) (n : Z) : res A :=
  let ix0 := norm_index (len l) n in
  if (ix0 <? 0) || (len l <=? ix0) then Exn IndexError
  else cell (data l) ix0.

(** base/builtin/list.c:406-415 __setitem__. *)
Definition list_setitem (l : clist) (n : Z) (x : A) : res clist :=
  let ix0 := norm_index (len l) n in
  if (ix0 <? 0) || (len l <=? ix0) then Exn IndexError
  else
    do d <- orUB (zset (data l) ix0 (Some x));
    Ok (mkList d (len l) (cap l)).

(** base/builtin/list.c:417-431 __delitem__: an index outside the list is ignored. *)
Definition list_delitem (l : clist) (n : Z) : res clist :=
  let ix0 := norm_index (len l) n in
  if (ix0 <? 0) || (len l <=? ix0) then Ok l
  else
    do d1 <- orUB (memmove (data l) ix0 (ix0 + 1) (len l - (ix0 + 1)));
    do d2 <- orUB (zset d1 (len l - 1) None);
    shrink (mkList d2 (len l - 1) (cap l)).

(** base/builtin/list.c:444-447, the copy loop of __getslice__; [t] is an int64. *)
Fixpoint getslice_loop (n : nat) (src : list (option A)) (t step : Z) (acc : clist) : res clist :=
  match n with
  | O => Ok acc
  | S n' =>
      do x <- cell src t;
      do acc' <- list_append acc x;
      getslice_loop n' src (wrapS 64 (t + step)) step acc'
  end.

(** base/builtin/list.c:436-449 __getslice__. *)
Definition list_getslice (l : clist) (s : slice) : res clist :=
  do q <- normalize_slice s (len l);
  let '(start, _, step, slen) := q in
  do r <- list_new slen;
  getslice_loop (Z.to_nat slen) (data l) start step r.

(** base/builtin/list.c:477-480, element-wise copy of __setslice__; [t] is an int. *)
Fixpoint setslice_loop (n : nat) (i : Z) (d : list (option A)) (other : list (option A))
         (t step : Z) : res (list (option A)) :=
  match n with
  | O => Ok d
  | S n' =>
      do x <- cell other i;
      do d' <- orUB (zset d t (Some x));
      setslice_loop n' (i + 1) d' other (wrapS 32 (t + step)) step
  end.

(** base/builtin/list.c:497-498, the tail copy of __setslice__. *)
Fixpoint setslice_tail (n : nat) (i start : Z) (d other : list (option A)) : res (list (option A)) :=
  match n with
  | O => Ok d
  | S n' =>
      do x <- cell other i;
      do d' <- orUB (zset d (start + i) (Some x));
      setslice_tail n' (i + 1) start d' other
  end.

(** base/builtin/list.c:451-502 __setslice__; [other] is the list built from the
    iterable in lines 453-468. *)
Definition list_setslice (l : clist) (s : slice) (other : clist) : res clist :=
  let ln := len l in
  let olen := len other in
  do q <- normalize_slice s ln;
  let '(start, _, step, slen) := q in
  if negb (step =? 1) && negb (olen =? slen) then Exn ValueError
  else
    let copy := if olen <=? slen then olen else slen in
    do d <- setslice_loop (Z.to_nat copy) 0 (data l) (data other) (wrapS 32 start) step;
    if olen =? slen then Ok (mkList d ln (cap l))
    else if olen <? slen then
      do d2 <- orUB (memmove d (start + copy) (start + slen) (ln - (start + slen)));
      Ok (mkList d2 (ln - (slen - olen)) (cap l))
    else
      do e <- expand (mkList d ln (cap l)) (olen - slen);
      let rest := ln - (start + copy) in
      let incr := olen - slen in
      do d3 <- orUB (memmove (data e) (start + copy + incr) (start + copy) rest);
      do d4 <- setslice_tail (Z.to_nat (olen - copy)) copy start d3 (data other);
      Ok (mkList d4 (ln + incr) (cap e)).

(** base/builtin/list.c:510-513, the loop of __delslice__: [i] counts up from 0 to
    slen-2, [p] is the offset of the pointer p. *)
Fixpoint delslice_loop (n : nat) (i p step : Z) (d : list (option A))
  : res (list (option A) * Z) :=
  match n with
  | O => Ok (d, p)
  | S n' =>
      do d' <- orUB (memmove d p (p + i + 1) (step - 1));
      delslice_loop n' (i + 1) (p + (step - 1)) step d'
  end.

(** base/builtin/list.c:504-517 __delslice__. *)
Definition list_delslice (l : clist) (s : slice) : res clist :=
  do q <- normalize_slice s (len l);
  let '(start, _, step, slen) := q in
  if slen =? 0 then Ok l
  else
    do dp <- delslice_loop (Z.to_nat (slen - 1)) 0 start step (data l);
    let '(d, p) := dp in
    do d' <- orUB (memmove d p (p + slen) (len l - 1 - (start + step * (slen - 1))));
    Ok (mkList d' (len l - slen) (cap l)).

(** base/builtin/list.c:521-525, the swap loop of reverse. *)
Fixpoint reverse_loop (n : nat) (i ln : Z) (d : list (option A)) : res (list (option A)) :=
  match n with
  | O => Ok d
  | S n' =>
      do x <- orUB (zget d i);
      do y <- orUB (zget d (ln - 1 - i));
      do d1 <- orUB (zset d i y);
      do d2 <- orUB (zset d1 (ln - 1 - i) x);
      reverse_loop n' (i + 1) ln d2
  end.

(** base/builtin/list.c:519-527 reverse. *)
Definition list_reverse (l : clist) : res clist :=
  do d <- reverse_loop (Z.to_nat (len l / 2)) 0 (len l) (data l);
  Ok (mkList d (len l) (cap l)).

(** base/builtin/list.c:291-302 __add__. *)
Definition list_add (l other : clist) : res clist :=
  do r <- list_new (wrapS 32 (len l + len other));
  do d1 <- (if 0 <? len l then orUB (blit (data r) 0 (data l) 0 (len l)) else Ok (data r));
  do d2 <- (if 0 <? len other then orUB (blit d1 (len l) (data other) 0 (len other)) else Ok d1);
  Ok (mkList d2 (wrapS 32 (len l + len other)) (cap r)).

(** base/builtin/list.c:315-316, the copying loop of __mul__. *)
Fixpoint mul_loop (n : nat) (i ln : Z) (d src : list (option A)) : res (list (option A)) :=
  match n with
  | O => Ok d
  | S n' =>
      do d' <- orUB (blit d (i * ln) src 0 ln);
      mul_loop n' (i + 1) ln d' src
  end.

(** base/builtin/list.c:308-320 __mul__; the capacity argument of B_listD_new is an int. *)
Definition list_mul (l : clist) (n : Z) : res clist :=
  if (len l =? 0) || (n <=? 0) then list_new 0
  else
    do r <- list_new (wrapS 32 (len l * n));
    do d <- mul_loop (Z.to_nat n) 0 (len l) (data r) (data l);
    Ok (mkList d (wrapS 32 (len l * n)) (cap r)).

(** base/builtin/list.c:217-222 and :559-564, linear search from [i] below [stop]. *)
Fixpoint find_from (n : nat) (eqb : A -> A -> bool) (v : A) (i : Z) (d : list (option A))
  : res (option Z) :=
  match n with
  | O => Ok None
  | S n' =>
      do x <- cell d i;
      if eqb v x then Ok (Some i) else find_from n' eqb v (i + 1) d
  end.

(** base/builtin/list.c:201-225 index; start and stop are truncated to int. *)
Definition list_index (eqb : A -> A -> bool) (l : clist) (v : A) (start stop : option Z) : res Z :=
  let strt := match start with None => 0 | Some s => wrapS 32 s end in
  if strt <? 0 then Exn ValueError
  else if len l <? strt then Exn ValueError
  else
    do stp <- (match stop with
               | None => Ok (len l)
               | Some s => let s := wrapS 32 s in if s <=? strt then Exn ValueError else Ok s
               end);
    let stp := if len l <? stp then len l else stp in
    do r <- find_from (Z.to_nat (stp - strt)) eqb v strt (data l);
    match r with Some i => Ok i | None => Exn KeyError end.

(** base/builtin/list.c:227-236 count. *)
Fixpoint count_from (n : nat) (eqb : A -> A -> bool) (v : A) (i : Z) (d : list (option A)) : res Z :=
  match n with
  | O => Ok 0
  | S n' =>
      do x <- cell d i;
      do c <- count_from n' eqb v (i + 1) d;
      Ok ((if eqb v x then 1 else 0) + c)
  end.
Definition list_count (eqb : A -> A -> bool) (l : clist) (v : A) : res Z :=
  count_from (Z.to_nat (len l)) eqb v 0 (data l).

(** base/builtin/list.c:556-567 __contains__. *)
Definition list_contains (eqb : A -> A -> bool) (l : clist) (v : A) : res bool :=
  do r <- find_from (Z.to_nat (len l)) eqb v 0 (data l);
  Ok (match r with Some _ => true | None => false end).

(** base/builtin/list.c:327-331, the list iterator: one call of __next__. *)
Definition listiter_next (l : clist) (nxt : Z) : res (A * Z) :=
  if len l <=? nxt then Exn StopIteration
  else do x <- cell (data l) nxt; Ok (x, nxt + 1).

End ListModel.
Arguments clist : clear implicits.
Arguments lout : clear implicits.

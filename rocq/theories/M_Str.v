(** Strings: base/builtin/str.c.

    A str has a character count and a buffer of nbytes bytes followed by a byte 0.
    Pointers into a buffer are offsets; reading outside the buffer (terminator
    included) is [UB].  Lengths are C ints: a result whose length does not fit is
    [UB] here (in C it wraps). *)
From Verif Require Import Base M_Slice.

(** base/builtin/str.h:3-8 struct B_str. *)
Record str := Str { nchars : Z; sbytes : list Z }.
Definition nbytes (s : str) : Z := zlen (sbytes s).
Definition buf (s : str) : list Z := sbytes s ++ [0].

Definition rd (b : list Z) (i : Z) : res Z := orUB (zget b i).

(** memcpy(dst, b + p, n) as the list of bytes copied. *)
Definition copy (b : list Z) (p n : Z) : res (list Z) :=
  if (0 <=? p) && (0 <=? n) && (p + n <=? zlen b)
  then Ok (firstn (Z.to_nat n) (skipn (Z.to_nat p) b)) else UB.

(** base/builtin/str.c:324-331 NEW_UNFILLED_STR and the memcpy that fills it. *)
Definition new_str (nch : Z) (bytes : list Z) : res str :=
  if (nch <=? zlen bytes) && (zlen bytes <? 2 ^ 31) then Ok (Str nch bytes) else UB.

Definition null_str : str := Str 0 [].
Definition isascii (s : str) : bool := nchars s =? nbytes s.

(** base/builtin/str.c:445-454. *)
Definition byte_length2 (c : Z) : Z :=
  if c <? 128 then 1 else if c <? 224 then 2 else if c <? 240 then 3 else 4.

(** base/builtin/str.c:485-496 char_no; the loop reads at most [i] characters. *)
Fixpoint char_no_loop (fuel : nat) (b : list Z) (i k r : Z) : res Z :=
  if k <? i then
    match fuel with
    | O => NoFuel
    | S fuel => do c <- rd b k; char_no_loop fuel b i (k + byte_length2 c) (r + 1)
    end
  else Ok r.
Definition char_no (s : str) (i : Z) : res Z :=
  if nbytes s =? nchars s then Ok i else char_no_loop (Z.to_nat i) (buf s) i 0 0.

(** base/builtin/str.c:498-512 skip_chars. *)
Fixpoint skip_fwd (n : nat) (b : list Z) (p : Z) : res Z :=
  match n with
  | O => Ok p
  | S n => do c <- rd b p; skip_fwd n b (p + byte_length2 c)
  end.
(** line 507-508: res--; while ( *res >> 6 == 2) res--; *)
Fixpoint back_one (fuel : nat) (b : list Z) (p : Z) : res Z :=
  match fuel with
  | O => NoFuel
  | S fuel => do c <- rd b p; if Z.shiftr c 6 =? 2 then back_one fuel b (p - 1) else Ok p
  end.
Fixpoint skip_back (n : nat) (b : list Z) (p : Z) : res Z :=
  match n with
  | O => Ok p
  | S n => do q <- back_one (S (length b)) b (p - 1); skip_back n b q
  end.
Definition skip_chars (b : list Z) (start n : Z) (ascii : bool) : res Z :=
  if ascii then Ok (start + n)
  else if 0 <=? n then skip_fwd (Z.to_nat n) b start
  else skip_back (Z.to_nat (- n)) b start.

(** base/builtin/str.c:526-536 get_index; the index is converted to int. *)
Definition get_index (i nch : Z) : res Z :=
  let i := wrapS 32 i in
  if 0 <=? i then (if i <? nch then Ok i else Exn IndexError)
  else if - nch <=? i then Ok (nch + i) else Exn IndexError.

(** base/builtin/str.c:542-570 fix_start_end; None stands for the result -1. *)
Definition fix_end (nch : Z) (e : option Z) : Z :=
  match e with
  | None => nch
  | Some e => let en := wrapS 32 e in
              let en := if nch <? en then nch else if en <? 0 then en + (nch + 1) else en in
              if en <? 0 then 0 else en
  end.
Definition fix_start_end (nch : Z) (st en : option Z) : option (Z * Z) :=
  match st with
  | None => Some (0, fix_end nch en)
  | Some s => let s := wrapS 32 s in
              if nch <? s then None
              else let s := if s <? 0 then s + (nch + 1) else s in
                   Some (if s <? 0 then 0 else s, fix_end nch en)
  end.

(** base/builtin/str.c:573-583 mk_char; the loop copies the bytes of the character. *)
Definition mk_char (b : list Z) (p : Z) : res str :=
  do c <- rd b p;
  if (0 <? c) && (c <? 128) then Ok (Str 1 [c])
  else do bs <- copy b p (byte_length2 c); new_str 1 bs.

(** base/builtin/str.c:585-591 equal_bytes. *)
Fixpoint equal_bytes (n : nat) (b : list Z) (p : Z) (b' : list Z) (q : Z) : res bool :=
  match n with
  | O => Ok true
  | S n => do x <- rd b p; do y <- rd b' q;
           if x =? y then equal_bytes n b (p + 1) b' (q + 1) else Ok false
  end.

(** base/builtin/str.c:614-632 bmh: text at offset [p] of [t], pattern [pt].  The skip
    table is a function of the byte. *)
Definition upd (f : Z -> Z) (c v : Z) : Z -> Z := fun x => if x =? c then v else f x.
Fixpoint fill_skip (n : nat) (pt : list Z) (pbytes i : Z) (sk : Z -> Z) : res (Z -> Z) :=
  match n with
  | O => Ok sk
  | S n => do c <- rd pt i; fill_skip n pt pbytes (i + 1) (upd sk c (pbytes - i - 1))
  end.
(** lines 625-627; [n] is j + 1. *)
Fixpoint cmp_back (n : nat) (t : list Z) (p : Z) (pt : list Z) (i j : Z) : res (Z * Z) :=
  match n with
  | O => Ok (i, j)
  | S n => do a <- rd t (p + i); do b <- rd pt j;
           if a =? b then cmp_back n t p pt (i - 1) (j - 1) else Ok (i, j)
  end.
Fixpoint bmh_loop (fuel : nat) (t : list Z) (p : Z) (pt : list Z) (tbytes pbytes k : Z) (sk : Z -> Z) : res Z :=
  if k <? tbytes then
    match fuel with
    | O => NoFuel
    | S fuel =>
        do (i, j) <- cmp_back (Z.to_nat pbytes) t p pt k (pbytes - 1);
        if j =? -1 then Ok (i + 1)
        else do c <- rd t (p + k); bmh_loop fuel t p pt tbytes pbytes (k + sk c) sk
    end
  else Ok (-1).
Definition bmh (t : list Z) (p : Z) (pt : list Z) (tbytes pbytes : Z) : res Z :=
  if tbytes <? pbytes then Ok (-1)
  else do sk <- fill_skip (Z.to_nat (pbytes - 1)) pt pbytes 0 (fun _ => pbytes);
       bmh_loop (S (Z.to_nat tbytes)) t p pt tbytes pbytes (pbytes - 1) sk.

(** base/builtin/str.c:635-653 rbmh. *)
Fixpoint fill_rskip (n : nat) (pt : list Z) (i : Z) (sk : Z -> Z) : res (Z -> Z) :=
  match n with
  | O => Ok sk
  | S n => do c <- rd pt i; fill_rskip n pt (i - 1) (upd sk c i)
  end.
(** lines 646-648; [n] is pbytes - j. *)
Fixpoint cmp_fwd (n : nat) (t : list Z) (p : Z) (pt : list Z) (i j : Z) : res (Z * Z) :=
  match n with
  | O => Ok (i, j)
  | S n => do a <- rd t (p + i); do b <- rd pt j;
           if a =? b then cmp_fwd n t p pt (i + 1) (j + 1) else Ok (i, j)
  end.
Fixpoint rbmh_loop (fuel : nat) (t : list Z) (p : Z) (pt : list Z) (pbytes k : Z) (sk : Z -> Z) : res Z :=
  if 0 <=? k then
    match fuel with
    | O => NoFuel
    | S fuel =>
        do (i, j) <- cmp_fwd (Z.to_nat pbytes) t p pt k 0;
        if j =? pbytes then Ok (i - pbytes)
        else do c <- rd t (p + k); rbmh_loop fuel t p pt pbytes (k - sk c) sk
    end
  else Ok (-1).
Definition rbmh (t : list Z) (p : Z) (pt : list Z) (tbytes pbytes : Z) : res Z :=
  if tbytes <? pbytes then Ok (-1)
  else do sk <- fill_rskip (Z.to_nat (pbytes - 1)) pt (pbytes - 1) (fun _ => pbytes);
       rbmh_loop (S (Z.to_nat tbytes)) t p pt pbytes (tbytes - pbytes) sk.

(** ** Searching. *)

(** base/builtin/str.c:1004-1014 find. *)
Definition str_find (s sub : str) (st en : option Z) : res Z :=
  match fix_start_end (nchars s) st en with
  | None => Ok (-1)
  | Some (st, en) =>
      do p <- skip_chars (buf s) 0 st (isascii s);
      do q <- skip_chars (buf s) p (en - st) (isascii s);
      do n <- bmh (buf s) p (buf sub) (q - p) (nbytes sub);
      if n <? 0 then Ok (-1) else char_no s (n + p)
  end.
(** base/builtin/str.c:1016-1022 index. *)
Definition str_index (s sub : str) (st en : option Z) : res Z :=
  do n <- str_find s sub st en; if n <? 0 then Exn ValueError else Ok n.
(** base/builtin/str.c:1313-1323 rfind. *)
Definition str_rfind (s sub : str) (st en : option Z) : res Z :=
  match fix_start_end (nchars s) st en with
  | None => Ok (-1)
  | Some (st, en) =>
      do p <- skip_chars (buf s) 0 st (isascii s);
      do q <- skip_chars (buf s) p (en - st) (isascii s);
      do n <- rbmh (buf s) p (buf sub) (q - p) (nbytes sub);
      if n <? 0 then Ok (-1) else char_no s (n + p)
  end.
(** base/builtin/str.c:1326-1332 rindex. *)
Definition str_rindex (s sub : str) (st en : option Z) : res Z :=
  do n <- str_rfind s sub st en; if n <? 0 then Exn ValueError else Ok n.
(** base/builtin/str.c:1647-1649 __contains__ and 1651-1653 __containsnot__. *)
Definition str_contains (s sub : str) : res bool :=
  do n <- bmh (buf s) 0 (buf sub) (nbytes s) (nbytes sub); Ok (0 <=? n).
Definition str_containsnot (s sub : str) : res bool := do b <- str_contains s sub; Ok (negb b).

(** base/builtin/str.c:928-943 count. *)
Fixpoint count_loop (fuel : nat) (b : list Z) (p q : Z) (sub : str) (r : Z) : res Z :=
  match fuel with
  | O => NoFuel
  | S fuel =>
      do n <- bmh b p (buf sub) (q - p) (nbytes sub);
      if 0 <=? n then count_loop fuel b (p + (n + if 0 <? nbytes sub then nbytes sub else 1)) q sub (r + 1)
      else Ok r
  end.
Definition str_count (s sub : str) (st en : option Z) : res Z :=
  match fix_start_end (nchars s) st en with
  | None => Ok 0
  | Some (st, en) =>
      do p <- skip_chars (buf s) 0 st (isascii s);
      do q <- skip_chars (buf s) p (en - st) (isascii s);
      count_loop (S (S (Z.to_nat (q - p)))) (buf s) p q sub 0
  end.

(** ** Prefixes and suffixes. *)

(** The loop of lines 960-964 and 1522-1526. *)
Fixpoint match_at (n : nat) (b : list Z) (p : Z) (b' : list Z) (q : Z) : res bool :=
  match n with
  | O => Ok true
  | S n => do x <- rd b p;
           if x =? 0 then Ok false
           else do y <- rd b' q;
                if x =? y then match_at n b (p + 1) b' (q + 1) else Ok false
  end.
(** base/builtin/str.c:1515-1528 startswith. *)
Definition str_startswith (s sub : str) (st en : option Z) : res bool :=
  match fix_start_end (nchars s) st en with
  | None => Ok false
  | Some (st, _) =>
      do p <- skip_chars (buf s) 0 st (isascii s);
      match_at (Z.to_nat (nbytes sub)) (buf s) p (buf sub) 0
  end.
(** base/builtin/str.c:952-966 endswith. *)
Definition str_endswith (s sub : str) (st en : option Z) : res bool :=
  match fix_start_end (nchars s) st en with
  | None => Ok false
  | Some (st, en) =>
      if en - st <? nbytes sub then Ok false
      else do p <- skip_chars (buf s) (nbytes s) (en - nchars s) (isascii s);
           match_at (Z.to_nat (nbytes sub)) (buf s) (p - nbytes sub) (buf sub) 0
  end.

(** ** Characters and slices. *)

(** base/builtin/str.c:1716-1721 __getitem__. *)
Definition str_getitem (s : str) (i : Z) : res str :=
  do ix <- get_index i (nchars s);
  do p <- skip_chars (buf s) 0 ix (isascii s);
  mk_char (buf s) p.

(** base/builtin/str.c:1692-1700 __next__ of the iterator: the character and the new
    position. *)
Definition iter_next (s : str) (nxt : Z) : res (str * Z) :=
  do c <- rd (buf s) nxt;
  if c =? 0 then Exn StopIteration
  else do ch <- mk_char (buf s) nxt; Ok (ch, nxt + byte_length2 c).
(** All characters an iteration delivers. *)
Fixpoint iter_all (fuel : nat) (s : str) (nxt : Z) : res (list str) :=
  match fuel with
  | O => NoFuel
  | S fuel => match iter_next s nxt with
              | Ok (ch, nxt) => do l <- iter_all fuel s nxt; Ok (ch :: l)
              | Exn StopIteration => Ok []
              | Exn e => Exn e
              | UB => UB
              | NoFuel => NoFuel
              end
  end.

(** base/builtin/str.c:1735-1761 __getslice__. *)
Fixpoint slice_loop (n : nat) (b : list Z) (t step : Z) (ascii : bool) : res (list Z) :=
  match n with
  | O => Ok []
  | S n => do c <- rd b t;
           do ch <- copy b t (byte_length2 c);
           do t <- skip_chars b (t + byte_length2 c) (step - 1) ascii;
           do r <- slice_loop n b t step ascii;
           Ok (ch ++ r)
  end.
Definition str_getslice (s : str) (sl : slice) : res str :=
  do q <- normalize_slice sl (nchars s);
  let '(start, stop, step, slen) := q in
  if slen =? 0 then Ok null_str
  else do t <- skip_chars (buf s) 0 start (isascii s);
       do bs <- slice_loop (Z.to_nat slen) (buf s) t step (isascii s);
       new_str slen bs.

(** base/builtin/str.c:1640-1642 __len__, 779-781 __bool__. *)
Definition str_len (s : str) : Z := nchars s.
Definition str_bool (s : str) : bool := 0 <? nchars s.

(** ** Concatenation. *)

(** base/builtin/str.c:1608-1614 __add__. *)
Definition str_add (s t : str) : res str := new_str (nchars s + nchars t) (sbytes s ++ sbytes t).
(** base/builtin/str.c:1620-1631 __mul__. *)
Definition str_mul (a : str) (n : Z) : res str :=
  if n <=? 0 then Ok null_str
  else new_str (nchars a * n) (concat (repeat (sbytes a) (Z.to_nat n))).
(** base/builtin/str.c:1178-1210 join, on the list of strings the iterable delivers. *)
Fixpoint join_bytes (sep : list Z) (l : list str) : list Z :=
  match l with
  | [] => []
  | x :: l => sep ++ sbytes x ++ join_bytes sep l
  end.
Definition str_join (s : str) (l : list str) : res str :=
  let totchars := fold_left (fun a x => a + nchars x) l 0
                  + (if 1 <? zlen l then (zlen l - 1) * nchars s else 0) in
  new_str totchars (match l with [] => [] | x :: l => sbytes x ++ join_bytes (sbytes s) l end).

(** ** Splitting. *)

(** base/builtin/str.c:1261-1276 partition. *)
Definition str_partition (s sep : str) : res (str * str * str) :=
  do n <- str_find s sep None None;
  if n <? 0 then Ok (s, null_str, null_str)
  else do nb <- bmh (buf s) 0 (buf sep) (nbytes s) (nbytes sep);
       do lb <- copy (buf s) 0 nb;
       do ls <- new_str n lb;
       let nbr := nbytes s - nbytes sep - nb in
       do rb <- copy (buf s) (nb + nbytes sep) nbr;
       do rs <- new_str (nchars s - n - nchars sep) rb;
       Ok (ls, sep, rs).
(** base/builtin/str.c:1356-1371 rpartition. *)
Definition str_rpartition (s sep : str) : res (str * str * str) :=
  do n <- str_rfind s sep None None;
  if n <? 0 then Ok (null_str, null_str, s)
  else do nb <- rbmh (buf s) 0 (buf sep) (nbytes s) (nbytes sep);
       do lb <- copy (buf s) 0 nb;
       do ls <- new_str n lb;
       let nbr := nbytes s - nbytes sep - nb in
       do rb <- copy (buf s) (nb + nbytes sep) nbr;
       do rs <- new_str (nchars s - n - nchars sep) rb;
       Ok (ls, sep, rs).

(** base/builtin/str.c:1377: the number of splits allowed. *)
Definition max_splits (m : option Z) : Z :=
  match m with None => 2147483647 | Some m => if m <? 0 then 2147483647 else m end.
(** base/builtin/str.c:1429-1449 split with a separator; [ssep] is None as long as the
    variable is not initialised. *)
Fixpoint split_loop (fuel : nat) (rs sep : str) (ssep : option str) (acc : list str) (maxs : Z) : res (list str) :=
  if (0 <? nchars rs) && (zlen acc <? maxs) then
    match fuel with
    | O => NoFuel
    | S fuel => do t <- str_partition rs sep;
                let '(l, sp, r) := t in split_loop fuel r sep (Some sp) (acc ++ [l]) maxs
    end
  else match ssep with
       | None => UB
       | Some sp => Ok (if 0 <? nchars sp then acc ++ [rs] else acc)
       end.
Definition str_split (s sep : str) (maxsplit : option Z) : res (list str) :=
  if nchars sep =? 0 then Exn ValueError
  else if nchars s =? 0 then Ok [null_str]
  else split_loop (S (Z.to_nat (nchars s))) s sep None [] (max_splits maxsplit).

Section Space.
  (** isspace_codepoint (base/builtin/str.c:593-597) of the character with these bytes, a
      property lookup of the library utf8proc; utf8proc_iterate is taken to deliver the
      character's length. *)
  Variable isspace : list Z -> bool.

  (** base/builtin/str.c:1388-1411: [q] is where the current word starts, if inside one. *)
  Fixpoint words_loop (n : nat) (b : list Z) (p : Z) (word : option (Z * Z)) (acc : list str) (maxs : Z)
    : res (nat * Z * option (Z * Z) * list str) :=
    match n with
    | O => Ok (O, p, word, acc)
    | S n' =>
        do c <- rd b p;
        do ch <- copy b p (byte_length2 c);
        if negb (isspace ch) then
          match word with
          | None => if zlen acc =? maxs then Ok (n, p, Some (p, 1), acc)          (* break *)
                    else words_loop n' b (p + byte_length2 c) (Some (p, 1)) acc maxs
          | Some (q, w) => words_loop n' b (p + byte_length2 c) (Some (q, w + 1)) acc maxs
          end
        else
          match word with
          | None => words_loop n' b (p + byte_length2 c) None acc maxs
          | Some (q, w) =>
              do bs <- copy b q (p - q); do x <- new_str w bs;
              words_loop n' b (p + byte_length2 c) None (acc ++ [x]) maxs
          end
    end.
  (** base/builtin/str.c:1412-1426: the last word, or the rest of the text. *)
  Definition words_end (b : list Z) (nb : Z) (r : nat * Z * option (Z * Z) * list str) : res (list str) :=
    let '(remaining, p, word, acc) := r in
    match word with
    | None => Ok acc
    | Some (q, w) =>
        match remaining with
        | O => do bs <- copy b q (p - q); do x <- new_str w bs; Ok (acc ++ [x])
        | S _ => do bs <- copy b q (nb - q); do x <- new_str (Z.of_nat remaining) bs; Ok (acc ++ [x])
        end
    end.
  (** base/builtin/str.c:1379-1428 split without a separator. *)
  Definition str_split_space (s : str) (maxsplit : option Z) : res (list str) :=
    if nchars s =? 0 then Ok []
    else
      do r <- words_loop (Z.to_nat (nchars s)) (buf s) 0 None [] (max_splits maxsplit);
      words_end (buf s) (nbytes s) r.
End Space.

(** base/builtin/str.c:599-607 islinebreak_codepoint (these characters are single
    bytes). *)
Definition islinebreak (c : Z) : bool := ((10 <=? c) && (c <=? 13)) || ((28 <=? c) && (c <=? 30)).
(** base/builtin/str.c:1452-1490 splitlines: the position [q] of the line's start, its
    length in characters so far. *)
Fixpoint lines_loop (fuel : nat) (s : str) (keep : bool) (p q ll : Z) (acc : list str) : res (list str) :=
  if p <? nbytes s then
    match fuel with
    | O => NoFuel
    | S fuel =>
        do c <- rd (buf s) p;
        if negb (islinebreak c) then lines_loop fuel s keep (p + byte_length2 c) q (ll + 1) acc
        else
          do d <- (if c =? 13 then rd (buf s) (p + 1) else Ok 0);
          let winend := if (c =? 13) && (d =? 10) then 1 else 0 in
          let extra := if keep then 1 + winend else 0 in
          do bs <- copy (buf s) q (p - q + extra);
          do x <- new_str (ll + extra) bs;
          lines_loop fuel s keep (p + 1 + winend) (p + 1 + winend) 0 (acc ++ [x])
    end
  else if q <? p then
    do bs <- copy (buf s) q (p - q); do x <- new_str ll bs; Ok (acc ++ [x])
  else Ok acc.
Definition str_splitlines (s : str) (keep : bool) : res (list str) :=
  if nbytes s =? 0 then Ok [] else lines_loop (S (Z.to_nat (nbytes s))) s keep 0 0 0 [].

(** ** Replacing. *)

(** base/builtin/str.c:1278-1310 replace; [out] is what has been written to the result. *)
Fixpoint replace_loop (n : nat) (first : bool) (b : list Z) (p plen : Z) (old new : str) (out : list Z)
  : res (Z * Z * list Z) :=
  match n with
  | O => Ok (p, plen, out)
  | S n =>
      do m <- (if negb first && (nbytes old =? 0) then Ok 1
               else bmh b p (buf old) plen (nbytes old));
      do pre <- (if 0 <? m then copy b p m else Ok []);
      let p1 := if 0 <? m then p + m else p in
      replace_loop n false b (p1 + nbytes old) (plen - (m + nbytes old)) old new (out ++ pre ++ sbytes new)
  end.
Definition str_replace (s old new : str) (count : option Z) : res str :=
  let count := match count with None => 2147483647 | Some c => c end in
  do c <- str_count s old None None;
  let c0 := if count <? c then wrapS 32 count else c in
  if c0 =? 0 then Ok s
  else
    let nb := nbytes s + c0 * (nbytes new - nbytes old) in
    let nc := nchars s + c0 * (nchars new - nchars old) in
    do (p, plen, out) <- replace_loop (Z.to_nat c0) true (buf s) 0 (nbytes s) old new [];
    do rest <- (if 0 <? plen then copy (buf s) p plen else Ok []);
    (* the result's buffer has nb + 1 bytes, the last one 0 *)
    if zlen (out ++ rest) =? nb then new_str nc (out ++ rest) else UB.

(** ** Stripping. *)

(** The loop over the characters of [cs] in lines 1246-1251 and 1500-1505: does the
    character at [p] occur in it? *)
Fixpoint in_set (n : nat) (b : list Z) (p : Z) (cs : list Z) (q : Z) : res bool :=
  match n with
  | O => Ok false
  | S n => do c <- rd cs q;
           do e <- equal_bytes (Z.to_nat (byte_length2 c)) b p cs q;
           if e then Ok true else in_set n b p cs (q + byte_length2 c)
  end.
(** base/builtin/str.c:298 whitespace_str. *)
Definition whitespace_str : str := Str 6 [32; 9; 10; 13; 11; 12].
Definition strip_set (cs : option str) : str := match cs with None => whitespace_str | Some c => c end.

(** base/builtin/str.c:1239-1259 lstrip; [n] is nchars - i. *)
Fixpoint lstrip_loop (n : nat) (b : list Z) (p : Z) (cs : str) : res (nat * Z) :=
  match n with
  | O => Ok (O, p)
  | S n' => do e <- in_set (Z.to_nat (nchars cs)) b p (buf cs) 0;
            if e then do c <- rd b p; lstrip_loop n' b (p + byte_length2 c) cs
            else Ok (n, p)
  end.
Definition str_lstrip (s : str) (cs : option str) : res str :=
  if nchars s =? 0 then Ok s
  else do (n, p) <- lstrip_loop (Z.to_nat (nchars s)) (buf s) 0 (strip_set cs);
       do bs <- copy (buf s) p (nbytes s - p);
       new_str (Z.of_nat n) bs.

(** base/builtin/str.c:1492-1513 rstrip; [n] is nchars - i. *)
Fixpoint rstrip_loop (n : nat) (b : list Z) (p : Z) (cs : str) : res (nat * Z) :=
  match n with
  | O => Ok (O, p)
  | S n' => do p <- skip_chars b p (-1) false;
            do e <- in_set (Z.to_nat (nchars cs)) b p (buf cs) 0;
            if e then rstrip_loop n' b p cs else Ok (n, p)
  end.
Definition str_rstrip (s : str) (cs : option str) : res str :=
  if nchars s =? 0 then Ok s
  else do (n, p) <- rstrip_loop (Z.to_nat (nchars s)) (buf s) (nbytes s) (strip_set cs);
       do p <- skip_chars (buf s) p 1 false;
       do bs <- copy (buf s) 0 p;
       new_str (Z.of_nat n) bs.
(** base/builtin/str.c:1531-1533 strip. *)
Definition str_strip (s : str) (cs : option str) : res str :=
  do r <- str_rstrip s cs; str_lstrip r cs.

(** ** Padding; the width is converted to int. *)

Definition space_str : str := Str 1 [32].
Definition fill_char (f : option str) : str := match f with None => space_str | Some f => f end.
Definition pad_bytes (f : str) (n : Z) : list Z := concat (repeat (sbytes f) (Z.to_nat n)).
(** base/builtin/str.c:895-925 center. *)
Definition str_center (s : str) (width : Z) (f : option str) : res str :=
  let w := wrapS 32 width in
  let f := fill_char f in
  if negb (nchars f =? 1) then Exn ValueError
  else if w <=? nchars s then Ok s
  else let pad := w - nchars s in
       let padleft := Z.quot pad 2 in
       new_str w (pad_bytes f padleft ++ sbytes s ++ pad_bytes f (pad - padleft)).
(** base/builtin/str.c:1212-1232 ljust. *)
Definition str_ljust (s : str) (width : Z) (f : option str) : res str :=
  let f := fill_char f in
  let w := wrapS 32 width in
  if negb (nchars f =? 1) then Exn ValueError
  else if w <=? nchars s then Ok s
  else new_str w (sbytes s ++ pad_bytes f (w - nchars s)).
(** base/builtin/str.c:1334-1354 rjust. *)
Definition str_rjust (s : str) (width : Z) (f : option str) : res str :=
  let f := fill_char f in
  let w := wrapS 32 width in
  if negb (nchars f =? 1) then Exn ValueError
  else if w <=? nchars s then Ok s
  else new_str w (pad_bytes f (w - nchars s) ++ sbytes s).
(** base/builtin/str.c:1539-1557 zfill. *)
Definition str_zfill (s : str) (width : Z) : res str :=
  let w := wrapS 32 width in
  let fill := w - nchars s in
  if fill <? 0 then Ok s
  else do c <- rd (buf s) 0;
       let zeros := repeat 48 (Z.to_nat fill) in
       if (c =? 43) || (c =? 45)
       then do r <- copy (buf s) 1 (nbytes s - 1); new_str w (c :: zeros ++ r)
       else new_str w (zeros ++ sbytes s).

(** base/builtin/str.c:991-996: the bytes of one character; the bound is read again at
    every step. *)
Fixpoint tab_chars (fuel : nat) (b : list Z) (p j : Z) (out : list Z) : res (Z * Z * list Z) :=
  do c <- rd b p;
  if j <? byte_length2 c then
    match fuel with
    | O => NoFuel
    | S fuel => tab_chars fuel b (p + 1) (j + 1) (out ++ [c])
    end
  else Ok (p, j, out).
(** base/builtin/str.c:968-1002 expandtabs; [out] is what is in the buffer. *)
Fixpoint tabs_loop (n : nat) (b : list Z) (p pos expanded tabsz : Z) (out : list Z) : res (Z * list Z) :=
  match n with
  | O => Ok (expanded, out)
  | S n =>
      do c <- rd b p;
      if c =? 9 then
        let k := tabsz - Z.rem pos tabsz in
        tabs_loop n b (p + 1) (pos + k) (expanded + (k - 1)) tabsz (out ++ repeat 32 (Z.to_nat k))
      else if (c =? 10) || (c =? 13) then tabs_loop n b (p + 1) 0 expanded tabsz (out ++ [c])
      else do (p, j, out) <- tab_chars (S (length b)) b p 0 out;
           tabs_loop n b p (pos + j) expanded tabsz out
  end.
Definition str_expandtabs (s : str) (tabsize : option Z) : res str :=
  if nchars s =? 0 then Ok null_str
  else
    let tabsz := match tabsize with None => 8 | Some t => wrapS 32 t end in
    let tabsz := if tabsz <=? 0 then 1 else tabsz in
    do (expanded, out) <- tabs_loop (Z.to_nat (nchars s)) (buf s) 0 0 0 tabsz [];
    if (2 ^ 31 <=? tabsz * nchars s) || (tabsz * nchars s <? zlen out)
    then UB                                                   (* size overflow, buffer overrun *)
    else do bs <- copy out 0 (nbytes s + expanded);           (* the rest is not initialised *)
         new_str (nchars s + expanded) bs.

(** ** Comparison. *)

(** strcmp: the sign of the first difference, bytes being unsigned. *)
Fixpoint strcmp (fuel : nat) (a b : list Z) (i : Z) : res Z :=
  match fuel with
  | O => NoFuel
  | S fuel => do x <- rd a i; do y <- rd b i;
              if x <? y then Ok (-1) else if y <? x then Ok 1
              else if x =? 0 then Ok 0 else strcmp fuel a b (i + 1)
  end.
Definition str_cmp (a b : str) : res Z := strcmp (S (length (sbytes a))) (buf a) (buf b) 0.
(** base/builtin/str.c:1576-1598. *)
Definition str_eq (a b : str) : res bool := do c <- str_cmp a b; Ok (c =? 0).
Definition str_ne (a b : str) : res bool := do c <- str_cmp a b; Ok (negb (c =? 0)).
Definition str_lt (a b : str) : res bool := do c <- str_cmp a b; Ok (c <? 0).
Definition str_le (a b : str) : res bool := do c <- str_cmp a b; Ok (c <=? 0).
Definition str_gt (a b : str) : res bool := do c <- str_cmp a b; Ok (0 <? c).
Definition str_ge (a b : str) : res bool := do c <- str_cmp a b; Ok (0 <=? c).
(** base/builtin/str.c:1602-1605: the bytes fed to the hash function (up to the first
    byte 0). *)
Fixpoint c_string (b : list Z) : list Z :=
  match b with [] => [] | c :: b => if c =? 0 then [] else c :: c_string b end.
Definition hash_input (a : str) : list Z := c_string (sbytes a).

(** base/builtin/str.c:3950-3965 chr for code points below 0x80 (utf8proc_encode_char
    stores the byte itself). *)
Definition chr_ascii (v : Z) : str := Str 1 [v].

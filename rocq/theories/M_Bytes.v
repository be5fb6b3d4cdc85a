(** The bytes type: base/builtin/str.c:2864-3890.

    A bytes object has a buffer of nbytes bytes followed by a byte 0; here it is the list of its
    bytes.  Pointers into a buffer are offsets; reading outside the buffer (terminator included)
    is [UB].  Lengths are C ints: a result whose length does not fit is [UB] here. *)
From Verif Require Import Base M_Slice M_Str.

Definition bbuf (s : list Z) : list Z := s ++ [0].
(** base/builtin/str.c:343-348 NEW_UNFILLED_BYTES and the memcpy that fills it. *)
Definition new_bytes (l : list Z) : res (list Z) := if zlen l <? 2 ^ 31 then Ok l else UB.

(** base/builtin/str.c:2942-2957 __init__ of a list of ints; [int n] keeps the low 32 bits. *)
Fixpoint bytes_init (l : list Z) : res (list Z) :=
  match l with
  | [] => Ok []
  | x :: l => let n := wrapS 32 x in
              if (0 <=? n) && (n <=? 255) then do r <- bytes_init l; Ok (n :: r) else Exn ValueError
  end.

(** ** Searching. *)

(** base/builtin/str.c:3119-3128 find, 3199-3205 index. *)
Definition bytes_find (s sub : list Z) (st en : option Z) : res Z :=
  match fix_start_end (zlen s) st en with
  | None => Ok (-1)
  | Some (st, en) =>
      do n <- bmh (bbuf s) st (bbuf sub) (en - st) (zlen sub);
      if n <? 0 then Ok (-1) else Ok (n + st)
  end.
Definition bytes_index (s sub : list Z) (st en : option Z) : res Z :=
  do n <- bytes_find s sub st en; if n <? 0 then Exn ValueError else Ok n.
(** base/builtin/str.c:3462-3471 rfind, 3474-3480 rindex. *)
Definition bytes_rfind (s sub : list Z) (st en : option Z) : res Z :=
  match fix_start_end (zlen s) st en with
  | None => Ok (-1)
  | Some (st, en) =>
      do n <- rbmh (bbuf s) st (bbuf sub) (en - st) (zlen sub);
      if n <? 0 then Ok (-1) else Ok (n + st)
  end.
Definition bytes_rindex (s sub : list Z) (st en : option Z) : res Z :=
  do n <- bytes_rfind s sub st en; if n <? 0 then Exn ValueError else Ok n.
(** base/builtin/str.c:3048-3063 count. *)
Fixpoint bcount_loop (fuel : nat) (b : list Z) (p q : Z) (sub : list Z) (r : Z) : res Z :=
  match fuel with
  | O => NoFuel
  | S fuel =>
      do n <- bmh b p (bbuf sub) (q - p) (zlen sub);
      if 0 <=? n then bcount_loop fuel b (p + (n + if 0 <? zlen sub then zlen sub else 1)) q sub (r + 1)
      else Ok r
  end.
Definition bytes_count (s sub : list Z) (st en : option Z) : res Z :=
  match fix_start_end (zlen s) st en with
  | None => Ok 0
  | Some (st, en) => bcount_loop (S (S (Z.to_nat (en - st)))) (bbuf s) st en sub 0
  end.

(** ** Prefixes and suffixes. *)

(** The loop of base/builtin/str.c:3651-3656: [e] is the end given. *)
Fixpoint starts_loop (n : nat) (b : list Z) (p e : Z) (b' : list Z) (q : Z) : res bool :=
  match n with
  | O => Ok true
  | S n => if e <=? p then Ok false
           else do x <- rd b p; do y <- rd b' q;
                if x =? y then starts_loop n b (p + 1) e b' (q + 1) else Ok false
  end.
(** base/builtin/str.c:3645-3658 startswith. *)
Definition bytes_startswith (s sub : list Z) (st en : option Z) : res bool :=
  match fix_start_end (zlen s) st en with
  | None => Ok false
  | Some (st, en) =>
      if (0 <? zlen sub) && (zlen s <? st + zlen sub) then Ok false
      else starts_loop (length sub) (bbuf s) st en (bbuf sub) 0
  end.
(** base/builtin/str.c:3069-3081 endswith. *)
Definition bytes_endswith (s sub : list Z) (st en : option Z) : res bool :=
  match fix_start_end (zlen s) st en with
  | None => Ok false
  | Some (st, en) => match_at (length sub) (bbuf s) (en - zlen sub) (bbuf sub) 0
  end.
(** base/builtin/str.c:3403-3427 (memcmp(b + p, sub, n) == 0 is equal_bytes) *)
Definition bytes_removeprefix (s prefix : list Z) : res (list Z) :=
  do same <- (if zlen s <? zlen prefix then Ok false else equal_bytes (length prefix) (bbuf s) 0 (bbuf prefix) 0);
  let k := if same then zlen prefix else 0 in
  copy (bbuf s) k (zlen s - k).
(** base/builtin/str.c:3403-3427 removeprefix, removesuffix. *)
Definition bytes_removesuffix (s suffix : list Z) : res (list Z) :=
  do same <- (if zlen s <? zlen suffix then Ok false
              else equal_bytes (length suffix) (bbuf s) (zlen s - zlen suffix) (bbuf suffix) 0);
  let k := if same then zlen suffix else 0 in
  copy (bbuf s) 0 (zlen s - k).

(** ** Splitting and joining. *)

(** base/builtin/str.c:3385-3401 partition. *)
Definition bytes_partition (s sep : list Z) : res (list Z * list Z * list Z) :=
  do n <- bytes_find s sep None None;
  if n <? 0 then Ok (s, [], [])
  else do nb <- bmh (bbuf s) 0 (bbuf sep) (zlen s) (zlen sep);
       do ls <- copy (bbuf s) 0 nb;
       do rs <- copy (bbuf s) (nb + zlen sep) (zlen s - zlen sep - nb);
       Ok (ls, sep, rs).
(** base/builtin/str.c:3503-3518 rpartition. *)
Definition bytes_rpartition (s sep : list Z) : res (list Z * list Z * list Z) :=
  do n <- bytes_rfind s sep None None;
  if n <? 0 then Ok ([], [], s)
  else do nb <- rbmh (bbuf s) 0 (bbuf sep) (zlen s) (zlen sep);
       do ls <- copy (bbuf s) 0 nb;
       do rs <- copy (bbuf s) (nb + zlen sep) (zlen s - zlen sep - nb);
       Ok (ls, sep, rs).
(** base/builtin/str.c:3587-3608 split with a separator; [ssep] is None as long as the variable is not
    initialised. *)
Fixpoint bsplit_loop (fuel : nat) (rs sep : list Z) (ssep : option (list Z)) (acc : list (list Z)) (maxs : Z) : res (list (list Z)) :=
  if (0 <? zlen rs) && (zlen acc <? maxs) then
    match fuel with
    | O => NoFuel
    | S fuel => do t <- bytes_partition rs sep;
                let '(l, sp, r) := t in bsplit_loop fuel r sep (Some sp) (acc ++ [l]) maxs
    end
  else match ssep with
       | None => UB
       | Some sp => Ok (if 0 <? zlen sp then acc ++ [rs] else acc)
       end.
Definition bytes_split (s sep : list Z) (maxsplit : option Z) : res (list (list Z)) :=
  if zlen sep =? 0 then Exn ValueError
  else if zlen s =? 0 then Ok [[]]
  else bsplit_loop (S (Z.to_nat (zlen s))) s sep None [] (max_splits maxsplit).

(** base/builtin/str.c:3554: white space. *)
Definition bspace (c : Z) : bool := existsb (Z.eqb c) [32; 9; 10; 13; 11; 12].
(** base/builtin/str.c:3551-3571: [q] is None as long as the variable is not initialised, [inword] says
    whether a word has begun. *)
Fixpoint bwords_loop (n : nat) (b : list Z) (p : Z) (inword : bool) (q : option Z) (acc : list (list Z)) (maxs : Z)
  : res (nat * Z * bool * option Z * list (list Z)) :=
  match n with
  | O => Ok (O, p, inword, q, acc)
  | S n' =>
      do c <- rd b p;
      if negb (bspace c) then
        if inword then bwords_loop n' b (p + 1) true q acc maxs
        else if zlen acc =? maxs then Ok (n, p, true, Some p, acc)
        else bwords_loop n' b (p + 1) true (Some p) acc maxs
      else if inword then
        do q' <- orUB q;
        do w <- copy b q' (p - q');
        bwords_loop n' b (p + 1) false q (acc ++ [w]) maxs
      else bwords_loop n' b (p + 1) false q acc maxs
  end.
(** base/builtin/str.c:3572-3586: what is done at the end of the bytes and what before it are exchanged. *)
Definition bytes_split_space (s : list Z) (maxsplit : option Z) : res (list (list Z)) :=
  if zlen s =? 0 then Ok []
  else
    do r <- bwords_loop (length s) (bbuf s) 0 false None [] (max_splits maxsplit);
    let '(_, p, inword, q, acc) := r in
    if p <? zlen s then
      if inword then do q' <- orUB q; do w <- copy (bbuf s) q' (p - q'); Ok (acc ++ [w]) else Ok acc
    else do q' <- orUB q; do w <- copy (bbuf s) q' (zlen s - q'); Ok (acc ++ [w]).

(** base/builtin/str.c:3611-3643 splitlines. *)
Fixpoint blines_loop (fuel : nat) (s : list Z) (keep : bool) (p q : Z) (acc : list (list Z)) : res (list (list Z)) :=
  if p <? zlen s then
    match fuel with
    | O => NoFuel
    | S fuel =>
        do c <- rd (bbuf s) p;
        if negb (c =? 10) && negb (c =? 13) then blines_loop fuel s keep (p + 1) q acc
        else
          do d <- (if c =? 13 then rd (bbuf s) (p + 1) else Ok 0);
          let winend := if (c =? 13) && (d =? 10) then 1 else 0 in
          let size := p - q + (if keep then 1 + winend else 0) in
          do x <- copy (bbuf s) q size;
          blines_loop fuel s keep (p + 1 + winend) (p + 1 + winend) (acc ++ [x])
    end
  else if q <? p then do x <- copy (bbuf s) q (p - q); Ok (acc ++ [x]) else Ok acc.
Definition bytes_splitlines (s : list Z) (keep : bool) : res (list (list Z)) :=
  if zlen s =? 0 then Ok [] else blines_loop (S (length s)) s keep 0 0 [].

(** base/builtin/str.c:3303-3332 join; the ints of the total length wrap to something else than the bytes
    copied if it does not fit. *)
Fixpoint bjoin_rest (sep : list Z) (l : list (list Z)) : list Z :=
  match l with [] => [] | x :: l => sep ++ x ++ bjoin_rest sep l end.
Definition bytes_join (s : list Z) (l : list (list Z)) : res (list Z) :=
  new_bytes (match l with [] => [] | x :: l => x ++ bjoin_rest s l end).

(** base/builtin/str.c:3428-3459 replace. *)
Fixpoint breplace_loop (n : nat) (first : bool) (b : list Z) (p plen : Z) (old new : list Z) (out : list Z)
  : res (Z * Z * list Z) :=
  match n with
  | O => Ok (p, plen, out)
  | S n =>
      do m <- (if negb first && (zlen old =? 0) then Ok 1 else bmh b p (bbuf old) plen (zlen old));
      do pre <- (if 0 <? m then copy b p m else Ok []);
      let p1 := if 0 <? m then p + m else p in
      breplace_loop n false b (p1 + zlen old) (plen - (m + zlen old)) old new (out ++ pre ++ new)
  end.
Definition bytes_replace (s old new : list Z) (count : option Z) : res (list Z) :=
  let count := match count with None => 2147483647 | Some c => c end in
  do c <- bytes_count s old None None;
  let c0 := if count <? c then wrapS 32 count else c in
  if c0 =? 0 then Ok s
  else
    let nb := zlen s + c0 * (zlen new - zlen old) in
    do (p, plen, out) <- breplace_loop (Z.to_nat c0) true (bbuf s) 0 (zlen s) old new [];
    do rest <- (if 0 <? plen then copy (bbuf s) p plen else Ok []);
    if zlen (out ++ rest) =? nb then new_bytes (out ++ rest) else UB.

(** ** Stripping: base/builtin/str.c:3362-3383 lstrip, 3520-3540 rstrip, 3661-3663 strip. *)
Definition bstrip_set (cs : option (list Z)) : list Z := match cs with None => [32; 9; 10; 13; 11; 12] | Some c => c end.
Fixpoint count_strip (s cs : list Z) : Z :=
  match s with
  | [] => 0
  | c :: s => if existsb (Z.eqb c) cs then 1 + count_strip s cs else 0
  end.
Definition bytes_lstrip (s : list Z) (cs : option (list Z)) : res (list Z) :=
  let n := count_strip s (bstrip_set cs) in copy (bbuf s) n (zlen s - n).
Definition bytes_rstrip (s : list Z) (cs : option (list Z)) : res (list Z) :=
  let n := count_strip (rev s) (bstrip_set cs) in copy (bbuf s) 0 (zlen s - n).
Definition bytes_strip (s : list Z) (cs : option (list Z)) : res (list Z) :=
  do r <- bytes_rstrip s cs; bytes_lstrip r cs.

(** ** Elements, slices, comparison. *)

(** base/builtin/str.c:3811-3817 __getitem__. *)
Definition bytes_getitem (s : list Z) (i : Z) : res Z :=
  let i := if i <? 0 then zlen s + i else i in
  if (i <? 0) || (zlen s <=? i) then Exn IndexError else rd (bbuf s) i.
(** base/builtin/str.c:3794-3804 __contains__; the int is converted to unsigned char. *)
Definition bytes_contains (s : list Z) (n : Z) : bool := existsb (fun c => c =? wrapU 8 n) s.
(** base/builtin/str.c:3829-3841 __getslice__. *)
Fixpoint bslice_loop (n : nat) (b : list Z) (t step : Z) : res (list Z) :=
  match n with
  | O => Ok []
  | S n => do c <- rd b t; do r <- bslice_loop n b (wrapS 32 (t + step)) step; Ok (c :: r)
  end.
Definition bytes_getslice (s : list Z) (sl : slice) : res (list Z) :=
  do q <- normalize_slice sl (zlen s);
  let '(start, stop, step, slen) := q in bslice_loop (Z.to_nat slen) (bbuf s) start step.
(** base/builtin/str.c:3699-3736 Ord. *)
Fixpoint bytes_eq (a b : list Z) : bool :=
  match a, b with
  | [], [] => true
  | x :: a, y :: b => (x =? y) && bytes_eq a b
  | _, _ => false
  end.
Fixpoint bytes_lt (a b : list Z) : bool :=
  match a, b with
  | [], [] => false
  | [], _ :: _ => true
  | _ :: _, [] => false
  | x :: a, y :: b => if x =? y then bytes_lt a b else x <? y
  end.
Definition bytes_le (a b : list Z) : bool := negb (bytes_lt b a).
Definition bytes_gt (a b : list Z) : bool := bytes_lt b a.
Definition bytes_ge (a b : list Z) : bool := negb (bytes_lt a b).
(** base/builtin/str.c:3856-3882 __add__, __mul__. *)
Definition bytes_add (a b : list Z) : res (list Z) := new_bytes (a ++ b).
Definition bytes_mul (a : list Z) (n : Z) : res (list Z) :=
  if n <=? 0 then Ok [] else new_bytes (concat (repeat a (Z.to_nat n))).

(** ** Padding: base/builtin/str.c:3021-3046 center, 3334-3352 ljust, 3482-3501 rjust, 3674-3691 zfill. *)
Definition bfill (f : option (list Z)) : list Z := match f with None => [32] | Some f => f end.
Definition bytes_center (s : list Z) (width : Z) (f : option (list Z)) : res (list Z) :=
  let w := wrapS 32 width in
  match bfill f with
  | [c] => if w <=? zlen s then Ok s
           else let pad := w - zlen s in
                let l := Z.quot pad 2 in
                Ok (repeat c (Z.to_nat l) ++ s ++ repeat c (Z.to_nat (pad - l)))
  | _ => Exn ValueError
  end.
Definition bytes_ljust (s : list Z) (width : Z) (f : option (list Z)) : res (list Z) :=
  let w := wrapS 32 width in
  match bfill f with
  | [c] => if w <=? zlen s then Ok s else Ok (s ++ repeat c (Z.to_nat (w - zlen s)))
  | _ => Exn ValueError
  end.
Definition bytes_rjust (s : list Z) (width : Z) (f : option (list Z)) : res (list Z) :=
  let w := wrapS 32 width in
  match bfill f with
  | [c] => if w <=? zlen s then Ok s else Ok (repeat c (Z.to_nat (w - zlen s)) ++ s)
  | _ => Exn ValueError
  end.
Definition bytes_zfill (s : list Z) (width : Z) : res (list Z) :=
  let w := wrapS 32 width in
  let fill := w - zlen s in
  if fill <? 0 then Ok s
  else do c <- rd (bbuf s) 0;
       let sign := if (c =? 43) || (c =? 45) then 1 else 0 in
       do pre <- copy (bbuf s) 0 sign;
       do rest <- copy (bbuf s) sign (zlen s - sign);
       Ok (pre ++ repeat 48 (Z.to_nat fill) ++ rest).

(** ** Classes of bytes and cases: base/builtin/str.c:3207-3301. *)
Definition in_range (c a b : Z) : bool := (a <=? c) && (c <=? b).
Definition nonempty (s : list Z) : bool := match s with [] => false | _ => true end.
Definition bytes_isalnum (s : list Z) : bool :=
  nonempty s && forallb (fun c => negb ((c <? 48) || (122 <? c) || ((57 <? c) && (c <? 65)) || ((90 <? c) && (c <? 97)))) s.
Definition bytes_isalpha (s : list Z) : bool :=
  nonempty s && forallb (fun c => negb ((c <? 65) || (122 <? c) || ((90 <? c) && (c <? 97)))) s.
Definition bytes_isascii (s : list Z) : bool := forallb (fun c => c <=? 127) s.
Definition bytes_isdigit (s : list Z) : bool := nonempty s && forallb (fun c => negb ((c <? 48) || (57 <? c))) s.
Definition bytes_isspace (s : list Z) : bool := nonempty s && forallb bspace s.
(** 3249-3259 islower, 3291-3301 isupper: the second test of isupper is for small letters too. *)
Fixpoint islower_loop (s : list Z) (has : bool) : bool :=
  match s with
  | [] => has
  | c :: s => if in_range c 65 90 then false else islower_loop s (has || in_range c 97 122)
  end.
Definition bytes_islower (s : list Z) : bool := islower_loop s false.
Fixpoint isupper_loop (s : list Z) (has : bool) : bool :=
  match s with
  | [] => has
  | c :: s => if in_range c 97 122 then false else isupper_loop s (has || in_range c 97 122)
  end.
Definition bytes_isupper (s : list Z) : bool := isupper_loop s false.
(** 3272-3289 istitle. *)
Fixpoint istitle_loop (s : list Z) (incased : bool) : bool :=
  match s with
  | [] => true
  | c :: s => if in_range c 65 90 then (if incased then false else istitle_loop s true)
              else if in_range c 97 122 then (if incased then istitle_loop s incased else false)
              else istitle_loop s false
  end.
Definition bytes_istitle (s : list Z) : bool := nonempty s && istitle_loop s false.
(** tolower and toupper of the C locale. *)
Definition tolower (c : Z) : Z := if in_range c 65 90 then c + 32 else c.
Definition toupper (c : Z) : Z := if in_range c 97 122 then c - 32 else c.
(** 3009-3019 capitalize. *)
Definition bytes_capitalize (s : list Z) : list Z :=
  match s with [] => [] | c :: s => toupper c :: map tolower s end.
(** 3354-3360 lower, 3665-3672 upper: the bytes converted are those of the new buffer, which is not
    initialised; [junk] is what it holds. *)
Definition bytes_lower (junk : list Z) (s : list Z) : list Z := map tolower (firstn (length s) junk).
Definition bytes_upper (junk : list Z) (s : list Z) : list Z := map toupper (firstn (length s) junk).

(** ** Hexadecimal: base/builtin/str.c:3130-3197. *)
Definition hex_digit (c : Z) : option Z :=
  if in_range c 48 57 then Some (c - 48)
  else if in_range c 97 102 then Some (c - 87)
  else if in_range c 65 70 then Some (c - 55)
  else None.
Fixpoint hex_pairs (s : list Z) : res (list Z) :=
  match s with
  | h :: l :: s => match hex_digit h, hex_digit l with
                   | Some h, Some l => do r <- hex_pairs s; Ok (h * 16 + l :: r)
                   | _, _ => Exn ValueError
                   end
  | _ => Ok []
  end.
(** The argument is a str; its bytes. *)
Definition bytes_from_hex (s : list Z) : res (list Z) :=
  if Nat.odd (length s) then Exn ValueError else hex_pairs s.
(** hex: the digits are put in a buffer without terminator, which to_str_noc (:406-425) reads up to a byte
    0. *)
Definition HEX : list Z := [48; 49; 50; 51; 52; 53; 54; 55; 56; 57; 97; 98; 99; 100; 101; 102].
Definition hex_buffer (s : list Z) : list Z := flat_map (fun c => [nth (Z.to_nat (c / 16)) HEX 0; nth (Z.to_nat (c mod 16)) HEX 0]) s.
Fixpoint read_string (fuel : nat) (b : list Z) (p : Z) : res (list Z) :=
  match fuel with
  | O => NoFuel
  | S fuel => do c <- rd b p; if c =? 0 then Ok [] else do r <- read_string fuel b (p + 1); Ok (c :: r)
  end.
Definition bytes_hex (s : list Z) : res (list Z) :=
  match s with
  | [] => Ok []
  | _ => read_string (S (length (hex_buffer s))) (hex_buffer s) 0
  end.

(** base/builtin/str.c:3083-3117 expandtabs; a byte that is not a tab or line end takes the bytes after it
    along, as many as byte_length2 of it says (and again after each of them). *)
Fixpoint btab_chars (fuel : nat) (b : list Z) (p j pos : Z) (out : list Z) : res (Z * Z * list Z) :=
  match fuel with
  | O => NoFuel
  | S fuel => do c <- rd b p;
              if j <? byte_length2 c then btab_chars fuel b (p + 1) (j + 1) (pos + 1) (out ++ [c]) else Ok (p, pos, out)
  end.
Fixpoint btabs_loop (n : nat) (b : list Z) (p pos expanded tab : Z) (out : list Z) : res (Z * list Z) :=
  match n with
  | O => Ok (expanded, out)
  | S n =>
      do c <- rd b p;
      if c =? 9 then
        let k := tab - Z.rem pos tab in
        btabs_loop n b (p + 1) (pos + k) (expanded + (k - 1)) tab (out ++ repeat 32 (Z.to_nat k))
      else if (c =? 10) || (c =? 13) then btabs_loop n b (p + 1) 0 expanded tab (out ++ [c])
      else do (p', pos', out') <- btab_chars 5 b p 0 pos out; btabs_loop n b p' pos' expanded tab out'
  end.
Definition bytes_expandtabs (s : list Z) (tabsz : Z) : res (list Z) :=
  match s with
  | [] => Ok []
  | _ =>
      let tab := wrapS 32 tabsz in
      let tab := if tab <=? 0 then 1 else tab in
      do (expanded, out) <- btabs_loop (length s) (bbuf s) 0 0 0 tab [];
      (* the buffer has tab * nbytes bytes *)
      if tab * zlen s <? zlen out then UB else copy out 0 (zlen s + expanded)
  end.

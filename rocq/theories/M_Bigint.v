(** Model of the parts of base/builtin/bigint.c that are written in this code base: shifts,
    bitwise operations, parsing and printing.

    The library BSDNT (deps/libbsdnt, not part of the repository) provides zz_seti, zz_add, zz_mul, zz_muli,
    zz_powi, zz_divrem, zz_neg, zz_sub: they are taken to be exact operations on integers;
    nn_shl and nn_shr are modelled word by word.

    Simplification: int counters do not overflow (numbers shorter than 2^31 words); memory allocation
    succeeds. *)
From Verif Require Import Base.
Local Open Scope Z_scope.

(** * Words *)

Definition W64 : Z := 2 ^ 64.

(** A number: sign and size, and that many words, least significant first
    (zz_struct of BSDNT: size is negative for negative numbers, n the words). *)
Record zz := mkZZ { zsize : Z; zn : list Z }.

(** nn_shl of BSDNT: shifts by bits < 64; the result has the same number of words, and a carry. *)
Fixpoint nn_shl (l : list Z) (bits carry : Z) : list Z * Z :=
  match l with
  | [] => ([], carry)
  | x :: r => let '(r', c) := nn_shl r bits (x * 2 ^ bits / W64) in ((x * 2 ^ bits) mod W64 + carry :: r', c)
  end.

(** nn_shr of BSDNT: from the most significant word downwards. *)
Fixpoint nn_shr (l : list Z) (bits : Z) : list Z * Z :=
  match l with
  | [] => ([], 0)
  | x :: r => let '(r', c) := nn_shr r bits in (x / 2 ^ bits + c :: r', (x * 2 ^ (64 - bits)) mod W64)
  end.

(** size - (top word == 0), the words being cut accordingly. *)
Definition drop_top (l : list Z) : list Z :=
  match rev l with
  | 0 :: _ => removelast l
  | _ => l
  end.

(** The sign of ma put on a magnitude: bigint.c:393-395, 420-422. *)
Definition with_sign (ma : Z) (l : list Z) : zz := mkZZ (if ma <? 0 then - zlen l else zlen l) l.

(** bigint.c:369-398 B_IntegralD_bigintD___lshift__. *)
Definition zz_lshift (a : zz) (b : Z) : res zz :=
  if (zsize a =? 0) || (b =? 0) then Ok a
  else if b <? 0 then Exn ValueError
  else
    let shw := b / 64 in
    let shb := b mod 64 in
    let '(l, ci) := nn_shl (zn a) shb 0 in
    let l1 := if 0 <? shb then l ++ [ci] else l in
    Ok (with_sign (zsize a) (drop_top (repeat 0 (Z.to_nat shw) ++ l1))).

(** bigint.c:400-425 B_IntegralD_bigintD___rshift__.  mres = |ma| - shw <= 0 is undefined: a variable
    length array of size <= 0 (line 416) and a read of rval->n[mres-1] (line 420). *)
Definition zz_rshift (a : zz) (b : Z) : res zz :=
  if (zsize a =? 0) || (b =? 0) then Ok a
  else if b <? 0 then Exn ValueError
  else
    let shw := b / 64 in
    let shb := b mod 64 in
    if Z.abs (zsize a) - shw <=? 0 then UB
    else
      let tmp := skipn (Z.to_nat shw) (zn a) in
      Ok (with_sign (zsize a) (drop_top (fst (nn_shr tmp shb)))).

(** bigint.c:441-452 twocompl, with the carry as an argument. *)
Fixpoint twocompl (l : list Z) (carry : Z) : list Z :=
  match l with
  | [] => []
  | x :: r =>
      let t := W64 - 1 - x in
      if (t <? W64 - 1) || (carry =? 0) then (t + carry) mod W64 :: twocompl r 0
      else 0 :: twocompl r carry
  end.

(** The words used for a number: bigint.c:462-471. *)
Definition words (a : zz) : list Z := if zsize a <? 0 then twocompl (zn a) 1 else zn a.

(** Word by word, bigint.c:494-498: over the length of the second list. *)
Fixpoint map2 (f : Z -> Z -> Z) (a b : list Z) : list Z :=
  match a, b with
  | x :: a', y :: b' => f x y :: map2 f a' b'
  | _, _ => []
  end.

(** res->val.size becomes the position of the highest word that is not 0: bigint.c:488-498. *)
Fixpoint strip (l : list Z) : list Z :=
  match l with
  | [] => []
  | x :: r => match strip r with [] => if x =? 0 then [] else [x] | r' => x :: r' end
  end.

(** bigint.c:499-503. *)
Definition finish (rneg : bool) (l : list Z) : zz :=
  let l1 := strip l in
  if rneg then mkZZ (- zlen l1) (twocompl l1 1) else mkZZ (zlen l1) l1.

(** bigint.c:473-477: the longer operand first. *)
Definition longer_first (a b : zz) : zz * zz :=
  if Z.abs (zsize a) <? Z.abs (zsize b) then (b, a) else (a, b).

(** bigint.c:454-505 __and__. *)
Definition zz_and (a b : zz) : zz :=
  if zsize b =? 0 then mkZZ 0 [] else if zsize a =? 0 then mkZZ 0 [] else
  let rneg := (zsize a <? 0) && (zsize b <? 0) in
  let '(a', b') := longer_first a b in
  let a1 := words a' in let b1 := words b' in
  let high := if zsize b' <? 0 then skipn (length b1) a1 else [] in
  finish rneg (map2 Z.land a1 b1 ++ high).

(** bigint.c:508-553 __or__. *)
Definition zz_or (a b : zz) : zz :=
  if zsize b =? 0 then a else if zsize a =? 0 then b else
  let rneg := (zsize a <? 0) || (zsize b <? 0) in
  let '(a', b') := longer_first a b in
  let a1 := words a' in let b1 := words b' in
  let high := if zsize b' <? 0 then [] else skipn (length b1) a1 in
  finish rneg (map2 Z.lor a1 b1 ++ high).

(** bigint.c:556-600 __xor__. *)
Definition zz_xor (a b : zz) : zz :=
  if zsize b =? 0 then a else if zsize a =? 0 then b else
  let rneg := xorb (zsize a <? 0) (zsize b <? 0) in
  let '(a', b') := longer_first a b in
  let a1 := words a' in let b1 := words b' in
  let high := if zsize b' <? 0 then map (fun x => W64 - 1 - x) (skipn (length b1) a1) else skipn (length b1) a1 in
  finish rneg (map2 Z.lxor a1 b1 ++ high).

(** bigint.c:427-434 __invert__, on values. *)
Definition big_invert (a : Z) : Z := - a - 1.

(** * Parsing *)

(** bigint.c:697: POWINWORD. *)
Definition powinword : list Z :=
  [0;0;62;39;31;27;24;22;20;19;18;18;17;17;16;16;15;15;15;14;14;14;14;13;13;13;13;13;13;12;12;12;12;12;12;12;12].
Definition pow_in_word (base : Z) : Z := nth (Z.to_nat base) powinword 0.

(** bigint.c:702-719: digvalue. *)
Definition digvalue (c : Z) : Z :=
  if (48 <=? c) && (c <=? 57) then c - 48
  else if (65 <=? c) && (c <=? 90) then c - 55
  else if (97 <=? c) && (c <=? 122) then c - 87
  else 99.

(** isspace in the C locale. *)
Definition isspace (c : Z) : bool := (c =? 32) || ((9 <=? c) && (c <=? 13)).

Fixpoint skip_space (s : list Z) : list Z :=
  match s with c :: r => if isspace c then skip_space r else s | [] => [] end.

(** The longest prefix of digits, and the rest. *)
Fixpoint span_digits (base : Z) (s : list Z) : list Z * list Z :=
  match s with
  | c :: r => if digvalue c <? base then let '(d, q) := span_digits base r in (c :: d, q) else ([], s)
  | [] => ([], [])
  end.

(** bigint.c:797-799, 888-889: the value of digits in a machine word. *)
Definition word_value (base : Z) (ds : list Z) : Z := fold_left (fun v c => (v * base + digvalue c) mod W64) ds 0.

(** bigint.c:793-817 set_str0; the fuel bounds the depth of the recursion. zz_seti takes a signed word. *)
Fixpoint set_str0 (fuel : nat) (ds : list Z) (base : Z) (parts : Z) : res Z :=
  match fuel with
  | O => NoFuel
  | S f =>
      if parts =? 1 then Ok (wrapS 64 (word_value base (firstn (Z.to_nat (pow_in_word base)) ds)))
      else
        let hi := parts / 2 in
        let lo := parts - hi in
        do h <- set_str0 f ds base hi;
        do l <- set_str0 f (skipn (Z.to_nat (hi * pow_in_word base)) ds) base lo;
        Ok (base ^ (pow_in_word base * lo) * h + l)
  end.

(** bigint.c:823-829: the sign. *)
Definition read_sign (s : list Z) : Z * list Z :=
  match s with
  | 43 :: r => (1, r)
  | 45 :: r => (-1, r)
  | _ => (1, s)
  end.

(** bigint.c:832-843: the prefix; the base it says (0 if none) and the string of digits. *)
Definition read_prefix (s : list Z) : Z * list Z :=
  match s with
  | 48 :: c :: r =>
      if (c =? 120) || (c =? 88) then (16, r)
      else if (c =? 111) || (c =? 79) then (8, r)
      else if (c =? 98) || (c =? 66) then (2, r)
      else (0, s)
  | _ => (0, s)
  end.

(** bigint.c:844-866: the base. *)
Definition choose_base (intbase : option Z) (basefromstr : Z) : res Z :=
  match intbase with
  | None => Ok (if basefromstr =? 0 then 10 else basefromstr)
  | Some b =>
      if (b <? 2) || (36 <? b) then Exn ValueError
      else if basefromstr =? 0 then Ok b
      else if basefromstr =? b then Ok b else Exn ValueError
  end.

(** bigint.c:820-904 set_str, on the characters before the terminating 0.  In the code the digit 0 that is
    not part of a prefix is counted (len++, line 842) without a test against the base, which is at least
    2. *)
Definition set_str (s : list Z) (intbase : option Z) : res Z :=
  let '(sgn, s1) := read_sign (skip_space s) in
  let '(bs, s2) := read_prefix s1 in
  do base <- choose_base intbase bs;
  let '(ds, rest) := span_digits base s2 in
  match ds, rest with
  | [], _ => Exn ValueError
  | _, _ :: _ => Exn ValueError
  | _, [] =>
      let len := zlen ds in
      let parts := len / pow_in_word base in
      let offset := len mod pow_in_word base in
      if offset =? 0 then set_str0 (S (Z.to_nat parts)) ds base parts
      else
        let headval := word_value base (firstn (Z.to_nat offset) ds) in
        if 0 <? parts then
          do r <- set_str0 (S (Z.to_nat parts)) (skipn (Z.to_nat offset) ds) base parts;
          Ok (sgn * (base ^ (pow_in_word base * parts) * wrapS 64 headval + r))
        else Ok (sgn * wrapS 64 headval)
  end.

(** A C string ends at the first byte 0. *)
Fixpoint cstr (s : list Z) : list Z := match s with c :: r => if c =? 0 then [] else c :: cstr r | [] => [] end.

(** bigint.c:40-46, 132-137: bigint(s, base), bigint(s). *)
Definition bigint_of_str (s : list Z) (intbase : option Z) : res Z := set_str (cstr s) intbase.

(** * Printing *)

(** "%lu": decimal digits of a word. *)
Fixpoint sprint (fuel : nat) (n : Z) : list Z :=
  match fuel with
  | O => []
  | S f => if n <? 10 then [48 + n] else sprint f (n / 10) ++ [48 + n mod 10]
  end.
Definition sprintf_lu (n : Z) : list Z := sprint 20 n.

(** bigint.c:722-747 get_str0: appends to the text so far; d counts levels from 1 (0 is the leaf,
    which has d < 0 in the code); dens[i] = 10^(18*2^i).  A leaf is printed into a buffer of 19 bytes:
    more than 18 digits overflow it. *)
Fixpoint get_str0 (ishead : bool) (n : Z) (d : nat) : res (list Z) :=
  match d with
  | O =>
      let buf := sprintf_lu (n mod W64) in
      if 18 <? zlen buf then UB
      else if ishead then Ok buf
      else Ok (repeat 48 (Z.to_nat (18 - zlen buf)) ++ buf)
  | S d' =>
      let den := 10 ^ (18 * 2 ^ Z.of_nat d') in
      let hi := n / den in
      let lo := n mod den in
      if (hi =? 0) && ishead then get_str0 ishead lo d'
      else do x <- get_str0 ishead hi d'; do y <- get_str0 false lo d'; Ok (x ++ y)
  end.

(** bigint.c:762-767: the number of squarings, d = ceil(log2 nlen + log2 64 - log2 18 - log2 (log2 10)), which is the
    least d with 2^(64 nlen) <= 10^(18 * 2^d).  (The code computes it with doubles.) *)
Fixpoint squarings (fuel : nat) (d : nat) (nlen : Z) : nat :=
  match fuel with
  | O => d
  | S f => if 2 ^ (64 * nlen) <=? 10 ^ (18 * 2 ^ Z.of_nat d) then d else squarings f (S d) nlen
  end.

(** The number of words of a positive number. *)
Definition nwords (n : Z) : Z := Z.log2 n / 64 + 1.

(** bigint.c:750-790 get_str.  The size of the result buffer (line 780, computed with floats) is taken to
    be large enough. *)
Definition get_str (n : Z) : res (list Z) :=
  if n =? 0 then Ok [48]
  else
    let nlen := nwords (Z.abs n) in
    let d := if nlen =? 1 then O else squarings (S (Z.to_nat nlen)) 1 nlen in
    do s <- get_str0 true (Z.abs n) d;
    Ok (if n <? 0 then 45 :: s else s).

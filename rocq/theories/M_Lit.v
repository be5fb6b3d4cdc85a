(** String and bytes literals on their way from the source to the running program:
    compiler/lib/src/Acton/Parser.hs:534-1103, Normalizer.hs:510-516, CodeGen.hs:1588-1591,
    base/builtin/str.c:350-390.  Simplification: literals between single quotes (not three), strings
    without interpolated expressions.  [None] stands for a literal that is not accepted: by the parser
    (parseException ends the compilation, Parser.hs:357-358), by Haskell's read or by the C compiler. *)
From Coq Require Import List ZArith Bool Lia.
From Verif Require Import S_Lit.
Import ListNotations.
Open Scope Z_scope.

(** count' 0 k p of the parser library: as many as there are, at most [k]. *)
Fixpoint take (k : nat) (p : Z -> bool) (s : list Z) : list Z * list Z :=
  match k, s with
  | S k, c :: s' => if p c then let '(a, b) := take k p s' in (c :: a, b) else ([], s)
  | _, _ => ([], s)
  end.
(** Parser.hs:999-1004, 1010-1021: hexEscape, univ1Escape, univ2Escape, after their letter [l]. *)
Definition hexes (k : nat) (l : Z) (s : list Z) : option (list Z * list Z) :=
  let '(ds, r) := take k hex_digit s in
  if Nat.eqb (length ds) k then Some (92 :: l :: ds, r) else None.
(** Parser.hs:1005-1009, octEscape. *)
Definition octs (s : list Z) : option (list Z * list Z) :=
  let '(ds, r) := take 3 oct_digit s in
  if Nat.eqb (length ds) 3 && hd_is (fun c => 51 <? c) ds then None else Some (92 :: ds, r).
(** Parser.hs:998, singleCharEscape. *)
Definition single (c : Z) : bool := existsb (Z.eqb c) [39; 34; 92; 97; 98; 102; 110; 114; 116; 118].

(** Parser.hs:703-717: what follows a backslash in a string. *)
Definition esc_str (q : Z) (s : list Z) : option (list Z * list Z) :=
  match s with
  | [] => None
  | c :: r =>
      if c =? q then Some ([q], r)
      else if c =? 120 then hexes 2 120 r
      else if c =? 117 then hexes 4 117 r
      else if c =? 85 then hexes 8 85 r
      else if oct_digit c then octs s
      else if single c then Some ([92; c], r)
      else if c =? 10 then Some ([], r)
      else None
  end.
(** Parser.hs:654-668 and 700-764: the parts of a string up to the closing quote, as text for C, and
    what follows.  An opening brace starts an expression. *)
Fixpoint parse_str (n : nat) (q : Z) (s : list Z) : option (list Z * list Z) :=
  match n, s with
  | S n, c :: r =>
      let go t r := match parse_str n q r with Some (t', r') => Some (t ++ t', r') | None => None end in
      if c =? q then Some ([], r)
      else if (c =? 123) || (c =? 125) then match r with c' :: r' => if c' =? c then go [c] r' else None | [] => None end
      else if c =? 92 then match esc_str q r with Some (t, r') => go t r' | None => None end
      else if c =? 10 then None
      else go [c] r
  | _, _ => None
  end.
(** Parser.hs:1040-1046: what follows a backslash in a bytes literal. *)
Definition esc_bytes (s : list Z) : option (list Z * list Z) :=
  match s with
  | [] => None
  | c :: r =>
      if c =? 10 then Some ([], r)
      else if single c then Some ([92; c], r)
      else if c =? 120 then hexes 2 120 r
      else if oct_digit c then octs s
      else None
  end.
(** Parser.hs:1065-1099, stringTempl and manyTillEsc with asciiC (1023-1029). *)
Fixpoint parse_bytes (n : nat) (q : Z) (s : list Z) : option (list Z * list Z) :=
  match n, s with
  | S n, c :: r =>
      let go t r := match parse_bytes n q r with Some (t', r') => Some (t ++ t', r') | None => None end in
      if c =? q then Some ([], r)
      else if c =? 92 then match esc_bytes r with Some (t, r') => go t r' | None => None end
      else if c =? 10 then None
      else if c <? 128 then go [c] r
      else None
  | _, _ => None
  end.
(** Parser.hs:1052-1060, rawLiteral. *)
Definition esc_raw (s : list Z) : list Z * list Z :=
  match s with
  | c :: r => if c =? 10 then ([92; 92; 92; 110], r) else if (c =? 39) || (c =? 34) then ([92; 92; 92; c], r) else ([92; 92], s)
  | [] => ([92; 92], [])
  end.
Fixpoint parse_raw (n : nat) (q : Z) (s : list Z) : option (list Z * list Z) :=
  match n, s with
  | S n, c :: r =>
      let go t r := match parse_raw n q r with Some (t', r') => Some (t ++ t', r') | None => None end in
      if c =? q then Some ([], r)
      else if c =? 92 then let '(t, r') := esc_raw r in go t r'
      else if c =? 10 then None
      else go [c] r
  | _, _ => None
  end.

(** ** Parser.hs:964-994, hexSplitString. *)
Fixpoint has_hex (s : list Z) : bool :=
  match s with
  | [] => false
  | a :: s1 =>
      if a =? 92 then
        match s1 with
        | b :: s2 =>
            if b =? 92 then match s2 with c :: s3 => if c =? 120 then has_hex s3 else has_hex s1 | [] => has_hex s1 end
            else if b =? 120 then
              match s2 with
              | h1 :: h2 :: s4 => if hex_digit h1 && hex_digit h2 then true else has_hex s4
              | _ => has_hex s1
              end
            else has_hex s1
        | [] => has_hex s1
        end
      else has_hex s1
  end.
Fixpoint process (s acc : list Z) (chunks : list (list Z)) : list (list Z) :=
  match s with
  | [] => acc :: chunks
  | a :: s1 =>
      match s1 with
      | b :: s2 =>
          if (a =? 92) && (b =? 120) then
            match s2 with
            | h1 :: (h2 :: s4) =>
                if hex_digit h1 && hex_digit h2 then
                  if hd_is hex_digit s4 then process s4 [] ((h2 :: h1 :: b :: a :: acc) :: chunks)
                  else process s4 (h2 :: h1 :: b :: a :: acc) chunks
                else process s2 (b :: a :: acc) chunks
            | _ => process s1 (a :: acc) chunks
            end
          else process s1 (a :: acc) chunks
      | [] => process s1 (a :: acc) chunks
      end
  end.
Definition nonempty (l : list Z) : bool := match l with [] => false | _ => true end.
Definition hex_split (s : list Z) : list (list Z) :=
  match s with
  | [] => [[]]
  | _ => if has_hex s then filter nonempty (rev (map (@rev Z) (process s [] []))) else [s]
  end.

(** ** Normalizer.hs:510-516, catStrings. *)
Fixpoint escape (c : Z) (s : list Z) : list Z :=
  match s with
  | [] => []
  | a :: s1 =>
      match s1 with
      | x :: xs => if a =? 92 then 92 :: x :: escape c xs else if a =? c then 92 :: a :: escape c s1 else a :: escape c s1
      | [] => if a =? c then [92; a] else [a]
      end
  end.
Definition quote (s : list Z) : list Z := 34 :: s ++ [34].
Definition cat_strings (ss : list (list Z)) : list (list Z) := map (fun s => quote (escape 34 s)) ss.

(** ** The C compiler (ISO C 6.4.5, 6.4.4.4, 6.4.3): the bytes of a literal.  A hexadecimal escape
    takes all digits that follow; one that does not fit a byte is an error; so are unknown escapes, \u
    with a number outside of the allowed ones, and ends of lines. *)
Fixpoint span (p : Z -> bool) (s : list Z) : list Z * list Z :=
  match s with
  | c :: s' => if p c then let '(a, b) := span p s' in (c :: a, b) else ([], s)
  | [] => ([], [])
  end.
Definition ucnb (x : Z) : bool :=
  ((160 <=? x) && (x <? 55296)) || ((57344 <=? x) && (x <=? 1114111)) || (x =? 36) || (x =? 64) || (x =? 96).
Definition c_esc (s : list Z) : option (list Z * list Z) :=
  match s with
  | [] => None
  | c :: r =>
      if c =? 120 then
        let '(ds, r') := span hex_digit r in
        if nonempty ds && (number 16 ds <? 256) then Some ([number 16 ds], r') else None
      else if oct_digit c then
        let '(ds, r') := take 3 oct_digit s in
        if number 8 ds <? 256 then Some ([number 8 ds], r') else None
      else if (c =? 117) || (c =? 85) then
        let k := if c =? 117 then 4%nat else 8%nat in
        let '(ds, r') := take k hex_digit r in
        if Nat.eqb (length ds) k && ucnb (number 16 ds) then Some (utf8 (number 16 ds), r') else None
      else match simple c with Some x => Some ([x], r) | None => None end
  end.
Fixpoint c_body (n : nat) (s : list Z) : option (list Z) :=
  match n, s with
  | S n, c :: r =>
      if c =? 34 then match r with [] => Some [] | _ => None end
      else if c =? 92 then
        match c_esc r with
        | Some (b, r') => match c_body n r' with Some bs => Some (b ++ bs) | None => None end
        | None => None
        end
      else if (c =? 10) || (c =? 13) then None
      else match c_body n r with Some bs => Some (utf8 c ++ bs) | None => None end
  | _, _ => None
  end.
Definition c_literal (s : list Z) : option (list Z) :=
  match s with 34 :: r => c_body (length r) r | _ => None end.
(** Adjacent literals are joined after their escapes have been converted (5.1.1.2). *)
Fixpoint c_literals (ss : list (list Z)) : option (list Z) :=
  match ss with
  | [] => Some []
  | s :: ss =>
      match c_literal s, c_literals ss with
      | Some a, Some b => Some (a ++ b)
      | _, _ => None
      end
  end.

(** ** CodeGen.hs:1588 and str.c:350-390, to$str: up to the first NUL, decoded.  utf8proc_iterate is
    taken to decode UTF-8 as RFC 3629 has it. *)
Inductive value := Chars (l : list Z) | Bytes (l : list Z) | ValueError | Overread.
Fixpoint c_string (s : list Z) : list Z := match s with c :: s => if c =? 0 then [] else c :: c_string s | [] => [] end.
Definition tail (b : Z) : bool := (128 <=? b) && (b <? 192).
Fixpoint decode (s : list Z) : option (list Z) :=
  match s with
  | [] => Some []
  | a :: s1 =>
      let put c r := match r with Some l => Some (c :: l) | None => None end in
      if a <? 128 then put a (decode s1)
      else if (194 <=? a) && (a <? 224) then
        match s1 with
        | b :: s2 => if tail b then put (64 * (a - 192) + (b - 128)) (decode s2) else None
        | _ => None
        end
      else if (224 <=? a) && (a <? 240) then
        match s1 with
        | b :: (c :: s3) =>
            let x := 4096 * (a - 224) + 64 * (b - 128) + (c - 128) in
            if tail b && tail c && (2048 <=? x) && negb ((55296 <=? x) && (x <? 57344)) then put x (decode s3) else None
        | _ => None
        end
      else if (240 <=? a) && (a <? 245) then
        match s1 with
        | b :: (c :: (d :: s4)) =>
            let x := 262144 * (a - 240) + 4096 * (b - 128) + 64 * (c - 128) + (d - 128) in
            if tail b && tail c && tail d && (65536 <=? x) && (x <=? 1114111) then put x (decode s4) else None
        | _ => None
        end
      else None
  end.
Definition to_str (bytes : list Z) : value := match decode (c_string bytes) with Some l => Chars l | None => ValueError end.
Definition run_str (chunks : list (list Z)) : option value := option_map to_str (c_literals (cat_strings chunks)).

(** ** CodeGen.hs:1589-1591: the length of a bytes literal, as Haskell reads the literal (Haskell 2010
    Report, 2.6): a backslash and decimal digits are one character with that number. *)
Definition h_esc (s : list Z) : option (list Z) :=
  match s with
  | [] => None
  | c :: r =>
      if c =? 120 then let '(ds, r') := span hex_digit r in if nonempty ds && (number 16 ds <=? 1114111) then Some r' else None
      else if dec_digit c then let '(ds, r') := span dec_digit s in if number 10 ds <=? 1114111 then Some r' else None
      else if single c then Some r else None
  end.
Fixpoint h_body (n : nat) (s : list Z) : option Z :=
  match n, s with
  | S n, c :: r =>
      if c =? 34 then match r with [] => Some 0 | _ => None end
      else if c =? 92 then match h_esc r with Some r' => option_map (Z.add 1) (h_body n r') | None => None end
      else option_map (Z.add 1) (h_body n r)
  | _, _ => None
  end.
Definition h_length (s : list Z) : option Z := match s with 34 :: r => h_body (length r) r | _ => None end.
Fixpoint h_lengths (ss : list (list Z)) : option Z :=
  match ss with
  | [] => Some 0
  | s :: ss => match h_length s, h_lengths ss with Some a, Some b => Some (a + b) | _, _ => None end
  end.
(** str.c, to$bytesD_len: copies that many bytes from the literal, which ends with a NUL. *)
Definition run_bytes (chunks : list (list Z)) : option value :=
  match c_literals (cat_strings chunks), h_lengths (cat_strings chunks) with
  | Some bs, Some n => Some (if n <=? Z.of_nat (length bs) + 1 then Bytes (firstn (Z.to_nat n) (bs ++ [0])) else Overread)
  | _, _ => None
  end.

(** ** From the source, starting after the opening quote, to the value and the rest of the source. *)
Definition literal (parse : nat -> Z -> list Z -> option (list Z * list Z)) (run : list (list Z) -> option value)
    (q : Z) (s : list Z) : option (value * list Z) :=
  match parse (length s) q s with
  | Some (t, r) => option_map (fun v => (v, r)) (run (hex_split t))
  | None => None
  end.
Definition str_literal : Z -> list Z -> option (value * list Z) := literal parse_str run_str.
Definition bytes_literal : Z -> list Z -> option (value * list Z) := literal parse_bytes run_bytes.
Definition raw_literal : Z -> list Z -> option (value * list Z) := literal parse_raw run_str.
(** Parser.hs:596-624, concatStringLiterals: two adjacent strings; what hexSplitString has split is
    joined again. *)
Definition two_literals (q : Z) (s1 s2 : list Z) : option value :=
  match parse_str (length s1) q s1, parse_str (length s2) q s2 with
  | Some (t1, []), Some (t2, []) => run_str [concat (hex_split t1) ++ concat (hex_split t2)]
  | _, _ => None
  end.

(** base/src/uri.act.

    Strings are lists of code points; that indexing, slicing, find and split of the str type do
    on UTF-8 buffers what these functions do on lists is C34-C36 and C62.  Case conversion,
    isalpha (both utf8proc's) and int() are arguments. *)
From Verif Require Import Base S_Uri.
Open Scope Z_scope.

Section M.
Context (upper : Z -> Z) (isalpha : Z -> bool) (int_of : list Z -> option Z).

Definition mem (c : Z) (l : list Z) : bool := existsb (Z.eqb c) l.

(** base/src/uri.act:2 _UNRESERVED. *)
Definition UNRESERVED : list Z :=
  [97;98;99;100;101;102;103;104;105;106;107;108;109;110;111;112;113;114;115;116;117;118;119;120;121;122;
   65;66;67;68;69;70;71;72;73;74;75;76;77;78;79;80;81;82;83;84;85;86;87;88;89;90;
   48;49;50;51;52;53;54;55;56;57; 45;46;95;126].
(** base/src/uri.act:3 _HEX_DIGITS. *)
Definition HEX_DIGITS : list Z := [48;49;50;51;52;53;54;55;56;57;65;66;67;68;69;70].

(** base/builtin/str.c:945-950 str.encode: the bytes of the buffer, which are UTF-8. *)
Definition encode (t : list Z) : list Z := flat_map utf8 t.

(** base/src/uri.act:57-58 _quote_byte; an index outside the digits is an IndexError. *)
Definition quote_byte (b : Z) : res (list Z) :=
  match zget HEX_DIGITS (b / 16), zget HEX_DIGITS (b mod 16) with
  | Some h, Some l => Ok [37; h; l]
  | _, _ => Exn IndexError
  end.

(** base/src/uri.act:6-23 quote. *)
Fixpoint quote_loop (allowed bs : list Z) : res (list Z) :=
  match bs with
  | [] => Ok []
  | b :: bs' =>
      do p <- (if (b <? 128) && mem b allowed then Ok [b] else quote_byte b);
      do r <- quote_loop allowed bs';
      Ok (p ++ r)
  end.
Definition quote (t safe : list Z) : res (list Z) := quote_loop (UNRESERVED ++ safe) (encode t).

(** base/src/uri.act:61-65 _hex_value; find of a single character. *)
Fixpoint index_of (c : Z) (l : list Z) (i : Z) : Z :=
  match l with [] => -1 | x :: t => if x =? c then i else index_of c t (i + 1) end.
Definition hex_value (c : Z) : res Z :=
  let i := index_of (upper c) HEX_DIGITS 0 in
  if i =? -1 then Exn ValueError else Ok i.

(** base/src/uri.act:26-44 the loop of unquote; bytearray.append keeps the low 8 bits
    (base/builtin/str.c:2726). *)
Fixpoint unquote_loop (fuel : nat) (t : list Z) (result : list Z) : res (list Z) :=
  match fuel with
  | O => NoFuel
  | S fuel =>
      match t with
      | [] => Ok result
      | c :: t' =>
          if negb (c =? 37) then unquote_loop fuel t' (result ++ utf8 c)
          else match t' with
               | h :: l :: t'' =>
                   do hi <- hex_value h;
                   do lo <- hex_value l;
                   unquote_loop fuel t'' (result ++ [(hi * 16 + lo) mod 256])
               | _ => Exn ValueError
               end
      end
  end.

(** utf8proc_iterate (an external library) as documented: the code point at the start of the
    bytes and their number; None for anything that is not well-formed UTF-8 (RFC 3629). *)
Definition cont (b : Z) : bool := (128 <=? b) && (b <? 192).
Definition iterate (bs : list Z) : option (Z * list Z) :=
  match bs with
  | [] => None
  | b :: r =>
      if b <? 128 then Some (b, r)
      else if b <? 194 then None
      else if b <? 224 then
        match r with
        | b1 :: r => if cont b1 then Some ((b - 192) * 64 + (b1 - 128), r) else None
        | _ => None
        end
      else if b <? 240 then
        match r with
        | b1 :: b2 :: r =>
            let c := (b - 224) * 4096 + (b1 - 128) * 64 + (b2 - 128) in
            if cont b1 && cont b2 && (2048 <=? c) && negb ((55296 <=? c) && (c <? 57344)) then Some (c, r) else None
        | _ => None
        end
      else if b <? 245 then
        match r with
        | b1 :: b2 :: b3 :: r =>
            let c := (b - 240) * 262144 + (b1 - 128) * 4096 + (b2 - 128) * 64 + (b3 - 128) in
            if cont b1 && cont b2 && cont b3 && (65536 <=? c) && (c <? 1114112) then Some (c, r) else None
        | _ => None
        end
      else None
  end.

(** base/builtin/str.c:1983-1985 bytearray.decode, :350-391 to$str: up to the first byte 0; the
    buffer is terminated by one. *)
Fixpoint decode (fuel : nat) (bs : list Z) : res (list Z) :=
  match fuel with
  | O => NoFuel
  | S fuel =>
      match bs with
      | [] => Ok []
      | b :: _ =>
          if b =? 0 then Ok []
          else match iterate bs with
               | None => Exn ValueError
               | Some (c, r) => do t <- decode fuel r; Ok (c :: t)
               end
      end
  end.

(** base/src/uri.act:26-49 unquote. *)
Definition unquote (t : list Z) : res (list Z) :=
  do bs <- unquote_loop (S (length t)) t [];
  decode (S (length bs)) bs.

(** str.find(c) for a single character, and the slices before it and from it on: t[:i], t[i:]. *)
Fixpoint find (c : Z) (t : list Z) (i : Z) : Z :=
  match t with [] => -1 | x :: t' => if x =? c then i else find c t' (i + 1) end.
Definition upto (t : list Z) (i : Z) : list Z := firstn (Z.to_nat i) t.
Definition from (t : list Z) (i : Z) : list Z := skipn (Z.to_nat i) t.

(** base/src/uri.act:145-167 is_valid_scheme. *)
Definition VALID : list Z :=
  [97;98;99;100;101;102;103;104;105;106;107;108;109;110;111;112;113;114;115;116;117;118;119;120;121;122;
   65;66;67;68;69;70;71;72;73;74;75;76;77;78;79;80;81;82;83;84;85;86;87;88;89;90;
   48;49;50;51;52;53;54;55;56;57; 43;46;45].
Definition is_valid_scheme (s : list Z) : bool :=
  match s with
  | [] => false
  | c :: _ => isalpha c && forallb (fun c => mem c VALID) s
  end.

(** base/src/uri.act:170-184 parse_schema; split(":", 1) cuts at the first colon. *)
Definition parse_schema (uri : list Z) : res (option (list Z) * list Z) :=
  let i := find 58 uri 0 in
  if i =? -1 then Ok (None, uri)
  else
    let '(s, r) := (upto uri i, from uri (i + 1)) in
    match r with
    | 47 :: 47 :: r' => if is_valid_scheme s then Ok (Some s, r') else Exn ValueError
    | _ => Exn ValueError
    end.

(** base/src/uri.act:187-228 parse_authority. *)
Definition first_of (uri : list Z) : Z :=
  let '(s, q, h) := (find 47 uri 0, find 63 uri 0, find 35 uri 0) in
  let e := -1 in
  let e := if negb (s =? -1) then s else e in
  let e := if negb (q =? -1) && ((e =? -1) || (q <? e)) then q else e in
  if negb (h =? -1) && ((e =? -1) || (h <? e)) then h else e.
Definition parse_authority (uri : list Z) : res (option (list Z) * option (list Z) * option Z * list Z) :=
  match uri with
  | [] => Ok (None, None, None, [])
  | _ =>
      let e := first_of uri in
      let '(a, r) := if e =? -1 then (uri, []) else (upto uri e, from uri e) in
      match a with
      | [] => Ok (None, None, None, r)
      | _ =>
          let i := find 58 a 0 in
          if i =? -1 then Ok (Some a, Some a, None, r)
          else match int_of (from a (i + 1)) with
               | None => Exn ValueError
               | Some p => if (p <? 0) || (65535 <? p) then Exn ValueError
                           else Ok (Some a, Some (upto a i), Some p, r)
               end
      end
  end.

(** base/src/uri.act:230-246 parse_path. *)
Definition parse_path (uri : list Z) : option (list Z) * list Z :=
  match uri with
  | [] => (None, [])
  | c :: _ =>
      let uri := if negb (c =? 47) then 47 :: uri else uri in
      let '(q, h) := (find 63 uri 0, find 35 uri 0) in
      if negb (q =? -1) && ((h =? -1) || (q <? h)) then (Some (upto uri q), from uri q)
      else if negb (h =? -1) then (Some (upto uri h), from uri h)
      else (Some uri, [])
  end.

(** base/src/uri.act:248-259 parse_query. *)
Definition parse_query (uri : list Z) : option (list Z) * list Z :=
  match uri with
  | 63 :: t =>
      let h := find 35 uri 0 in
      if negb (h =? -1) then (Some (from (upto uri h) 1), from uri h)
      else (Some t, [])
  | _ => (None, uri)
  end.

(** base/src/uri.act:261-265 parse_fragment. *)
Definition parse_fragment (uri : list Z) : option (list Z) :=
  match uri with 35 :: t => Some t | _ => None end.

(** base/src/uri.act:90-118 URI.__init__. *)
Definition parse (s : list Z) : res parts :=
  do (sc, r) <- parse_schema s;
  do (aut, r) <- parse_authority r;
  let '(a, h, p) := aut in
  let '(pa, r) := parse_path r in
  let '(q, r) := parse_query r in
  Ok (Parts sc a h p pa q (parse_fragment r)).

(** base/src/uri.act:120-132 URI.__str__, :139-140 e_str. *)
Definition e_str (o : option (list Z)) : list Z := match o with Some t => t | None => [] end.
Definition sep (o : option (list Z)) (t : list Z) : list Z := match o with Some _ => t | None => [] end.
Definition print (u : parts) : list Z :=
  e_str (scheme u) ++ sep (scheme u) [58; 47; 47] ++ e_str (authority u) ++ e_str (path u) ++
  sep (query u) [63] ++ e_str (query u) ++ sep (fragment u) [35] ++ e_str (fragment u).
End M.

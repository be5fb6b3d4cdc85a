(** Model of base/src/json.ext.c: turning values into documents of yyjson and back.  yyjson
    itself (writing and reading text) is an argument.  Dicts are association lists in
    insertion order (C09). *)
From Verif Require Import Base M_Str S_Str M_Bigint S_Xml M_Xml S_Json.

(** base/src/json.ext.c:27-32 jsonQ_encode_bigint; get_str of base/builtin/bigint.c. *)
Definition encode_bigint (as_string : bool) (z : Z) : res yy :=
  do number <- get_str z;
  if as_string then Ok (YStr number) else Ok (YRaw number).

(** base/src/json.ext.c:35-108 jsonQ_encode_dict and :110-184 jsonQ_encode_list_into: the
    same cases for the values of a dict and the elements of a list.  Strings and keys are
    handed over as C strings. *)
Fixpoint encode_value (as_string : bool) (v : value) : res yy :=
  match v with
  | VNone => Ok YNull
  | VInt z => Ok (YSint z)
  | VFloat r => Ok (YReal r)
  | VBool b => Ok (YBool b)
  | VStr s => Ok (YStr (cut (sbytes s)))
  | VBig z => encode_bigint as_string z
  | VList l =>
      do ys <- (fix go (l : list value) : res (list yy) :=
                  match l with
                  | [] => Ok []
                  | v :: l' => do y <- encode_value as_string v; do ys <- go l'; Ok (y :: ys)
                  end) l;
      Ok (YArr ys)
  | VDict l =>
      do ys <- (fix go (l : list (str * value)) : res (list (list Z * yy)) :=
                  match l with
                  | [] => Ok []
                  | (k, v) :: l' => do y <- encode_value as_string v; do ys <- go l'; Ok ((cut (sbytes k), y) :: ys)
                  end) l;
      Ok (YObj ys)
  | VFixed (KI8 | KI16 | KI32 | KI64) z => Ok (YSint z)
  | VFixed (KU1 | KU8 | KU16 | KU32 | KU64) z => Ok (YUint z)
  | VOther => Exn ValueError
  end.

(** base/src/json.ext.c:188-200 jsonQ_decode_integer, on a raw number. *)
Definition decode_raw (s : list Z) : res value :=
  if existsb (fun c => (c =? 46) || (c =? 101) || (c =? 69)) s then Exn ValueError
  else mapr VBig (bigint_of_str s None).
(** base/src/json.ext.c:201-207, on an unsigned number. *)
Definition decode_uint (z : Z) : value := if 2 ^ 63 - 1 <? z then VFixed KU64 z else VInt z.

(** B_dictD_setitem on an association list. *)
Definition streqb (a b : str) : bool := beqb (sbytes a) (sbytes b).
Fixpoint setitem (k : str) (v : value) (l : list (str * value)) : list (str * value) :=
  match l with
  | [] => [(k, v)]
  | (k', v') :: l' => if streqb k k' then (k', v) :: l' else (k', v') :: setitem k v l'
  end.

(** base/src/json.ext.c:210-260 jsonQ_decode_obj and :262-309 jsonQ_decode_arr: the same
    cases for members and elements. *)
Fixpoint decode_value (y : yy) : res value :=
  match y with
  | YRaw s => decode_raw s
  | YNull => Ok VNone
  | YBool b => Ok (VBool b)
  | YUint z => Ok (decode_uint z)
  | YSint z => Ok (VInt z)
  | YReal r => Ok (VFloat r)
  | YStr s => Ok (VStr (to_str s))
  | YArr l =>
      do vs <- (fix go (l : list yy) : res (list value) :=
                  match l with
                  | [] => Ok []
                  | y :: l' => do v <- decode_value y; do vs <- go l'; Ok (v :: vs)
                  end) l;
      Ok (VList vs)
  | YObj l =>
      do d <- (fix go (l : list (list Z * yy)) (d : list (str * value)) : res (list (str * value)) :=
                 match l with
                 | [] => Ok d
                 | (k, y) :: l' => do v <- decode_value y; go l' (setitem (to_str k) v d)
                 end) l [];
      Ok (VDict d)
  end.

Section lib.
  (** yyjson_mut_write_opts and yyjson_read_opts: NULL is None. *)
  Variable write : bool -> yy -> option (list Z).
  Variable read : list Z -> option yy.

  (** base/src/json.ext.c:353-387 jsonQ__encode and jsonQ__encode_list; to$str(NULL) is
      undefined. *)
  Definition encode (data : list (str * value)) (pretty as_string : bool) : res str :=
    do y <- encode_value as_string (VDict data);
    match write pretty y with Some t => Ok (to_str t) | None => UB end.
  Definition encode_list (data : list value) (pretty as_string : bool) : res str :=
    do y <- encode_value as_string (VList data);
    match write pretty y with Some t => Ok (to_str t) | None => UB end.

  (** base/src/json.ext.c:311-330 jsonQ__decode: iterating over what is not an object yields
      nothing. *)
  Definition decode (data : str) : res value :=
    match read (cut (sbytes data)) with
    | None => Exn ValueError
    | Some (YObj l) => decode_value (YObj l)
    | Some _ => Ok (VDict [])
    end.
  (** base/src/json.ext.c:332-351 jsonQ__decode_list. *)
  Definition decode_list (data : str) : res value :=
    match read (cut (sbytes data)) with
    | None => Exn ValueError
    | Some (YArr l) => decode_value (YArr l)
    | Some _ => Exn ValueError
    end.
End lib.

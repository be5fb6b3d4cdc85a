(** Specification of JSON encoding: values, documents, and what a JSON library makes of a
    document it has written. *)
From Verif Require Import Base M_Str S_Str S_Bigint.

(** ** Acton values that occur in JSON. *)
Inductive kind := KI8 | KI16 | KI32 | KI64 | KU1 | KU8 | KU16 | KU32 | KU64.
Inductive value :=
| VNone | VBool (b : bool) | VInt (z : Z) | VFixed (k : kind) (z : Z) | VFloat (bits : Z)
| VStr (s : str) | VBig (z : Z) | VList (l : list value) | VDict (l : list (str * value))
| VOther.

(** ** Documents of the JSON library (yyjson).  Raw is a number in its text form. *)
Inductive yy :=
| YNull | YBool (b : bool) | YUint (z : Z) | YSint (z : Z) | YReal (bits : Z) | YStr (s : list Z)
| YRaw (s : list Z) | YArr (l : list yy) | YObj (l : list (list Z * yy)).

Definition finite (bits : Z) : Prop := (bits / 2 ^ 52) mod 2 ^ 11 <> 2047.

(** An integer of at most 64 bits, unsigned unless negative, is read as such. *)
Definition word (z : Z) (w : yy) : Prop := 0 <= z < 2 ^ 64 /\ w = YUint z \/ - 2 ^ 63 <= z < 0 /\ w = YSint z.
Definition is_utf8 (b : list Z) : Prop := exists cs, text cs /\ b = concat cs.

(** [reads_as v w]: if v is written, w is read. *)
Inductive reads_as : yy -> yy -> Prop :=
| R_null : reads_as YNull YNull
| R_bool b : reads_as (YBool b) (YBool b)
| R_uint z w : word z w -> reads_as (YUint z) w
| R_sint z w : word z w -> reads_as (YSint z) w
| R_raw z s w : decimal z s -> word z w -> reads_as (YRaw s) w
| R_rawbig z s : decimal z s -> z < - 2 ^ 63 \/ 2 ^ 64 <= z -> reads_as (YRaw s) (YRaw s)
| R_real r : finite r -> reads_as (YReal r) (YReal r)
| R_str s : is_utf8 s -> reads_as (YStr s) (YStr s)
| R_arr l m : Forall2 reads_as l m -> reads_as (YArr l) (YArr m)
| R_obj l m : Forall2 (fun a b => fst a = fst b /\ is_utf8 (fst a) /\ reads_as (snd a) (snd b)) l m -> reads_as (YObj l) (YObj m).
(** A library that reads what it writes. *)
Definition faithful (write : yy -> option (list Z)) (read : list Z -> option yy) : Prop :=
  forall v w, reads_as v w -> exists t, write v = Some t /\ Forall (fun c => c <> 0) t /\ read t = Some w.

(** ** Values that JSON can carry. *)
Definition range (k : kind) (z : Z) : Prop :=
  match k with
  | KI8 => - 2 ^ 7 <= z < 2 ^ 7 | KI16 => - 2 ^ 15 <= z < 2 ^ 15 | KI32 => - 2 ^ 31 <= z < 2 ^ 31 | KI64 => - 2 ^ 63 <= z < 2 ^ 63
  | KU1 => 0 <= z < 2 | KU8 => 0 <= z < 2 ^ 8 | KU16 => 0 <= z < 2 ^ 16 | KU32 => 0 <= z < 2 ^ 32 | KU64 => 0 <= z < 2 ^ 64
  end.
Definition cstring (s : str) : Prop := exists cs, text cs /\ nulfree cs /\ s = ustr cs.
(** The big integers that are printed (C59) and read (C53) rightly. *)
Definition big_ok (z : Z) : Prop :=
  (Z.abs z < 10 ^ 18 \/ 2 ^ 64 <= Z.abs z) /\ (z < 0 -> forall s, decimal z s -> (zlen s - 1) mod 18 <> 0).
(** With a condition on the big integers in it. *)
Inductive json_ok (big : Z -> Prop) : value -> Prop :=
| J_none : json_ok big VNone
| J_bool b : json_ok big (VBool b)
| J_int z : - 2 ^ 63 <= z < 2 ^ 63 -> json_ok big (VInt z)
| J_fixed k z : range k z -> json_ok big (VFixed k z)
| J_float r : finite r -> json_ok big (VFloat r)
| J_str s : cstring s -> json_ok big (VStr s)
| J_big z : big z -> json_ok big (VBig z)
| J_list l : Forall (json_ok big) l -> json_ok big (VList l)
| J_dict l : NoDup (map fst l) -> Forall (fun e => cstring (fst e) /\ json_ok big (snd e)) l -> json_ok big (VDict l).

(** ** The value that comes back: integers lose their type, but not their value. *)
Definition an_integer (z : Z) : value :=
  if (- 2 ^ 63 <=? z) && (z <? 2 ^ 63) then VInt z
  else if (0 <=? z) && (z <? 2 ^ 64) then VFixed KU64 z
  else VBig z.
Inductive same (strings : bool) : value -> value -> Prop :=
| E_none : same strings VNone VNone
| E_bool b : same strings (VBool b) (VBool b)
| E_int z : same strings (VInt z) (VInt z)
| E_fixed k z : same strings (VFixed k z) (an_integer z)
| E_float r : same strings (VFloat r) (VFloat r)
| E_str s : same strings (VStr s) (VStr s)
| E_big z : strings = false -> same strings (VBig z) (an_integer z)
| E_bigstr z s : strings = true -> decimal z (sbytes s) -> nchars s = zlen (sbytes s) -> same strings (VBig z) (VStr s)
| E_list l m : Forall2 (same strings) l m -> same strings (VList l) (VList m)
| E_dict l m : Forall2 (fun a b => fst a = fst b /\ same strings (snd a) (snd b)) l m -> same strings (VDict l) (VDict m).

(** A value of an unsupported type somewhere inside. *)
Inductive unsupported : value -> Prop :=
| U_here : unsupported VOther
| U_list l : Exists unsupported l -> unsupported (VList l)
| U_dict l : Exists (fun e => unsupported (snd e)) l -> unsupported (VDict l).
Inductive printable : value -> Prop :=
| P_atom v : match v with VList _ | VDict _ | VBig _ => False | _ => True end -> printable v
| P_big z : Z.abs z < 10 ^ 18 \/ 2 ^ 64 <= Z.abs z -> printable (VBig z)
| P_list l : Forall printable l -> printable (VList l)
| P_dict l : Forall (fun e => printable (snd e)) l -> printable (VDict l).

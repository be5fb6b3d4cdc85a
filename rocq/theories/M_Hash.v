(** Model of the hash methods of the built-in hashable types.

    The hasher (base/builtin/hasher.c) wraps Zig's Wyhash (base/__root.zig:71-91), which is
    outside the repository.  A hasher is modelled by the sequence of byte strings it was
    updated with; the digest is an arbitrary function [wy] of that sequence. *)
From Verif Require Import Base M_Int.
Local Open Scope Z_scope.

(** [n] bytes of the little-endian representation of [z]. *)
Fixpoint le_bytes (n : nat) (z : Z) : list Z :=
  match n with O => [] | S k => z mod 256 :: le_bytes k (z / 256) end.

(** Values as heap objects; [addr] is the address of the box.  A double is its 64-bit
    pattern.  A str is its bytes (without the terminating NUL). *)
Inductive obj :=
| OInt (addr : Z) (t : ity) (v : Z)
| OBig (addr : Z) (z : zz)
| OBool (b : bool)
| OFloat (addr : Z) (w : Z)
| OComplex (addr : Z) (re im : Z)
| OStr (addr : Z) (s : list Z)
| OBytes (addr : Z) (s : list Z)
| OTuple (addr : Z) (l : list obj).

(** The bytes of a C string before its first NUL: what strlen and strcmp see. *)
Fixpoint cstr (s : list Z) : list Z :=
  match s with [] => [] | c :: r => if c =? 0 then [] else c :: cstr r end.

Fixpoint bytes_eq (a b : list Z) : bool :=
  match a, b with
  | [], [] => true
  | x :: a', y :: b' => (x =? y) && bytes_eq a' b'
  | _, _ => false
  end.

(** C's == on doubles, by bit pattern: NaN equals nothing, the two zeros are equal. *)
Definition is_nan (w : Z) : bool :=
  (0x7ff0000000000000 <? w mod 2 ^ 63).
Definition dbl_eq (a b : Z) : bool :=
  negb (is_nan a) && negb (is_nan b)
  && ((a =? b) || ((a mod 2 ^ 63 =? 0) && (b mod 2 ^ 63 =? 0))).

(** Equality: int.c:246-248 and the other integer files; bigint.c:625-627 (zz_equal of the
    BSDNT library compares size and limbs); bool.c:75-77; float.c:197-199;
    complex.c:134-136; str.c:1576-1578 (strcmp); str.c:3699-3706;
    builtin_functions.c:471-480, 630-632 for tuples (component witnesses in order).
    Values of different types are never compared; the model answers false. *)
Fixpoint obj_eq (a b : obj) : bool :=
  match a, b with
  | OInt _ t v, OInt _ t' v' =>
    match t, t' with
    | TInt, TInt | TI32, TI32 | TI16, TI16 | TI8, TI8 | TU64, TU64 | TU32, TU32
    | TU16, TU16 | TU8, TU8 | TU1, TU1 => v =? v'
    | _, _ => false
    end
  | OBig _ z, OBig _ z' =>
    (size z =? size z')
    && bytes_eq (firstn (Z.to_nat (Z.abs (size z))) (limbs z))
                (firstn (Z.to_nat (Z.abs (size z'))) (limbs z'))
  | OBool x, OBool y => Bool.eqb x y
  | OFloat _ w, OFloat _ w' => dbl_eq w w'
  | OComplex _ r i, OComplex _ r' i' => dbl_eq r r' && dbl_eq i i'
  | OStr _ s, OStr _ s' => bytes_eq (cstr s) (cstr s')
  | OBytes _ s, OBytes _ s' => bytes_eq s s'
  | OTuple _ l, OTuple _ l' =>
    (fix go l l' :=
       match l, l' with
       | [], [] => true
       | x :: r, y :: r' => obj_eq x y && go r r'
       | _, _ => false
       end) l l'
  | _, _ => false
  end.

Section Hash.
Variable wy : list (list Z) -> Z.

(** The byte strings an object feeds to the hasher.
    int.c:272-275, u64.c:262-265, u32.c, u16.c, u8.c, u1.c: the 8 bytes at &(a->val); a
    narrower val is followed by padding, which calloc zeroes (base/rts/common.c:140-142).
    i32.c:269-272, i16.c:269-272, i8.c:269-272: 4 bytes at &(a), i.e. of the local variable a
    that holds the pointer.  bigint.c:651-660: the lowest limb, or 0.  bool.c:83-86:
    val and the padding of the static object.  float.c:224-227: 8 bytes at &a, the pointer
    again.  complex.c:145-148: the 16 bytes of the value.  str.c:1602-1605: up to the first
    NUL.  str.c:3884-3887: the whole bytes.  builtin_functions.c:638-652: for each tuple
    component the digest of a fresh hasher. *)
Fixpoint hash_updates (o : obj) : list (list Z) :=
  match o with
  | OInt addr t v =>
    match t with
    | TI32 | TI16 | TI8 => [le_bytes 4 addr]
    | _ => [le_bytes 8 (wrapU 64 v)]
    end
  | OBig _ z => [le_bytes 8 (if size z =? 0 then 0 else limb0 z)]
  | OBool b => [le_bytes 8 (if b then 1 else 0)]
  | OFloat addr _ => [le_bytes 8 addr]
  | OComplex _ re im => [le_bytes 8 re ++ le_bytes 8 im]
  | OStr _ s => [cstr s]
  | OBytes _ s => [s]
  | OTuple _ l => map (fun c => le_bytes 8 (wy (hash_updates c))) l
  end.

(** base/src/__builtin__.act: def hash(x). *)
Definition hash (o : obj) : Z := wy (hash_updates o).
End Hash.

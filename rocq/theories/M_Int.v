(** Model of the fixed-width integer types: base/builtin/int.c, i32.c, i16.c, i8.c,
    u64.c, u32.c, u16.c, u8.c, u1.c and the macros in the headers of the same names.

    The nine files are instances of one text; the differences are recorded where they
    occur.  Values are boxed (struct { class; val }); a box is modelled by its [val].
    Compiled Acton code calls either the witness methods on boxes ("boxed") or C
    operators and the header macros directly ("unboxed",
    compiler/lib/src/Acton/CodeGen.hs:1618-1633); both paths are modelled. *)
From Verif Require Import Base.
Local Open Scope Z_scope.

(** int.h:1-4, i32.h:1-4, i16.h:1-4, i8.h:1-4, u64.h:1-4, u32.h:1-4, u16.h:1-4,
    u8.h:1-4, u1.h:1-4: the C type of the field val. *)
Inductive ity := TInt | TI32 | TI16 | TI8 | TU64 | TU32 | TU16 | TU8 | TU1.

Definition bits (t : ity) : Z :=
  match t with
  | TInt | TU64 => 64 | TI32 | TU32 => 32 | TI16 | TU16 => 16 | TI8 | TU8 => 8 | TU1 => 1
  end.
Definition signed (t : ity) : bool :=
  match t with TInt | TI32 | TI16 | TI8 => true | _ => false end.

(** Conversion of a C integer to the type of val, as done by the calls toB_T(e)
    (int.c:64-69 and the same lines of the other files).  For u1 toB_u1 applies
    U1_NORM (u1.c:17, 70-75), i.e. keeps the lowest bit. *)
Definition norm (t : ity) (z : Z) : Z :=
  if signed t then wrapS (bits t) z else wrapU (bits t) z.

(** C's integer promotions: operands narrower than int are computed in int. *)
Definition pbits (t : ity) : Z := match t with TInt | TU64 => 64 | _ => 32 end.
Definition psigned (t : ity) : bool := match t with TU64 | TU32 => false | _ => true end.
(** Result of a C arithmetic operator on promoted operands, under -fwrapv. *)
Definition prom (t : ity) (z : Z) : Z :=
  if psigned t then wrapS (pbits t) z else wrapU (pbits t) z.

(** int.c:84-86 __add__, :231-233 __sub__, :100-102 __mul__, :115-117 __neg__,
    :119-121 __pos__, :209-211 __invert__, :216-226 and/or/xor; same names in the other
    files; u1.c:16-26 applies U1_NORM to the result.  The unboxed path casts the result
    of the C operator to the type (CodeGen.hs:1627, castRawResult). *)
Definition i_add (t : ity) (a b : Z) : Z := norm t (prom t (a + b)).
Definition i_sub (t : ity) (a b : Z) : Z := norm t (prom t (a - b)).
Definition i_mul (t : ity) (a b : Z) : Z := norm t (prom t (a * b)).
Definition i_neg (t : ity) (a : Z) : Z := norm t (prom t (- a)).
Definition i_pos (t : ity) (a : Z) : Z := a.
Definition i_invert (t : ity) (a : Z) : Z := norm t (prom t (Z.lnot a)).
Definition i_and (t : ity) (a b : Z) : Z := norm t (prom t (Z.land a b)).
Definition i_or (t : ity) (a b : Z) : Z := norm t (prom t (Z.lor a b)).
Definition i_xor (t : ity) (a b : Z) : Z := norm t (prom t (Z.lxor a b)).

(** int.c:201-207 __lshift__, __rshift__ (same names in the other files): the shift
    count is an int64_t and is not checked, so a count outside 0 .. width-1 of the
    promoted type is undefined. *)
Definition i_lshift (t : ity) (a s : Z) : res Z :=
  if (s <? 0) || (pbits t <=? s) then UB else Ok (norm t (prom t (Z.shiftl a s))).
Definition i_rshift (t : ity) (a s : Z) : res Z :=
  if (s <? 0) || (pbits t <=? s) then UB else Ok (norm t (prom t (Z.shiftr a s))).

(** The C operators / and % on promoted operands.  Division by zero is undefined, and
    so is the quotient of the smallest int (or long) by -1, which traps; for i16 and i8
    the operands are computed in int, where that quotient exists. *)
Definition c_div_ok (t : ity) (a b : Z) : bool :=
  negb (b =? 0)
  && negb (psigned t && (a =? - 2 ^ (pbits t - 1)) && (b =? -1)).
Definition c_div (t : ity) (a b : Z) : res Z :=
  if c_div_ok t a b then Ok (prom t (Z.quot a b)) else UB.
Definition c_rem (t : ity) (a b : Z) : res Z :=
  if c_div_ok t a b then Ok (prom t (Z.rem a b)) else UB.

(** int.c:191-195 __floordiv__ (boxed); int.h:17 T_FLOORDIV (unboxed) is the same text,
    except u1.h:12, which returns the dividend, i.e. divides by 1. *)
Definition i_floordiv (t : ity) (a b : Z) : res Z :=
  if b =? 0 then Exn ZeroDivisionError else mapr (norm t) (c_div t a b).

(** int.c:197-199 __mod__ (boxed): no test of the divisor, except u1.c:29 U1_MOD. *)
Definition i_mod (t : ity) (a b : Z) : res Z :=
  match t with
  | TU1 => if b =? 0 then Exn ZeroDivisionError else mapr (norm t) (c_rem t a b)
  | _ => mapr (norm t) (c_rem t a b)
  end.
(** int.h:18 T_MOD (unboxed). *)
Definition i_mod_unboxed (t : ity) (a b : Z) : res Z :=
  if b =? 0 then Exn ZeroDivisionError else mapr (norm t) (c_rem t a b).

(** int.c:185-189 __divmod__: no test of the divisor, except u1.c:189-193. *)
Definition i_divmod (t : ity) (a b : Z) : res (Z * Z) :=
  if (match t with TU1 => b =? 0 | _ => false end) then Exn ZeroDivisionError
  else do q <- c_div t a b; do r <- c_rem t a b; Ok (norm t q, norm t r).

(** int.c:18-23 int_pow, i32.c:18-23 i32_pow, i16.c:18-23, i8.c:18-23: arguments and
    result have the C type of [t].  The recursion halves e (C division truncates), so it
    ends; [fuel] bounds it. *)
Fixpoint c_pow (fuel : nat) (t : ity) (a e : Z) : res Z :=
  match fuel with
  | O => NoFuel
  | S k =>
    if e =? 0 then Ok 1
    else if e =? 1 then Ok a
    else
      let a2 := norm t (prom t (a * a)) in
      do r <- c_pow k t a2 (norm t (Z.quot e 2));
      if Z.rem e 2 =? 0 then Ok r else Ok (norm t (prom t (a * r)))
  end.
(** Enough for every 64-bit exponent (T_Int.v). *)
Definition pow_fuel : nat := 66.

(** u64.c:18-23, u32.c:18-23, u16.c:18-23, u8.c:18-23 T_pow, u1.c:32-37: one unfolding in
    the unsigned type, then int_pow (a long function). *)
Definition u_pow (t : ity) (a e : Z) : res Z :=
  if e =? 0 then Ok 1
  else if e =? 1 then Ok a
  else
    let a2 := wrapS 64 (prom t (a * a)) in
    do r <- c_pow pow_fuel TInt a2 (wrapS 64 (Z.quot e 2));
    if Z.rem e 2 =? 0 then Ok (norm t r) else Ok (norm t (a * r)).

(** int.c:104-113 __pow__ (boxed; signed types test for a negative exponent);
    u64.c:101-105 etc.: int_pow applied to the values converted to long. *)
Definition i_pow (t : ity) (a e : Z) : res Z :=
  if signed t then
    if e <? 0 then Exn ValueError else c_pow pow_fuel t a e
  else mapr (norm t) (c_pow pow_fuel TInt (wrapS 64 a) (wrapS 64 e)).
(** Unboxed: CodeGen.hs:1624-1626, 1631 call T_pow directly. *)
Definition i_pow_unboxed (t : ity) (a e : Z) : res Z :=
  if signed t then c_pow pow_fuel t a e else u_pow t a e.

(** The variable pval of __round__: int.c:159 int64_t; i32.c:156, i16.c:156, i8.c:156
    int; u64.c:149 int64_t, u32.c:149 int32_t, u16.c:149 int16_t, u8.c:149 int8_t,
    u1.c:163 uint8_t.  A NULL p is the value 0. *)
Definition round_p (t : ity) (p : Z) : Z :=
  match t with
  | TInt | TU64 => p
  | TI32 | TI16 | TI8 | TU32 => wrapS 32 p
  | TU16 => wrapS 16 p
  | TU8 => wrapS 8 p
  | TU1 => wrapU 8 p
  end.
(** p10: int.c:162 int64_t from int_pow; i32.c:159, i16.c:159, i8.c:159 int from T_pow,
    whose arguments are converted to T; u64.c:152 uint64_t, u32.c:152 uint32_t,
    u16.c:152 uint16_t, u8.c:152 uint8_t from int_pow. *)
Definition round_p10 (t : ity) (pv : Z) : res Z :=
  let k := match t with TInt | TU64 => wrapS 64 (- pv) | _ => wrapS 32 (- pv) end in
  if signed t then c_pow pow_fuel t 10 (norm t k)
  else mapr (norm t) (c_pow pow_fuel TInt 10 k).

(** int.c:155-167 __round__ after the sign has been handled; u64.c:147-157 etc.  The
    local variables res and p10 have the promoted type for the signed types and the type
    itself for the unsigned ones. *)
Definition round_pos (t : ity) (n p : Z) : res Z :=
  let pv := round_p t p in
  if 0 <=? pv then Ok n
  else
    do p10 <- round_p10 t pv;
    do q <- c_div t n p10;
    do r <- c_rem t n p10;
    let q1 := if p10 <? prom t (r * 2) then prom t (q + 1) else q in
    Ok (norm t (prom t ((if signed t then q1 else norm t q1) * p10))).

(** int.c:155-158: a negative n is negated and rounded by a recursive call.  The unsigned
    types have no such case. *)
Fixpoint i_round (fuel : nat) (t : ity) (n p : Z) : res Z :=
  match fuel with
  | O => NoFuel
  | S k =>
    if signed t && (n <? 0) then
      do r <- i_round k t (i_neg t n) p; Ok (i_neg t r)
    else round_pos t n p
  end.

(** int.c:131-133 __abs__ before conversion to the result type (labs, abs). *)
Definition i_abs (t : ity) (a : Z) : Z :=
  if signed t then norm t (prom t (Z.abs a)) else a.

(** int.c:246-268 and the same names elsewhere: comparison of the values. *)
Definition i_eq (a b : Z) : bool := a =? b.
Definition i_ne (a b : Z) : bool := negb (a =? b).
Definition i_lt (a b : Z) : bool := a <? b.
Definition i_le (a b : Z) : bool := a <=? b.
Definition i_gt (a b : Z) : bool := b <? a.
Definition i_ge (a b : Z) : bool := b <=? a.

(** The value of a bigint (base/builtin/bigint.h: struct zz_struct of the BSDNT library):
    64-bit limbs, least significant first; the sign is the sign of [size], the number
    of limbs its absolute value.  [limbs] may be longer than that (alloc). *)
Record zz := mkZZ { limbs : list Z; size : Z }.

Fixpoint limbs_value (l : list Z) : Z :=
  match l with [] => 0 | x :: r => x + 2 ^ 64 * limbs_value r end.
Definition zz_value (z : zz) : Z :=
  Z.sgn (size z) * limbs_value (firstn (Z.to_nat (Z.abs (size z))) (limbs z)).

(** bigint.c:673-682 toB_bigint.  Values 0..255 come from a static table of the same
    shape (bigint.c:922 and following). *)
Definition toB_bigint (n : Z) : zz :=
  mkZZ [if 0 <? n then n else - n] (if n <? 0 then -1 else if 0 <? n then 1 else 0).

(** The atoms that are integers, as arguments of the constructors. *)
Inductive atom :=
| AInt (t : ity) (v : Z)
| ABool (b : bool)
| ABig (z : zz).

(** bigint.c:52-119, 134: B_bigintG_new on integer atoms without a base argument. *)
Definition bigint_new (a : atom) : zz :=
  match a with
  | ABig z => z
  | AInt t v =>
    if signed t then toB_bigint v
    else if v =? 0 then toB_bigint 0 else mkZZ [v] 1
  | ABool b => toB_bigint (if b then 1 else 0)
  end.

(** First limb; the array always has at least one element (bigint.c:22-29). *)
Definition limb0 (z : zz) : Z := hd 0 (limbs z).

(** int.c:27-37 B_intG_new, i32.c:27-37, i16.c:27-37, i8.c:27-37, u64.c:28-38,
    u32.c:28-38, u16.c:28-38, u8.c:28-38, u1.c:42-52.  The variable sz is an int (long in
    i32, i16, i8).  The bounds in i16.c:31 and i8.c:31 are those of i32.c:31. *)
Definition size_var (t : ity) (s : Z) : Z :=
  match t with TI32 | TI16 | TI8 => s | _ => wrapS 32 s end.
Definition int_new (t : ity) (a : atom) : res Z :=
  let b := bigint_new a in
  let n := limb0 b in
  let sz := size_var t (size b) in
  let bad :=
    match t with
    | TInt => (1 <? Z.abs sz) || ((sz =? 1) && (0x7fffffffffffffff <? n))
              || ((sz =? -1) && (0x8000000000000000 <? n))
    | TI32 | TI16 | TI8 =>
      (1 <? Z.abs sz) || ((sz =? 1) && (0x7fffffff <? n))
              || ((sz =? -1) && (0x80000000 <? n))
    | TU64 => (1 <? sz) || (sz <? 0)
    | TU32 => (1 <? sz) || (sz <? 0) || ((sz =? 1) && (0xffffffff <? n))
    | TU16 => (1 <? sz) || (sz <? 0) || ((sz =? 1) && (0xffff <? n))
    | TU8 => (1 <? sz) || (sz <? 0) || ((sz =? 1) && (0xff <? n))
    | TU1 => (1 <? sz) || (sz <? 0) || ((sz =? 1) && (1 <? n))
    end in
  if bad then Exn ValueError else Ok (norm t (wrapU 64 (n * wrapU 64 sz))).

(** bigint.c:319-328 __int__, :330-339 __index__ of a bigint. *)
Definition bigint_int (z : zz) : res Z :=
  let k := limb0 z in
  let sz := size z in
  if (1 <? Z.abs sz) || ((sz =? 1) && (0x7fffffffffffffff <? k))
     || ((sz =? -1) && (0x8000000000000000 <? k))
  then Exn ValueError else Ok (wrapS 64 (wrapU 64 (k * wrapU 64 sz))).

(** A finite double: mantissa * 2^exponent, with 2^52 <= |mantissa| < 2^53, or zero.
    bigint.c:120-133, float argument: frexp gives m = mantissa / 2^53 and
    e = exponent + 53; for e > 52 the result is (long)(m * 2^52) << (e - 52), which drops
    the last bit of the mantissa; otherwise (long)aval, truncation towards zero. *)
Definition bigint_of_float (mant ex : Z) : Z :=
  if mant =? 0 then 0
  else if 52 <? ex + 53 then Z.quot mant 2 * 2 ^ (ex + 53 - 52)
  else Z.quot mant (2 ^ (- ex)).

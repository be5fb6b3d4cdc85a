(** Specification of fixed-width integers, independent of the model. *)
From Coq Require Import ZArith.
From Verif Require Import Base M_Int.
Local Open Scope Z_scope.

(** The values of each integer type. *)
Definition min_of (t : ity) : Z :=
  match t with
  | TInt => -9223372036854775808 | TI32 => -2147483648 | TI16 => -32768 | TI8 => -128
  | _ => 0
  end.
Definition max_of (t : ity) : Z :=
  match t with
  | TInt => 9223372036854775807 | TI32 => 2147483647 | TI16 => 32767 | TI8 => 127
  | TU64 => 18446744073709551615 | TU32 => 4294967295 | TU16 => 65535 | TU8 => 255
  | TU1 => 1
  end.
Definition fits (t : ity) (z : Z) : Prop := min_of t <= z <= max_of t.
Definition is_unsigned (t : ity) : Prop := min_of t = 0.
(** Number of values of the type. *)
Definition modulus (t : ity) : Z := max_of t - min_of t + 1.

(** [r] represents the mathematical integer [z] in type [t]: it is a value of the type, it
    is congruent to [z], and therefore equal to it when [z] fits. *)
Definition represents (t : ity) (z r : Z) : Prop :=
  fits t r /\ (exists k, z = r + k * modulus t) /\ (fits t z -> r = z).

(** A well-formed bigint, as produced by the library: limbs are 64-bit, the most
    significant one is not zero, fewer than 2^31 of them. *)
Definition zz_ok (z : zz) : Prop :=
  Forall (fun x => 0 <= x < 2 ^ 64) (limbs z)
  /\ limbs z <> nil
  /\ Z.abs (size z) <= Z.of_nat (length (limbs z))
  /\ Z.abs (size z) < 2 ^ 31
  /\ (size z <> 0 -> nth (Z.to_nat (Z.abs (size z)) - 1) (limbs z) 0 <> 0).

(** The integer denoted by an atom. *)
Definition atom_value (a : atom) : Z :=
  match a with
  | AInt _ v => v
  | ABool b => if b then 1 else 0
  | ABig z => zz_value z
  end.
Definition atom_ok (a : atom) : Prop :=
  match a with AInt t v => fits t v | ABool _ => True | ABig z => zz_ok z end.

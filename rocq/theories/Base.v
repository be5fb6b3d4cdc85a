(** Shared vocabulary of the model: outcomes, machine integers, C arrays.

    base/build.zig:234-236 and builder/build.zig:215-217 compile everything under
    base/ with -fwrapv, so signed overflow wraps (two's complement); it is not UB
    there.  Shift counts out of range, INT_MIN / -1, division by zero,
    out-of-bounds accesses and NULL dereferences remain undefined. *)
From Coq Require Export List ZArith Lia Bool Arith.
From Coq Require Export ZifyBool ZifyNat.
Export ListNotations.

(** Exceptions raised with $RAISE (base/rts/rts.h, base/builtin/exceptions). Only
    the class is modelled, not the message. *)
Inductive exn :=
| ValueError | IndexError | KeyError | StopIteration | ZeroDivisionError
| MemoryError | RuntimeError.

(** Outcome of a C function: a value, a raised exception, or undefined behaviour.
    [NoFuel] is not an outcome of the code: a loop modelled with a fuel argument ran
    out of it.  The theorems exclude it by stating how much fuel is enough. *)
Inductive res (A : Type) :=
| Ok (a : A)
| Exn (e : exn)
| UB
| NoFuel.
Arguments Ok {A} _.
Arguments Exn {A} _.
Arguments UB {A}.
Arguments NoFuel {A}.

Definition bindr {A B} (r : res A) (f : A -> res B) : res B :=
  match r with Ok a => f a | Exn e => Exn e | UB => UB | NoFuel => NoFuel end.
Definition mapr {A B} (f : A -> B) (r : res A) : res B :=
  match r with Ok a => Ok (f a) | Exn e => Exn e | UB => UB | NoFuel => NoFuel end.
Notation "'do' x <- r ; f" := (bindr r (fun x => f))
  (at level 200, x pattern, r at level 100, f at level 200, right associativity).

(** [None] is an invalid memory access. *)
Definition orUB {A} (o : option A) : res A :=
  match o with Some a => Ok a | None => UB end.

Open Scope Z_scope.

(** Machine integers: reduction to n-bit signed / unsigned. *)
Definition wrapU (n : Z) (z : Z) : Z := z mod 2 ^ n.
Definition wrapS (n : Z) (z : Z) : Z := (z + 2 ^ (n - 1)) mod 2 ^ n - 2 ^ (n - 1).
Definition inS (n : Z) (z : Z) : Prop := - 2 ^ (n - 1) <= z < 2 ^ (n - 1).
Definition inU (n : Z) (z : Z) : Prop := 0 <= z < 2 ^ n.

Definition zlen {A} (l : list A) : Z := Z.of_nat (length l).

(** Array read: [None] when out of bounds. *)
Definition zget {A} (a : list A) (i : Z) : option A :=
  if i <? 0 then None else nth_error a (Z.to_nat i).

(** Array write: [None] when out of bounds. *)
Definition zset {A} (a : list A) (i : Z) (v : A) : option (list A) :=
  if (0 <=? i) && (i <? zlen a)
  then Some (firstn (Z.to_nat i) a ++ v :: skipn (S (Z.to_nat i)) a)
  else None.

(** memcpy/memmove of [n] cells from offset [soff] of array [src] to offset
    [doff] of array [dst]; [None] when the size is negative (it would be
    converted to a huge size_t) or a range is outside its array. *)
Definition blit {A} (dst : list A) (doff : Z) (src : list A) (soff n : Z) : option (list A) :=
  if (0 <=? n) && (0 <=? doff) && (doff + n <=? zlen dst)
     && (0 <=? soff) && (soff + n <=? zlen src)
  then Some (firstn (Z.to_nat doff) dst
             ++ firstn (Z.to_nat n) (skipn (Z.to_nat soff) src)
             ++ skipn (Z.to_nat (doff + n)) dst)
  else None.

(** memmove inside one array. *)
Definition memmove {A} (a : list A) (doff soff n : Z) : option (list A) :=
  blit a doff a soff n.

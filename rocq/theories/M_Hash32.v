(** Placement hash: backend/hashes.h. *)
From Verif Require Import Base.

(** (x >> 16) ^ x in backend/hashes.h:21-23. *)
Definition xorshift16 (x : Z) : Z := Z.lxor (Z.shiftr x 16) x.

(** backend/hashes.h:18-25 hash32 (uint32_t arithmetic). *)
Definition hash32 (x : Z) : Z :=
  let x := wrapU 32 (xorshift16 x * 73244475) in     (* 0x45d9f3b *)
  let x := wrapU 32 (xorshift16 x * 73244475) in
  xorshift16 x.

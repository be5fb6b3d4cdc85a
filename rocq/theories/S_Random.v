(** Random numbers: what rand() returns, and what the texts are made of. *)
From Verif Require Import Base M_Random.

(** A value that the C library's rand() can return. *)
Definition raw (r : Z) : Prop := 0 <= r <= RAND_MAX.
Definition letter_or_digit (c : Z) : Prop := 65 <= c <= 90 \/ 97 <= c <= 122 \/ 48 <= c <= 57.
Definition whole (z : Z) : Prop := - 2 ^ 63 <= z < 2 ^ 63.

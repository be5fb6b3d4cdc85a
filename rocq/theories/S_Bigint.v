(** Specification for big integers: the number a sequence of words stands for, and the number a
    text stands for. *)
From Verif Require Import Base M_Bigint.
Local Open Scope Z_scope.

(** Words, least significant first. *)
Fixpoint wval (l : list Z) : Z := match l with [] => 0 | x :: r => x + 2 ^ 64 * wval r end.

(** Digits, most significant first; d gives the value of a digit. *)
Definition dval (d : Z -> Z) (base : Z) (s : list Z) : Z := fold_left (fun v c => v * base + d c) s 0.

(** What a character is worth as a digit: 0-9, then A-Z or a-z. *)
Definition digit (c v : Z) : Prop :=
  (48 <= c <= 57 /\ v = c - 48) \/ (65 <= c <= 90 /\ v = c - 65 + 10) \/ (97 <= c <= 122 /\ v = c - 97 + 10).

(** numeral base s v: the digits s, at least one, all below the base, stand for v. *)
Inductive numeral (base : Z) : list Z -> Z -> Prop :=
| num_one c v : digit c v -> v < base -> numeral base [c] v
| num_more s v c x : numeral base s v -> digit c x -> x < base -> numeral base (s ++ [c]) (v * base + x).

Definition is_space (c : Z) : Prop := c = 32 \/ 9 <= c <= 13.

(** "0x", "0o", "0b" and the upper case variants, and the base they say. *)
Definition prefix (p : list Z) (base : Z) : Prop :=
  exists c, p = [48; c] /\ ((c = 120 \/ c = 88) /\ base = 16 \/ (c = 111 \/ c = 79) /\ base = 8 \/ (c = 98 \/ c = 66) /\ base = 2).
Definition has_prefix (s : list Z) : Prop := exists p r b, s = p ++ r /\ prefix p b.

Definition sign_text (t : list Z) (sgn : Z) : Prop := (t = [] \/ t = [43]) /\ sgn = 1 \/ t = [45] /\ sgn = -1.

(** written s ib sgn base ds v: the text s is white space, a sign (sgn), perhaps a prefix, and the digits ds,
    which in this base stand for v; ib is the base that was asked for, if any.  A text that begins like a
    prefix is read as one. *)
Definition written (s : list Z) (ib : option Z) (sgn base : Z) (ds : list Z) (v : Z) : Prop :=
  exists sp t p, s = sp ++ t ++ p ++ ds /\ Forall is_space sp /\ sign_text t sgn /\ numeral base ds v /\
  2 <= base <= 36 /\
  (prefix p base /\ (ib = None \/ ib = Some base) \/
   p = [] /\ ~ has_prefix ds /\ (ib = None /\ base = 10 \/ ib = Some base)).

(** The usual decimal form of a number: digits without leading zeros, a minus sign for negative
    numbers. *)
Definition decimal (n : Z) (s : list Z) : Prop :=
  exists ds v, numeral 10 ds v /\ Forall (fun c => 48 <= c <= 57) ds /\ (hd 0 ds <> 48 \/ length ds = 1%nat) /\
  (0 <= n /\ n = v /\ s = ds \/ n < 0 /\ n = - v /\ s = 45 :: ds).

(** The number of digits of a base that fit in a signed 64-bit word. *)
Definition digits_per_word (base p : Z) : Prop := 0 < p /\ base ^ p < 2 ^ 63 <= base ^ (p + 1).

(** * Numbers as the library keeps them (zsize: signed count of words, zn: the words). *)

Definition wordp (x : Z) : Prop := 0 <= x < 2 ^ 64.

(** The value of a number. *)
Definition value (a : zz) : Z := if zsize a <? 0 then - wval (zn a) else wval (zn a).

(** As the library keeps numbers: as many words as the size says, the top one not 0. *)
Definition normal (a : zz) : Prop :=
  Z.abs (zsize a) = zlen (zn a) /\ Forall wordp (zn a) /\ last (zn a) 1 <> 0.

(** Specification of string and bytes literals, after the Python Language Reference, 2.4.1 (to which
    the compiler's own notes, Parser.hs:500-528, refer).  Characters are code points. *)
From Coq Require Import List ZArith Bool Lia.
Import ListNotations.
Open Scope Z_scope.

Definition scalar (c : Z) : Prop := 0 <= c < 55296 \/ 57344 <= c <= 1114111.
Definition oct_digit (c : Z) : bool := (48 <=? c) && (c <=? 55).
Definition dec_digit (c : Z) : bool := (48 <=? c) && (c <=? 57).
Definition hex_digit (c : Z) : bool := dec_digit c || (97 <=? c) && (c <=? 102) || (65 <=? c) && (c <=? 70).
Definition digit (c : Z) : Z := if c <=? 57 then c - 48 else if c <=? 70 then c - 55 else c - 87.
Definition number (base : Z) (ds : list Z) : Z := fold_left (fun n d => base * n + digit d) ds 0.
(** The backslash and one of: quote, double quote, backslash, a b f n r t v. *)
Definition simple (c : Z) : option Z :=
  if c =? 39 then Some 39 else if c =? 34 then Some 34 else if c =? 92 then Some 92
  else if c =? 97 then Some 7 else if c =? 98 then Some 8 else if c =? 102 then Some 12 else if c =? 110 then Some 10
  else if c =? 114 then Some 13 else if c =? 116 then Some 9 else if c =? 118 then Some 11 else None.
Definition hd_is (p : Z -> bool) (s : list Z) : bool := match s with c :: _ => p c | [] => false end.
Definition line_next (s : list Z) : bool := match s with 92 :: 10 :: _ => true | _ => false end.
Definition hex_next (s : list Z) : bool := match s with 92 :: 120 :: _ => true | _ => false end.
(** The numbers C allows after \u. *)
Definition ucn (x : Z) : Prop := (160 <= x < 55296 \/ 57344 <= x <= 1114111) \/ x = 36 \/ x = 64 \/ x = 96.

(** ** [means strict q s v]: between two quotes [q], [s] stands for the characters [v].  With
    [strict = true] the forms are left out that are treated wrongly. *)
Inductive means (strict : bool) (q : Z) : list Z -> list Z -> Prop :=
| means_end : means strict q [] []
| means_char : forall c s v, scalar c -> c <> 92 -> c <> q -> c <> 10 -> c <> 123 -> c <> 125 ->
    (strict = true -> c <> 13) -> means strict q s v -> means strict q (c :: s) (c :: v)
| means_brace : forall c s v, c = 123 \/ c = 125 -> means strict q s v -> means strict q (c :: c :: s) (c :: v)
| means_line : forall s v, means strict q s v -> means strict q (92 :: 10 :: s) v
| means_simple : forall c x s v, simple c = Some x ->
    (strict = true -> c = 92 -> line_next s = false /\ hex_next s = false) ->
    means strict q s v -> means strict q (92 :: c :: s) (x :: v)
| means_hex : forall a b s v, hex_digit a = true -> hex_digit b = true ->
    (strict = true -> number 16 [a; b] < 128) ->
    means strict q s v -> means strict q (92 :: 120 :: a :: b :: s) (number 16 [a; b] :: v)
| means_oct : forall ds s v, forallb oct_digit ds = true -> (1 <= length ds <= 3)%nat -> number 8 ds < 256 ->
    ((length ds < 3)%nat -> hd_is oct_digit s = false) ->
    (strict = true -> number 8 ds < 128 /\ line_next s = false) ->
    means strict q s v -> means strict q (92 :: ds ++ s) (number 8 ds :: v)
| means_u4 : forall ds s v, forallb hex_digit ds = true -> length ds = 4%nat ->
    (strict = true -> ucn (number 16 ds)) ->
    means strict q s v -> means strict q (92 :: 117 :: ds ++ s) (number 16 ds :: v)
| means_u8 : forall ds s v, forallb hex_digit ds = true -> length ds = 8%nat -> number 16 ds <= 1114111 ->
    (strict = true -> ucn (number 16 ds)) ->
    means strict q s v -> means strict q (92 :: 85 :: ds ++ s) (number 16 ds :: v).

(** ** Bytes literals. *)
Inductive bmeans (strict : bool) (q : Z) : list Z -> list Z -> Prop :=
| bmeans_end : bmeans strict q [] []
| bmeans_char : forall c s v, 0 <= c < 128 -> c <> 92 -> c <> q -> c <> 10 -> (strict = true -> c <> 13) ->
    bmeans strict q s v -> bmeans strict q (c :: s) (c :: v)
| bmeans_line : forall s v, bmeans strict q s v -> bmeans strict q (92 :: 10 :: s) v
| bmeans_simple : forall c x s v, simple c = Some x ->
    (strict = true -> c = 92 -> line_next s = false /\ hex_next s = false) ->
    bmeans strict q s v -> bmeans strict q (92 :: c :: s) (x :: v)
| bmeans_hex : forall a b s v, hex_digit a = true -> hex_digit b = true ->
    bmeans strict q s v -> bmeans strict q (92 :: 120 :: a :: b :: s) (number 16 [a; b] :: v)
| bmeans_oct : forall ds s v, forallb oct_digit ds = true -> (1 <= length ds <= 3)%nat -> number 8 ds < 256 ->
    ((length ds < 3)%nat -> hd_is oct_digit s = false) ->
    (strict = true -> hd_is dec_digit s = false /\ line_next s = false) ->
    bmeans strict q s v -> bmeans strict q (92 :: ds ++ s) (number 8 ds :: v).

(** ** Raw strings: a backslash and the character after it stand for themselves. *)
Inductive rmeans (strict : bool) (q : Z) : list Z -> list Z -> Prop :=
| rmeans_end : rmeans strict q [] []
| rmeans_char : forall c s v, scalar c -> c <> 92 -> c <> q -> c <> 10 -> (strict = true -> c <> 13) ->
    rmeans strict q s v -> rmeans strict q (c :: s) (c :: v)
| rmeans_pair : forall c s v, scalar c -> (strict = true -> c <> 92 /\ c <> 13) ->
    rmeans strict q s v -> rmeans strict q (92 :: c :: s) (92 :: c :: v).

(** ** UTF-8 (RFC 3629). *)
Definition utf8 (c : Z) : list Z :=
  if c <? 128 then [c]
  else if c <? 2048 then [192 + c / 64; 128 + c mod 64]
  else if c <? 65536 then [224 + c / 4096; 128 + c / 64 mod 64; 128 + c mod 64]
  else [240 + c / 262144; 128 + c / 4096 mod 64; 128 + c / 64 mod 64; 128 + c mod 64].
Definition utf8s (l : list Z) : list Z := flat_map utf8 l.

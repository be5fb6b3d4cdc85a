(** Specification of bytes: a sequence of numbers from 0 to 255.  Occurrences, windows, splits, words and
    the lexicographic order are those of S_Str.v, which are stated for sequences of anything. *)
From Verif Require Import Base S_Str.

Definition byte (b : Z) : Prop := 0 <= b < 256.
Definition bytes_of (s : list Z) : Prop := Forall byte s.
(** The length fits an int. *)
Definition bfits (s : list Z) : Prop := zlen s < 2 ^ 31.

(** The position (-1: none) of an occurrence inside the bounds. *)
Definition bfind_spec (occ : list Z -> list Z -> Z -> Prop) (s p : list Z) (st en : option Z) (r : Z) : Prop :=
  let a := py_start (zlen s) st in
  let b := py_end (zlen s) en in
  (a <= b /\ exists m, occ (window s a b) p m /\ r = a + m) \/
  (r = -1 /\ (b < a \/ absent (window s a b) p)).

(** White space: blank, tab, line feed, carriage return, vertical tab, form feed. *)
Definition is_white (c : Z) : bool := (c =? 32) || ((9 <=? c) && (c <=? 13)).
Definition white : list Z := [32; 9; 10; 13; 11; 12].
Definition set_of (o : option (list Z)) : list Z := match o with None => white | Some c => c end.
Definition all_from (set D : list Z) : Prop := Forall (fun c => In c set) D.
Definition first_not (set K : list Z) : Prop := match K with [] => True | c :: _ => ~ In c set end.
Definition last_not (set K : list Z) : Prop := first_not set (rev K).

(** Lines end with LF, CR or CR LF. *)
Definition eol (e : list Z) : Prop := e = [10] \/ e = [13] \/ e = [13; 10].
Definition no_eol (l : list Z) : Prop := Forall (fun c => c <> 10 /\ c <> 13) l.
Inductive blines : list Z -> list (list Z * list Z) -> Prop :=
| blines_nil : blines [] []
| blines_last : forall l, l <> [] -> no_eol l -> blines l [(l, [])]
| blines_cons : forall l e X r, no_eol l -> eol e -> (e = [13] -> hd 0 X <> 10) ->
    blines X r -> blines (l ++ e ++ X) ((l, e) :: r).
Definition bline_of (keep : bool) (le : list Z * list Z) : list Z := if keep then fst le ++ snd le else fst le.

(** Letters and digits of ASCII. *)
Definition upper_letter (c : Z) : Prop := 65 <= c <= 90.
Definition lower_letter (c : Z) : Prop := 97 <= c <= 122.
Definition decimal_digit (c : Z) : Prop := 48 <= c <= 57.
(** [c'] is [c] with a capital made small, or with a small letter made capital. *)
Definition small_of (c c' : Z) : Prop := (upper_letter c /\ c' = c + 32) \/ (~ upper_letter c /\ c' = c).
Definition capital_of (c c' : Z) : Prop := (lower_letter c /\ c' = c - 32) \/ (~ lower_letter c /\ c' = c).

(** Hexadecimal digits: "0123456789abcdef". *)
Definition hexdigit (v c : Z) : Prop :=
  (0 <= v <= 9 /\ c = 48 + v) \/ (10 <= v <= 15 /\ (c = 97 + (v - 10) \/ c = 65 + (v - 10))).
(** [t] writes each byte of [s] with two digits. *)
Inductive hex_of : list Z -> list Z -> Prop :=
| hex_nil : hex_of [] []
| hex_cons : forall h l ch cl s t, hexdigit h ch -> hexdigit l cl -> hex_of s t -> hex_of (16 * h + l :: s) (ch :: cl :: t).

(** Expanding tabs: to the next column that is a multiple of the tab size. *)
Fixpoint bexpanded (tab col : Z) (s : list Z) : list Z :=
  match s with
  | [] => []
  | c :: s =>
      if c =? 9 then repeat 32 (Z.to_nat (tab - col mod tab)) ++ bexpanded tab (col + (tab - col mod tab)) s
      else c :: bexpanded tab (if (c =? 10) || (c =? 13) then 0 else col + 1) s
  end.

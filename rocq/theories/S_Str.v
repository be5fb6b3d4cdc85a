(** Specification of strings: a string is a sequence of characters; a character is given
    by its UTF-8 encoding. *)
From Verif Require Import Base M_Slice S_Slice M_Str.

(** ** Characters (RFC 3629, allowing more than it does: surrogates and overlong forms of
    three and four bytes are not excluded). *)
Definition cont (b : Z) : Prop := 128 <= b < 192.
Definition uchar (c : list Z) : Prop :=
  match c with
  | [a] => 0 <= a < 128
  | [a; b] => 194 <= a < 224 /\ cont b
  | [a; b; c] => 224 <= a < 240 /\ cont b /\ cont c
  | [a; b; c; d] => 240 <= a < 245 /\ cont b /\ cont c /\ cont d
  | _ => False
  end.
Definition char := list Z.
Definition text (cs : list char) : Prop := Forall uchar cs.
(** Without the character NUL. *)
Definition nulfree (cs : list char) : Prop := Forall (fun c => c <> [0]) cs.
Definition ascii (cs : list char) : Prop := Forall (fun c => exists a, c = [a] /\ 0 <= a < 128) cs.

(** The str object of a sequence of characters. *)
Definition ustr (cs : list char) : str := Str (zlen cs) (concat cs).
(** Its byte length fits an int. *)
Definition fits (cs : list char) : Prop := zlen (concat cs) < 2 ^ 31.
Definition is_int (z : Z) : Prop := - 2 ^ 31 <= z < 2 ^ 31.

(** ** Occurrences. *)
Definition occurs {A} (X P : list A) (n : Z) : Prop := exists a b, X = a ++ P ++ b /\ zlen a = n.
Definition absent {A} (X P : list A) : Prop := forall n, ~ occurs X P n.
Definition first_occ {A} (X P : list A) (n : Z) : Prop := occurs X P n /\ forall m, occurs X P m -> n <= m.
Definition last_occ {A} (X P : list A) (n : Z) : Prop := occurs X P n /\ forall m, occurs X P m -> m <= n.

(** ** Bounds: negative positions count from the end; a start after the end of the text
    or after the end position selects nothing. *)
Definition py_from (n : Z) (x : option Z) (d : Z) : Z :=
  match x with None => d | Some x => if x <? 0 then Z.max 0 (x + n) else x end.
Definition py_start (n : Z) (st : option Z) : Z := py_from n st 0.
Definition py_end (n : Z) (en : option Z) : Z := Z.min n (py_from n en n).
Definition window {A} (X : list A) (a b : Z) : list A := firstn (Z.to_nat (b - a)) (skipn (Z.to_nat a) X).

(** The position (-1: none) of the first occurrence inside the bounds. *)
Definition find_spec (occ : list char -> list char -> Z -> Prop) (cs ps : list char) (st en : option Z) (r : Z) : Prop :=
  let a := py_start (zlen cs) st in
  let b := py_end (zlen cs) en in
  (a <= b /\ exists m, occ (window cs a b) ps m /\ r = a + m) \/
  (r = -1 /\ (b < a \/ absent (window cs a b) ps)).
(** A bound that is not negative and fits an int. *)
Definition pos_bound (x : option Z) : Prop := match x with None => True | Some x => 0 <= x < 2 ^ 31 end.

(** ** Splitting at the occurrences of a separator, from the left, at most [k] times. *)
Inductive splits {A} (P : list A) : option nat -> list A -> list (list A) -> Prop :=
| splits_stop : forall X, splits P (Some O) X [X]
| splits_none : forall k X, absent X P -> splits P k X [X]
| splits_cons : forall k X a b l, k <> Some O -> X = a ++ P ++ b -> first_occ X P (zlen a) ->
    splits P (option_map pred k) b l -> splits P k X (a :: l).
Fixpoint joined {A} (P : list A) (l : list (list A)) : list A :=
  match l with
  | [] => []
  | [x] => x
  | x :: l => x ++ P ++ joined P l
  end.

(** ** Words: maximal runs of characters that are not white space. *)
Inductive words {A} (sp : A -> bool) : option nat -> list A -> list (list A) -> Prop :=
| words_nil : forall k, words sp k [] []
| words_sp : forall k c X l, sp c = true -> words sp k X l -> words sp k (c :: X) l
| words_last : forall k w, k <> Some O -> w <> [] -> Forall (fun c => sp c = false) w -> words sp k w [w]
| words_rest : forall c X, sp c = false -> words sp (Some O) (c :: X) [c :: X]
| words_word : forall k w c X l, k <> Some O -> w <> [] -> Forall (fun c => sp c = false) w -> sp c = true ->
    words sp (option_map pred k) X l -> words sp k (w ++ c :: X) (w :: l).

(** ** Lines: a line ends with LF, VT, FF, CR, FS, GS, RS or CR LF. *)
Definition line_end (e : list char) : Prop :=
  e = [[10]] \/ e = [[11]] \/ e = [[12]] \/ e = [[13]] \/ e = [[28]] \/ e = [[29]] \/ e = [[30]] \/ e = [[13]; [10]].
Definition no_break (l : list char) : Prop :=
  Forall (fun c => c <> [10] /\ c <> [11] /\ c <> [12] /\ c <> [13] /\ c <> [28] /\ c <> [29] /\ c <> [30]) l.
Inductive lines : list char -> list (list char * list char) -> Prop :=
| lines_nil : lines [] []
| lines_last : forall l, l <> [] -> no_break l -> lines l [(l, [])]
| lines_cons : forall l e X r, no_break l -> line_end e ->
    (e = [[13]] -> match X with [10] :: _ => False | _ => True end) ->
    lines X r -> lines (l ++ e ++ X) ((l, e) :: r).

(** ** Lexicographic order of byte sequences. *)
Inductive lex_lt : list Z -> list Z -> Prop :=
| lex_nil : forall y b, lex_lt [] (y :: b)
| lex_head : forall x y a b, x < y -> lex_lt (x :: a) (y :: b)
| lex_tail : forall x a b, lex_lt a b -> lex_lt (x :: a) (x :: b).

(** The code point a character encodes. *)
Definition codepoint (c : char) : Z :=
  match c with
  | [a] => a
  | [a; b] => (a - 192) * 64 + (b - 128)
  | [a; b; c] => (a - 224) * 4096 + (b - 128) * 64 + (c - 128)
  | [a; b; c; d] => (a - 240) * 262144 + (b - 128) * 4096 + (c - 128) * 64 + (d - 128)
  | _ => -1
  end.
(** No overlong forms: three bytes only from 0x800, four only from 0x10000. *)
Definition canonical (c : char) : Prop :=
  uchar c /\ (length c = 3%nat -> 2048 <= codepoint c) /\ (length c = 4%nat -> 65536 <= codepoint c).

(** ** Expanding tabs: to the next column that is a multiple of the tab size. *)
Fixpoint expanded (tab col : Z) (cs : list char) : list char :=
  match cs with
  | [] => []
  | [9] :: cs => repeat [32] (Z.to_nat (tab - col mod tab)) ++ expanded tab (col + (tab - col mod tab)) cs
  | c :: cs => c :: expanded tab (if (hd 0 c =? 10) || (hd 0 c =? 13) then 0 else col + 1) cs
  end.

(** ** Arguments. *)

(** A negative or absent limit is no limit. *)
Definition limit (m : option Z) : option nat :=
  match m with None => None | Some m => if m <? 0 then None else Some (Z.to_nat m) end.
(** The set of characters to strip: by default the ASCII white space. *)
Definition set_str (o : option (list char)) : list char :=
  match o with None => [[32]; [9]; [10]; [13]; [11]; [12]] | Some ss => ss end.
Definition all_in (ss D : list char) : Prop := Forall (fun c => In c ss) D.
Definition starts_out (ss K : list char) : Prop := match K with [] => True | c :: _ => ~ In c ss end.
Definition ends_out (ss K : list char) : Prop := match rev K with [] => True | c :: _ => ~ In c ss end.
(** A line, with or without its terminator. *)
Definition line_of (keep : bool) (le : list char * list char) : str := ustr (if keep then fst le ++ snd le else fst le).
(** The fill character: by default a space. *)
Definition fill_of (o : option char) : char := match o with None => [32] | Some c => c end.

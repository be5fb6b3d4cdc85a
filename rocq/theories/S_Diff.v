(** What a diff is.  Reading this file needs no other. *)
From Coq Require Import List Arith ZArith.
Import ListNotations.

Section S.
Context {A : Type}.

(** Operations with the positions of their lines in the old and the new text. *)
Inductive op := Keep (x : A) (old new : nat) | Delete (x : A) (old : nat) | Insert (x : A) (new : nat).

(** [script i j ops e f]: read in order, [ops] consume the old lines [e], the first of which
    is at position [i], and produce the new lines [f], from position [j] on. *)
Inductive script : nat -> nat -> list op -> list A -> list A -> Prop :=
| script_nil i j : script i j [] [] []
| script_keep i j x ops e f : script (S i) (S j) ops e f -> script i j (Keep x i j :: ops) (x :: e) (x :: f)
| script_delete i j x ops e f : script (S i) j ops e f -> script i j (Delete x i :: ops) (x :: e) f
| script_insert i j x ops e f : script i (S j) ops e f -> script i j (Insert x j :: ops) e (x :: f).

(** Only the old side. *)
Inductive consumes : nat -> list op -> list A -> Prop :=
| consumes_nil i : consumes i [] []
| consumes_keep i j x ops e : consumes (S i) ops e -> consumes i (Keep x i j :: ops) (x :: e)
| consumes_delete i x ops e : consumes (S i) ops e -> consumes i (Delete x i :: ops) (x :: e)
| consumes_insert i j x ops e : consumes i ops e -> consumes i (Insert x j :: ops) e.

(** The position of a produced line is right. *)
Definition labelled (f : list A) (o : op) : Prop :=
  match o with
  | Keep x _ n | Insert x n => nth_error f n = Some x
  | Delete _ _ => True
  end.

(** The number of changes. *)
Definition changes (ops : list op) : nat :=
  length (filter (fun o => match o with Keep _ _ _ => false | _ => true end) ops).

(** [x] occurs exactly once, at position [n]. *)
Definition once_at (l : list A) (x : A) (n : nat) : Prop :=
  nth_error l n = Some x /\ forall m, nth_error l m = Some x -> m = n.

(** Two lines that occur once in both texts are in the same order in both. *)
Definition same_order (e f : list A) : Prop :=
  forall x y a b c d, once_at e x a -> once_at f x c -> once_at e y b -> once_at f y d -> a < b -> c < d.

(** Texts that differ in their first and in their last line, and the middle line of the first
    is not in the second. *)
Definition stuck (e f : list A) : Prop :=
  hd_error e <> hd_error f /\ hd_error (rev e) <> hd_error (rev f) /\
  forall x, nth_error e (length e / 2) = Some x -> ~ In x f.

Definition segment (l' l : list A) : Prop := exists a b, l = a ++ l' ++ b.

(** No lines are moved past each other. *)
Definition straight (e f : list A) : Prop :=
  forall e' f', segment e' e -> segment f' f -> stuck e' f' -> same_order e' f'.

(** A simple case: common lines are nowhere in a different order. *)
Definition aligned (e f : list A) : Prop :=
  forall x y a b c d, nth_error e a = Some x -> nth_error e b = Some y -> nth_error f c = Some y -> nth_error f d = Some x ->
    a < b -> c < d -> x = y.

(** Hunks of a unified diff: the first line and the number of lines of the old and the new
    range, counting lines from 1, and the marked lines. *)
Inductive marked := Same (x : A) | Minus (x : A) | Plus (x : A).
Record hunk := Hunk { old_start : nat; old_count : nat; new_start : nat; new_count : nat; body : list marked }.
Definition old_side (l : list marked) : list A :=
  flat_map (fun m => match m with Same x | Minus x => [x] | Plus _ => [] end) l.
Definition new_side (l : list marked) : list A :=
  flat_map (fun m => match m with Same x | Plus x => [x] | Minus _ => [] end) l.

(** The range of [l] when [pos] lines precede it; an empty range is given by the line before it. *)
Definition range (pos : nat) (l : list A) (start count : nat) : Prop :=
  count = length l /\ start = match l with [] => pos | _ => S pos end.

(** [patches i j hs e f]: after [i] old and [j] new lines, the hunks turn the old lines [e] into [f]. *)
Inductive patches : nat -> nat -> list hunk -> list A -> list A -> Prop :=
| patches_nil i j e : patches i j [] e e
| patches_cons i j same h hs e f :
    range (i + length same) (old_side (body h)) (old_start h) (old_count h) ->
    range (j + length same) (new_side (body h)) (new_start h) (new_count h) ->
    patches (i + length same + length (old_side (body h))) (j + length same + length (new_side (body h))) hs e f ->
    patches i j (h :: hs) (same ++ old_side (body h) ++ e) (same ++ new_side (body h) ++ f).

(** At most [c] lines of context before the first and after the last change, and every hunk has a change. *)
Definition is_change (m : marked) : Prop := match m with Same _ => False | _ => True end.
Definition context (c : nat) (h : hunk) : Prop :=
  exists n m, nth_error (body h) n = Some m /\ is_change m /\
  forall n', n' < length (body h) -> exists n'' m'', nth_error (body h) n'' = Some m'' /\ is_change m'' /\ n' <= n'' + c /\ n'' <= n' + c.
End S.
Arguments op : clear implicits.
Arguments marked : clear implicits.
Arguments hunk : clear implicits.

(** Texts are lists of characters. *)
Local Open Scope Z_scope.
Notation chars := (list Z).

(** A decimal number. *)
Definition digit (c : Z) : Prop := 48 <= c <= 57.
Definition value (t : chars) : Z := fold_left (fun a c => 10 * a + (c - 48)) t 0.
Definition reads (t : chars) (n : nat) : Prop := t <> [] /\ Forall digit t /\ value t = Z.of_nat n.

(** The printed form of marked lines and of a hunk: "@@ -a,b +c,d @@", a newline, the lines. *)
Definition mark_text (m : marked chars) : chars :=
  match m with Same x => 32 :: x | Minus x => 45 :: x | Plus x => 43 :: x end.
Definition printed_hunk (h : hunk chars) (t : chars) : Prop :=
  exists a b c d, reads a (old_start h) /\ reads b (old_count h) /\ reads c (new_start h) /\ reads d (new_count h) /\
    t = [64; 64; 32; 45] ++ a ++ [44] ++ b ++ [32; 43] ++ c ++ [44] ++ d ++ [32; 64; 64; 10] ++ flat_map mark_text (body h).
Inductive printed : list (hunk chars) -> chars -> Prop :=
| printed_nil : printed [] []
| printed_cons h hs t t' : printed_hunk h t -> printed hs t' -> printed (h :: hs) (t ++ t').

(** Whitespace, as removed from the end of a string. *)
Definition blank (c : Z) : Prop := c = 32 \/ 9 <= c <= 13.

(** The lines of a text, each with its line break. *)
Definition breaks (c : Z) : Prop := 10 <= c <= 13 \/ 28 <= c <= 30.
Definition plain (l : chars) : Prop := Forall (fun c => ~ breaks c) l.
Inductive lines : chars -> list chars -> Prop :=
| lines_nil : lines [] []
| lines_last l : l <> [] -> plain l -> lines l [l]
| lines_crlf l t ls : plain l -> lines t ls -> lines (l ++ [13; 10] ++ t) ((l ++ [13; 10]) :: ls)
| lines_break l c t ls : plain l -> breaks c -> ~ (c = 13 /\ hd_error t = Some 10) -> lines t ls ->
    lines (l ++ [c] ++ t) ((l ++ [c]) :: ls).

(** The same, with a newline at the end of the last line if the text does not end in one. *)
Definition full_lines (t : chars) (ls : list chars) : Prop :=
  ((t = [] \/ exists t', t = t' ++ [10]) /\ lines t ls) \/
  (exists t' c init l, t = t' ++ [c] /\ c <> 10 /\ lines t (init ++ [l]) /\ ls = init ++ [l ++ [10]]).

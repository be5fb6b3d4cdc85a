(** Model of the comparison operators of lists and tuples. *)
From Verif Require Import Base.

Section Lists.
Context {A : Type}.
(** __eq__, __ne__ and __lt__ of the element's Ord witness. *)
Variable eq ne lt : A -> A -> bool.

(** base/builtin/list.c:242-249 B_OrdD_list __eq__: length test, then the loop. *)
Fixpoint list_eq_from (a b : list A) : bool :=
  match a, b with
  | x :: a', y :: b' => if ne x y then false else list_eq_from a' b'
  | _, _ => true
  end.
Definition list_eq (a b : list A) : bool :=
  if negb (Nat.eqb (length a) (length b)) then false else list_eq_from a b.
(** base/builtin/list.c:251-253 *)
Definition list_ne (a b : list A) : bool := negb (list_eq a b).

(** The loop of list.c:259 and :271:
    while (i<minl && __eq__(a->data[i],b->data[i])) i++;  counting [n] = minl - i. *)
Fixpoint scan (a b : list A) (n : nat) (i : nat) : nat :=
  match n with
  | O => i
  | S n' => match nth_error a i, nth_error b i with
            | Some x, Some y => if eq x y then scan a b n' (S i) else i
            | _, _ => i
            end
  end.

(** list.c:264 and :276: __lt__(a->data[i], b->data[i]); out of bounds is UB. *)
Definition lt_at (a b : list A) (i : nat) : res bool :=
  match nth_error a i, nth_error b i with
  | Some x, Some y => Ok (lt x y)
  | _, _ => UB
  end.

(** base/builtin/list.c:255-265 *)
Definition list_lt (a b : list A) : res bool :=
  let minl := if Nat.ltb (length a) (length b) then length a else length b in
  let i := scan a b minl 0 in
  if Nat.eqb i (length a) then Ok (Nat.ltb i (length b))
  else if Nat.eqb i (length b) then Ok false
  else lt_at a b i.

(** base/builtin/list.c:267-277 *)
Definition list_le (a b : list A) : res bool :=
  let minl := if Nat.ltb (length a) (length b) then length a else length b in
  let i := scan a b minl 0 in
  if Nat.eqb i (length a) then Ok (Nat.leb i (length b))
  else if Nat.eqb i (length b) then Ok false
  else lt_at a b i.

(** base/builtin/list.c:279-285 *)
Definition list_gt (a b : list A) : res bool := list_lt b a.
Definition list_ge (a b : list A) : res bool := list_le b a.
End Lists.

(** Tuples: a witness per component.  The components of a tuple have different
    types; a component of type T is modelled by a value of one universal type W. *)
Section Tuples.
Context {W : Type}.
(** __eq__, __ne__, __lt__ of one component's Ord witness. *)
Record owit := mkWit { w_eq : W -> W -> bool; w_ne : W -> W -> bool; w_lt : W -> W -> bool }.

(** base/builtin/builtin_functions.c:471-480 $tupleWitD___eq__; reading a component
    that a tuple does not have is UB. *)
Fixpoint tuple_eq (wits : list owit) (a b : list W) : res bool :=
  match wits with
  | [] => Ok true
  | w :: ws => match a, b with
               | x :: a', y :: b' => if negb (w_eq w x y) then Ok false else tuple_eq ws a' b'
               | _, _ => UB
               end
  end.
(** :505-507, :552-554 *)
Definition tuple_ne wits a b : res bool := mapr negb (tuple_eq wits a b).

(** base/builtin/builtin_functions.c:562-573 $tupleWitD_lex *)
Fixpoint tuple_lex (wits : list owit) (a b : list W) (strict : bool) : res bool :=
  match wits with
  | [] => Ok (negb strict)
  | w :: ws => match a, b with
               | x :: a', y :: b' => if w_lt w x y then Ok true
                                     else if w_ne w x y then Ok false
                                     else tuple_lex ws a' b' strict
               | _, _ => UB
               end
  end.

(** base/builtin/builtin_functions.c:575-589 *)
Definition tuple_lt wits a b := tuple_lex wits a b true.
Definition tuple_le wits a b := tuple_lex wits a b false.
Definition tuple_gt wits a b := tuple_lt wits b a.
Definition tuple_ge wits a b := tuple_le wits b a.
End Tuples.
Arguments owit W : clear implicits.

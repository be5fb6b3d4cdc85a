(** Specification of sets: finite sets of elements up to [keq], kept as lists in which only
    membership counts.  Independent of the representation in M_Set. *)
From Verif Require Import Base.

Section SetSpec.
Context {K : Type}.
Variable keq : K -> K -> bool.    (* equality of elements *)

Definition mem (k : K) (A : list K) : bool := existsb (keq k) A.
Definition subset (A B : list K) : bool := forallb (fun k => mem k B) A.
Definition minus (A : list K) (k : K) : list K := filter (fun x => negb (keq k x)) A.
(** Number of different elements. *)
Fixpoint card (A : list K) : Z :=
  match A with
  | [] => 0
  | k :: A' => if mem k A' then card A' else 1 + card A'
  end.
Fixpoint different (A : list K) : Prop :=
  match A with
  | [] => True
  | k :: A' => mem k A' = false /\ different A'
  end.
Definition inter (A B : list K) : list K := filter (fun k => mem k B) A.
Definition diff (A B : list K) : list K := filter (fun k => negb (mem k B)) A.

(** Operations on set variables numbered by [nat]. *)
Inductive setop :=
| SNew (r : nat) (ys : list K) | SAdd (r : nat) (k : K) | SDiscard (r : nat) (k : K) | SPop (r : nat)
| SUpdate (r : nat) (ys : list K) | SUpdateSet (r a : nat)
| SOr (r a b : nat) | SAnd (r a b : nat) | SSub (r a b : nat) | SXor (r a b : nat)
| SContains (a : nat) (k : K) | SContainsNot (a : nat) (k : K) | SLen (a : nat) | SIter (a : nat)
| SEq (a b : nat) | SNe (a b : nat) | SLt (a b : nat) | SLe (a b : nat) | SGt (a b : nat) | SGe (a b : nat).

Inductive setval := SVUnit | SVElem (k : K) | SVBool (b : bool) | SVInt (n : Z) | SVElems (l : list K).

(** May [op] answer [r] in state [st]?  pop answers some member; iteration yields every member
    once, in some order; all other answers are determined. *)
Definition allowed (st : nat -> list K) (op : setop) (r : res setval) : Prop :=
  match op with
  | SPop i => if card (st i) =? 0 then r = Exn ValueError
              else exists k, mem k (st i) = true /\ r = Ok (SVElem k)
  | SIter a => exists l, r = Ok (SVElems l) /\ different l /\ forall k, mem k l = mem k (st a)
  | SContains a k => r = Ok (SVBool (mem k (st a)))
  | SContainsNot a k => r = Ok (SVBool (negb (mem k (st a))))
  | SLen a => r = Ok (SVInt (card (st a)))
  | SEq a b => r = Ok (SVBool (subset (st a) (st b) && subset (st b) (st a)))
  | SNe a b => r = Ok (SVBool (negb (subset (st a) (st b) && subset (st b) (st a))))
  | SLe a b => r = Ok (SVBool (subset (st a) (st b)))
  | SLt a b => r = Ok (SVBool (subset (st a) (st b) && negb (subset (st b) (st a))))
  | SGe a b => r = Ok (SVBool (subset (st b) (st a)))
  | SGt a b => r = Ok (SVBool (subset (st b) (st a) && negb (subset (st a) (st b))))
  | _ => r = Ok SVUnit
  end.

Definition upd {A} (f : nat -> A) (i : nat) (x : A) : nat -> A :=
  fun j => if (j =? i)%nat then x else f j.

(** The state after [op] answered [r]. *)
Definition next (st : nat -> list K) (op : setop) (r : res setval) : nat -> list K :=
  match op with
  | SNew i ys => upd st i ys
  | SAdd i k => upd st i (k :: st i)
  | SDiscard i k => upd st i (minus (st i) k)
  | SPop i => match r with Ok (SVElem k) => upd st i (minus (st i) k) | _ => st end
  | SUpdate i ys => upd st i (ys ++ st i)
  | SUpdateSet i a => upd st i (st a ++ st i)
  | SOr i a b => upd st i (st a ++ st b)
  | SAnd i a b => upd st i (inter (st a) (st b))
  | SSub i a b => upd st i (diff (st a) (st b))
  | SXor i a b => upd st i (diff (st a) (st b) ++ diff (st b) (st a))
  | _ => st
  end.

(** The answers [rs] to the operations [ops] are right, one by one, as long as all sets stay
    within [lim] elements. *)
Fixpoint set_history (lim : Z) (st : nat -> list K) (ops : list setop) (rs : list (res setval)) : Prop :=
  match ops, rs with
  | [], [] => True
  | op :: ops', r :: rs' =>
      forall st', st' = next st op r ->
      (forall i, card (st' i) <= lim) -> allowed st op r /\ set_history lim st' ops' rs'
  | _, _ => False
  end.
End SetSpec.
Arguments setop : clear implicits.
Arguments setval : clear implicits.

(** All sets stay within [lim] elements along the history. *)
Fixpoint set_within {K} (keq : K -> K -> bool) (lim : Z) (st : nat -> list K) (ops : list (setop K)) (rs : list (res (setval K))) : Prop :=
  match ops, rs with
  | op :: ops', r :: rs' =>
      (forall i, card keq (next keq st op r i) <= lim) /\ set_within keq lim (next keq st op r) ops' rs'
  | _, _ => True
  end.

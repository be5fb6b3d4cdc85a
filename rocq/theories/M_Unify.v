(** Unification: compiler/lib/src/Acton/TypeEnv.hs:685-742, 648-651 (the substitution), 826-842 (its use).
    Wildcards, type aliases and unboxed types are left out; a variable has a number and a level. *)
From Coq Require Import List Arith Bool Lia.
From Verif Require Import S_Unify.
Import ListNotations.

Section Model.
Variable level : nat -> nat.
Definition subst := list (nat * ty).
Definition one (v : nat) (t : ty) : nat -> ty := fun w => if w =? v then t else Uni w.
(** TypeEnv.hs:826-842: variables are looked up, and what is found is substituted again.  The newest binding stands
    first; T_Unify.C95_equations shows the equations of the code. *)
Fixpoint app (s : subst) (x : ty) : ty := match s with [] => x | (v, t) :: s => gsub (one v t) (app s x) end.
(** IntMap.lookup. *)
Fixpoint lookup (v : nat) (s : subst) : option ty := match s with [] => None | (w, t) :: s => if v =? w then Some t else lookup v s end.

Definition head_eqb (a b : head) : bool :=
  match a, b with
  | HVar v, HVar w => v =? w
  | HCon n, HCon m => n =? m
  | HFun, HFun => true
  | HTuple, HTuple => true
  | HOpt, HOpt => true
  | HNone, HNone => true
  | HNil k, HNil l => Bool.eqb k l
  | HRow k n, HRow l m => Bool.eqb k l && (n =? m)
  | HStar k, HStar l => Bool.eqb k l
  | HFX f, HFX g => f =? g
  | _, _ => false
  end.
(** TypeEnv.hs:697-727: what is unified when heads are equal; the rows of functions the other way round. *)
Definition args (h : head) (ts us : list ty) : list (ty * ty) :=
  match h, ts, us with
  | HFun, [fx1; p1; k1; t1], [fx2; p2; k2; t2] => [(fx1, fx2); (p2, p1); (k2, k1); (t1, t2)]
  | _, _, _ => combine ts us
  end.
Definition occurs (v : nat) (t : ty) : bool := existsb (Nat.eqb v) (vars t).

Inductive outcome := Done (s : subst) | Clash | More.
(** TypeEnv.hs:685-742.  [ps] are the calls that are still to be made; [n] bounds their number, [More] says that it was too small. *)
Fixpoint unify (n : nat) (s : subst) (ps : list (ty * ty)) : outcome :=
  match ps with
  | [] => Done s
  | (a, b) :: ps =>
      match n with
      | O => More
      | S n =>
          match app s a, app s b with
          | Uni v, Uni w => if v =? w then unify n s ps else if level v <? level w then unify n ((w, Uni v) :: s) ps else unify n ((v, Uni w) :: s) ps
          | Uni v, t => if occurs v t then Clash else unify n ((v, t) :: s) ps
          | t, Uni v => if occurs v t then Clash else unify n ((v, t) :: s) ps
          | Node h ts, Node g us => if head_eqb h g then unify n s (args h ts us ++ ps) else Clash
          end
      end
  end.
End Model.

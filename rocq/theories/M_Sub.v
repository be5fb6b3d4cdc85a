(** Subtyping: compiler/lib/src/Acton/Env.hs:1069-1122 (castable), Subst.hs:586 (covariant classes).
    Wildcards and type aliases are left out; the class hierarchy is [find_anc] (Env.hs:769-770, see M_Mro). *)
From Coq Require Import List Arith Bool Lia.
From Verif Require Import S_Sub.
Import ListNotations.

Definition fx_eqb (a b : fx) : bool := match a, b with Pure, Pure | Mut, Mut | Proc, Proc | Action, Action => true | _, _ => false end.
(** Syntax.hs:797-811, equality of types. *)
Fixpoint ty_eqb (a b : ty) : bool :=
  match a, b with
  | Par v, Par w => v =? w
  | Con c ts, Con d us => (c =? d) && (fix go (ts us : list ty) : bool := match ts, us with [], [] => true | t :: ts, u :: us => ty_eqb t u && go ts us | _, _ => false end) ts us
  | Fun e1 p1 k1 t1, Fun e2 p2 k2 t2 => ty_eqb e1 e2 && ty_eqb p1 p2 && ty_eqb k1 k2 && ty_eqb t1 t2
  | Tup p1 k1, Tup p2 k2 => ty_eqb p1 p2 && ty_eqb k1 k2
  | Opt t1, Opt t2 => ty_eqb t1 t2
  | Non, Non => true
  | Eff e1, Eff e2 => fx_eqb e1 e2
  | Nil k1, Nil k2 => Bool.eqb k1 k2
  | Row k1 l1 t1 r1, Row k2 l2 t2 r2 => Bool.eqb k1 k2 && (l1 =? l2) && ty_eqb t1 t2 && ty_eqb r1 r2
  | Star k1 r1, Star k2 r2 => Bool.eqb k1 k2 && ty_eqb r1 r2
  | _, _ => false
  end.
Fixpoint tys_eqb (ts us : list ty) : bool := match ts, us with [], [] => true | t :: ts, u :: us => ty_eqb t u && tys_eqb ts us | _, _ => false end.

Section Model.
(** Env.hs:769-770: the arguments with which the class is an heir of the other one. *)
Variable find_anc : nat -> list ty -> nat -> option (list ty).
Variable cov : nat -> bool.
Variable bound : nat -> nat * list ty.
(** Env.hs:1094-1103. *)
Definition fx_le (a b : fx) : bool :=
  match a, b with
  | Pure, Pure | Pure, Mut | Pure, Proc | Mut, Mut | Mut, Proc | Proc, Proc | Action, Action | Action, Proc => true
  | _, _ => false
  end.
(** && of Haskell; [None] is not known yet. *)
Definition both (a b : option bool) : option bool := match a with Some true => b | _ => a end.
(** all (uncurry castable) of zip. *)
Fixpoint all2 (f : ty -> ty -> option bool) (ts us : list ty) : option bool :=
  match ts, us with t :: ts, u :: us => both (f t u) (all2 f ts us) | _, _ => Some true end.
(** Env.hs:1069-1122; [n] bounds the depth of calls. *)
Fixpoint castable (n : nat) (t u : ty) : option bool :=
  match n with
  | O => None
  | S n =>
      match t, u with
      | Con c ts, Con d us =>
          if (c =? d) && cov c then all2 (castable n) ts us
          else match find_anc c ts d with Some us' => Some (tys_eqb us us') | None => Some false end
      | Fun e1 p1 k1 t1, Fun e2 p2 k2 t2 => both (castable n e1 e2) (both (castable n p2 p1) (both (castable n k2 k1) (castable n t1 t2)))
      | Tup p1 k1, Tup p2 k2 => both (castable n p1 p2) (castable n k1 k2)
      | Opt t, Opt u => castable n t u
      | Non, Opt _ => Some true
      | Non, Non => Some true
      | Eff a, Eff b => Some (fx_le a b)
      | Nil k, Nil l => Some (Bool.eqb k l)
      | Row k l t1 r1, Row k' l' t2 r2 => if Bool.eqb k k' && (l =? l') then both (castable n t1 t2) (castable n r1 r2) else Some false
      | Star k r1, Star k' r2 => if Bool.eqb k k' then castable n r1 r2 else Some false
      | Par v, Par w => if v =? w then Some true else castable n (Con (fst (bound v)) (snd (bound v))) u
      | Par v, _ => castable n (Con (fst (bound v)) (snd (bound v))) u
      | _, Par _ => Some false
      | _, Opt u => castable n t u
      | _, _ => Some false
      end
  end.
End Model.

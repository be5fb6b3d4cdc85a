(** Common supertypes and subtypes: compiler/lib/src/Acton/Env.hs:1132-1306 (glb, glb2, glbfold, lub, lub2, lubfold).
    Wildcards, unknown types, type aliases and unboxed types are left out; the arguments of common ancestors are left out (Solver.hs:1634-1647 applies these functions to schematic types, where they are wildcards).
    [n] bounds the depth of calls; [None] is Nothing, or too few calls. *)
From Coq Require Import List Arith Bool Lia.
From Verif Require Import S_Sub.
Import ListNotations.

Section Model.
(** Env.hs:771-776: the classes a class inherits from. *)
Variable ancs : nat -> list nat.
(** Env.hs:1016-1019. *)
Variable bound : nat -> nat * list ty.
Definition inb (c : nat) (cs : list nat) : bool := existsb (Nat.eqb c) cs.
(** Env.hs:778-780. *)
Definition common (c d : nat) : list nat := filter (fun e => inb e (d :: ancs d)) (c :: ancs c).
(** Syntax.hs:357-358. *)
Definition opt (t : ty) : ty := match t with Opt _ => t | _ => Opt t end.
Definition cbound (v : nat) : ty := Con (fst (bound v)) (snd (bound v)).
(** Env.hs:1169-1184. *)
Definition glfx (a b : fx) : option fx :=
  match a, b with
  | Pure, Pure => Some Pure | Pure, Mut => Some Pure | Pure, Proc => Some Pure | Pure, Action => None
  | Mut, Pure => Some Pure | Mut, Mut => Some Mut | Mut, Proc => Some Mut | Mut, Action => None
  | Proc, Pure => Some Pure | Proc, Mut => Some Mut | Proc, Proc => Some Proc | Proc, Action => Some Action
  | Action, Pure => None | Action, Mut => None | Action, Proc => Some Action | Action, Action => Some Action
  end.
(** Env.hs:1262-1277. *)
Definition lufx (a b : fx) : fx :=
  match a, b with
  | Pure, Pure => Pure | Pure, Mut => Mut | Pure, Proc => Proc | Pure, Action => Proc
  | Mut, Pure => Mut | Mut, Mut => Mut | Mut, Proc => Proc | Mut, Action => Proc
  | Proc, Pure => Proc | Proc, Mut => Proc | Proc, Proc => Proc | Proc, Action => Proc
  | Action, Pure => Proc | Action, Mut => Proc | Action, Proc => Proc | Action, Action => Action
  end.
Definition bind {A B} (o : option A) (f : A -> option B) : option B := match o with Some a => f a | None => None end.

Fixpoint glb (n : nat) (t1 t2 : ty) {struct n} : option ty :=                                  (* Env.hs:1132-1193 *)
  match n with
  | O => None
  | S n =>
      match t1, t2 with
      | Par v, Par w => if v =? w then Some t1 else None
      | Con c _, Con d _ => if c =? d then Some t1 else if inb d (ancs c) then Some t1 else if inb c (ancs d) then Some t2 else None
      | Fun e1 p1 k1 r1, Fun e2 p2 k2 r2 => bind (glb n e1 e2) (fun e => bind (lub2 n p1 k1 p2 k2) (fun pk => bind (glb n r1 r2) (fun r => Some (Fun e (fst pk) (snd pk) r))))
      | Tup p1 k1, Tup p2 k2 => bind (glb2 n p1 k1 p2 k2) (fun pk => Some (Tup (fst pk) (snd pk)))
      | Opt u1, Opt u2 => bind (glb n u1 u2) (fun g => Some (opt g))
      | Non, _ => Some Non
      | _, Non => Some Non
      | Opt u1, _ => glb n u1 t2
      | _, Opt u2 => glb n t1 u2
      | Eff a, Eff b => bind (glfx a b) (fun e => Some (Eff e))
      | Nil k, Nil k' => if Bool.eqb k k' then Some t1 else None
      | Row k l u1 r1, Row k' l' u2 r2 => if Bool.eqb k k' && (l =? l') then bind (glb n u1 u2) (fun u => bind (glb n r1 r2) (fun r => Some (Row k l u r))) else None
      | Star k r1, Star k' r2 => if Bool.eqb k k' then bind (glb n r1 r2) (fun r => Some (Star k r)) else None
      | _, _ => None
      end
  end
with glb2 (n : nat) (p1 k1 p2 k2 : ty) {struct n} : option (ty * ty) :=                        (* Env.hs:1196-1206 *)
  match n with
  | O => None
  | S n =>
      match p1, k1, p2, k2 with
      | Row _ _ t1 r1, _, Row _ _ t2 r2, _ => bind (glb n t1 t2) (fun t => bind (glb2 n r1 k1 r2 k2) (fun pk => Some (Row false 0 t (fst pk), snd pk)))
      | Row _ _ _ _, _, Nil _, Row _ _ t2 k2' => glb2 n p1 k1 (Row false 0 t2 p2) k2'
      | Nil _, Row _ _ t1 k1', Row _ _ _ _, _ => glb2 n (Row false 0 t1 p1) k1' p2 k2
      | _, _, _, _ => bind (glb n p1 p2) (fun p => bind (glb n k1 k2) (fun k => Some (p, k)))
      end
  end
with lub (n : nat) (t1 t2 : ty) {struct n} : option ty :=                                      (* Env.hs:1218-1287 *)
  match n with
  | O => None
  | S n =>
      match t1, t2 with
      | Par v, Par w => if v =? w then Some t1 else lub n t1 (cbound w)
      | _, Par w => lub n t1 (cbound w)
      | Par v, _ => lub n (cbound v) t2
      | Con c _, Con d _ => if c =? d then Some t1 else if inb d (ancs c) then Some t2 else if inb c (ancs d) then Some t1
                            else match common c d with e :: _ => Some (Con e []) | [] => None end
      | Fun e1 p1 k1 r1, Fun e2 p2 k2 r2 => bind (lub n e1 e2) (fun e => bind (glb2 n p1 k1 p2 k2) (fun pk => bind (lub n r1 r2) (fun r => Some (Fun e (fst pk) (snd pk) r))))
      | Tup p1 k1, Tup p2 k2 => bind (lub2 n p1 k1 p2 k2) (fun pk => Some (Tup (fst pk) (snd pk)))
      | Opt u1, Opt u2 => bind (lub n u1 u2) (fun g => Some (opt g))
      | Non, Non => Some Non
      | Non, Opt _ => Some t2
      | Opt _, Non => Some t1
      | Non, _ => Some (opt t2)
      | _, Non => Some (opt t1)
      | Opt u1, _ => bind (lub n u1 t2) (fun g => Some (opt g))
      | _, Opt u2 => bind (lub n t1 u2) (fun g => Some (opt g))
      | Eff a, Eff b => Some (Eff (lufx a b))
      | Nil k, Nil k' => if Bool.eqb k k' then Some t1 else None
      | Row k l u1 r1, Row k' l' u2 r2 => if Bool.eqb k k' && (l =? l') then bind (lub n u1 u2) (fun u => bind (lub n r1 r2) (fun r => Some (Row k l u r))) else None
      | Star k r1, Star k' r2 => if Bool.eqb k k' then bind (lub n r1 r2) (fun r => Some (Star k r)) else None
      | _, _ => None
      end
  end
with lub2 (n : nat) (p1 k1 p2 k2 : ty) {struct n} : option (ty * ty) :=                        (* Env.hs:1291-1301 *)
  match n with
  | O => None
  | S n =>
      match p1, k1, p2, k2 with
      | Row _ _ t1 r1, _, Row _ _ t2 r2, _ => bind (lub n t1 t2) (fun t => bind (lub2 n r1 k1 r2 k2) (fun pk => Some (Row false 0 t (fst pk), snd pk)))
      | Row _ _ t1 r1, _, Nil _, Row _ l _ _ => lub2 n r1 (Row true l t1 k1) p2 k2
      | Nil _, Row _ l _ _, Row _ _ t2 r2, _ => lub2 n p1 k1 r2 (Row true l t2 k2)
      | _, _, _, _ => bind (lub n p1 p2) (fun p => bind (lub n k1 k2) (fun k => Some (p, k)))
      end
  end.
(** Env.hs:1209-1211 and 1304-1306. *)
Fixpoint foldm (f : ty -> ty -> option ty) (t : ty) (ts : list ty) : option ty := match ts with [] => Some t | u :: ts => bind (f t u) (fun t => foldm f t ts) end.
Definition fold1 (f : ty -> ty -> option ty) (ts : list ty) : option ty := match ts with [] => None | t :: ts => foldm f t ts end.
End Model.

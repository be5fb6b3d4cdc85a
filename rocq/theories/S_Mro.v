(** Specification of inheritance: declarations, the ancestors of a class or protocol, and orders of them. *)
From Coq Require Import List Arith Bool Lia.
Import ListNotations.

(** Types: variables, constructors, applications. *)
Inductive ty := Var (v : nat) | Con (c : nat) | App (t u : ty).
(** A class or protocol with its arguments. *)
Record tcon := TC { tcname : nat; tcargs : list ty }.
Fixpoint var_value (s : list (nat * ty)) (v : nat) : ty := match s with [] => Var v | (w, t) :: s => if v =? w then t else var_value s v end.
Fixpoint tsubst (s : list (nat * ty)) (t : ty) : ty := match t with Var v => var_value s v | Con c => Con c | App t u => App (tsubst s t) (tsubst s u) end.
Definition inst (params : list nat) (args : list ty) (c : tcon) : tcon := TC (tcname c) (map (tsubst (combine params args)) (tcargs c)).
Fixpoint tvars (t : ty) : list nat := match t with Var v => [v] | Con _ => [] | App t u => tvars t ++ tvars u end.

Section Decls.
Variable A : Type.
Record decl := Decl { d_name : nat; d_params : list nat; d_parents : list tcon; d_attrs : list (nat * A) }.
(** [Known ds c]: [c] is declared, with that many parameters. *)
Definition known (ds : list decl) (c : tcon) : Prop := exists d, In d ds /\ d_name d = tcname c /\ length (d_params d) = length (tcargs c).
(** Declared once, after the parents; the variables in parents are parameters. *)
Inductive decls_ok : list decl -> Prop :=
| ok_nil : decls_ok []
| ok_snoc : forall ds d, decls_ok ds -> (forall d', In d' ds -> d_name d' <> d_name d) -> Forall (known ds) (d_parents d) ->
    Forall (fun u => Forall (fun t => incl (tvars t) (d_params d)) (tcargs u)) (d_parents d) -> decls_ok (ds ++ [d]).

Variable ds : list decl.
(** [y] is a parent of [x], with the arguments of [x] put in. *)
Inductive parent : tcon -> tcon -> Prop :=
| parent_intro : forall d x u, In d ds -> d_name d = tcname x -> In u (d_parents d) -> parent x (inst (d_params d) (tcargs x) u).
(** [x] itself, its parents, their parents and so on. *)
Inductive ancestor : tcon -> tcon -> Prop :=
| anc_self : forall x, ancestor x x
| anc_up : forall x y z, parent x y -> ancestor y z -> ancestor x z.
(** The way from [x] to an ancestor: Left to the first parent, Right to another one. *)
Inductive walk : list (nat + nat) -> tcon -> tcon -> Prop :=
| walk_end : forall x, walk [] x x
| walk_left : forall d u us x w z, In d ds -> d_name d = tcname x -> d_parents d = u :: us ->
    walk w (inst (d_params d) (tcargs x) u) z -> walk (inl (tcname u) :: w) x z
| walk_right : forall d u v us x w z, In d ds -> d_name d = tcname x -> d_parents d = v :: us -> In u us ->
    walk w (inst (d_params d) (tcargs x) u) z -> walk (inr (tcname u) :: w) x z.
(** [i] is what [x] itself says of the attribute [a] (the last time). *)
Definition declares (x : tcon) (a : nat) (i : A) : Prop :=
  exists d l1 l2, In d ds /\ d_name d = tcname x /\ d_attrs d = l1 ++ (a, i) :: l2 /\ ~ In a (map fst l2).
End Decls.
Arguments Decl {A}. Arguments d_name {A}. Arguments d_params {A}. Arguments d_parents {A}. Arguments d_attrs {A}.

(** [x] comes before [y]. *)
Definition before {X} (x y : X) (l : list X) : Prop := exists l1 l2 l3, l = l1 ++ x :: l2 ++ y :: l3.
(** A list that keeps the order of another one. *)
Inductive sublist {X} : list X -> list X -> Prop :=
| sub_nil : sublist [] []
| sub_skip : forall x l1 l2, sublist l1 l2 -> sublist l1 (x :: l2)
| sub_keep : forall x l1 l2, sublist l1 l2 -> sublist (x :: l1) (x :: l2).

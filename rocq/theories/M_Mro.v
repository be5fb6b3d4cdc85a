(** Inheritance: compiler/lib/src/Acton/Env.hs:1028-1066 (method resolution order), 762-775, 817-935
    (ancestry and attributes), Types.hs:1037-1140 (where declarations get their ancestors).  Types are
    variables, constructors and applications; bounds of parameters and the types of attributes are left out. *)
From Coq Require Import List Arith Bool Lia.
From Verif Require Import S_Mro.
Import ListNotations.

Section Model.
Variable A : Type.
Notation decl := (S_Mro.decl A).
(** Syntax.hs: WTCon, a path of Left and Right steps and what it leads to. *)
Definition wtcon : Type := list (nat + nat) * tcon.
Definition wname (x : wtcon) : nat := tcname (snd x).
(** NClass, NProto of NameInfo.hs: parameters, ancestors, attributes. *)
Record info := Info { i_q : list nat; i_us : list wtcon; i_te : list (nat * A) }.
Definition env := list (nat * info).
Fixpoint find_con_name (e : env) (n : nat) : option info := match e with [] => None | (m, i) :: e => if n =? m then Some i else find_con_name e n end.

Fixpoint ty_eqb (a b : ty) : bool :=
  match a, b with
  | Var v, Var w => v =? w
  | Con c, Con d => c =? d
  | App t u, App t' u' => ty_eqb t t' && ty_eqb u u'
  | _, _ => false
  end.
Fixpoint tys_eqb (a b : list ty) : bool := match a, b with [], [] => true | t :: a, u :: b => ty_eqb t u && tys_eqb a b | _, _ => false end.
(** Env.hs:817-823. *)
Definition find_con (e : env) (c : tcon) : option (list wtcon * list (nat * A)) :=
  match find_con_name e (tcname c) with
  | Some i => if tys_eqb (map Var (i_q i)) (tcargs c) then Some (i_us i, i_te i)
              else Some (map (fun x => (fst x, inst (i_q i) (tcargs c) (snd x))) (i_us i), i_te i)
  | None => None
  end.
(** Env.hs:766-767. *)
Definition find_ancestry (e : env) (c : tcon) : option (list wtcon) :=
  match find_con e c with Some (us, _) => Some (([], c) :: us) | None => None end.

(** Env.hs:1046-1048, lin. *)
Definition lin (e : env) (x : wtcon) : option (list wtcon) :=
  match find_con e (snd x) with Some (us, _) => Some (x :: map (fun y => (fst x ++ fst y, snd y)) us) | None => None end.
(** Env.hs:1064-1065. *)
Definition absent (h : wtcon) (us : list wtcon) : bool := negb (existsb (fun x => wname h =? wname x) us).
(** Env.hs:1059-1062: whether equal, or an error. *)
Definition equal (x y : wtcon) : option bool :=
  if wname x =? wname y then (if tys_eqb (tcargs (snd x)) (tcargs (snd y)) then Some true else None) else Some false.
Fixpoint heads (ls : list (list wtcon)) : list (wtcon * list wtcon) :=
  match ls with [] => [] | [] :: ls => heads ls | (h :: t) :: ls => (h, t) :: heads ls end.
Fixpoint strike (h : wtcon) (hts : list (wtcon * list wtcon)) : option (list (list wtcon)) :=
  match hts with
  | [] => Some []
  | (hd, tl) :: hts =>
      match equal hd h, strike h hts with
      | Some true, Some ls => Some (tl :: ls)
      | Some false, Some ls => Some ((hd :: tl) :: ls)
      | _, _ => None
      end
  end.
(** Env.hs:1050-1057; [n] bounds the number of rounds; [None] is an error message. *)
Fixpoint merge (n : nat) (out : list wtcon) (ls : list (list wtcon)) : option (list wtcon) :=
  match heads ls with
  | [] => Some (rev out)
  | hts =>
      match n with
      | O => None
      | S n =>
          match filter (fun h => forallb (absent h) (map snd hts)) (map fst hts) with
          | h :: _ => match strike h hts with Some ls' => merge n (h :: out) ls' | None => None end
          | [] => None
          end
      end
  end.
Fixpoint all_some {X} (l : list (option X)) : option (list X) :=
  match l with [] => Some [] | Some x :: l => match all_some l with Some r => Some (x :: r) | None => None end | None :: _ => None end.
Definition steps (us : list tcon) : list wtcon :=
  match us with [] => [] | u :: us => ([inl (tcname u)], u) :: map (fun u => ([inr (tcname u)], u)) us end.
(** Env.hs:1039-1042. *)
Definition mro (e : env) (us : list tcon) : option (list wtcon) :=
  match all_some (map (lin e) (steps us)) with
  | Some ls => let ls := ls ++ [steps us] in merge (length (concat ls)) [] ls
  | None => None
  end.
(** Types.hs:1108 (and 1057, with one parent): what a declaration adds. *)
Definition declare (e : env) (d : decl) : option env :=
  match mro e (d_parents d) with Some us => Some ((d_name d, Info (d_params d) us (d_attrs d)) :: e) | None => None end.
Fixpoint elaborate (e : env) (ds : list decl) : option env :=
  match ds with [] => Some e | d :: ds => match declare e d with Some e => elaborate e ds | None => None end end.

(** Env.hs:876-881. *)
Fixpoint scan (a : nat) (r : option A) (te : list (nat * A)) : option A :=
  match te with [] => r | (x, i) :: te => scan a (if x =? a then Some i else r) te end.
(** Env.hs:852-855: the path, the ancestor and the attribute. *)
Fixpoint go (e : env) (a : nat) (l : list wtcon) : option (list (nat + nat) * tcon * A) :=
  match l with
  | [] => None
  | (w, c) :: l =>
      match find_con e c with
      | Some (_, te) => match scan a None te with Some i => Some (w, c, i) | None => go e a l end
      | None => None
      end
  end.
Definition find_attr (e : env) (c : tcon) (a : nat) : option (list (nat + nat) * tcon * A) :=
  match find_ancestry e c with Some l => go e a l | None => None end.

(** Env.hs:839-842: the names of all attributes, as they are laid out. *)
Fixpoint nub (seen l : list nat) : list nat :=
  match l with [] => [] | x :: l => if existsb (Nat.eqb x) seen then nub seen l else x :: nub (x :: seen) l end.
Definition own (e : env) (c : tcon) : list nat := match find_con e c with Some (_, te) => map fst te | None => [] end.
Definition layout (e : env) (c : tcon) : list nat :=
  match find_ancestry e c with Some l => nub [] (rev (flat_map (fun x => rev (own e (snd x))) l)) | None => [] end.
(** Env.hs:842: the attributes with their paths, overriding ones first; lookup in it is the one of the Prelude. *)
Definition aenv (e : env) (c : tcon) : list (nat * (list (nat + nat) * A)) :=
  match find_ancestry e c with
  | Some l => flat_map (fun x => match find_con e (snd x) with Some (_, te) => map (fun p => (fst p, (fst x, snd p))) (rev te) | None => [] end) l
  | None => []
  end.
Fixpoint lookup {B} (a : nat) (l : list (nat * B)) : option B := match l with [] => None | (x, b) :: l => if a =? x then Some b else lookup a l end.
(** Env.hs:839-840: what is laid out. *)
Definition attributes (e : env) (c : tcon) : list (option (nat * (list (nat + nat) * A))) :=
  map (fun n => match lookup n (aenv e c) with Some r => Some (n, r) | None => None end) (layout e c).
End Model.
Arguments Info {A}. Arguments i_q {A}. Arguments i_us {A}. Arguments i_te {A}.

(** Specification of file paths: their components and what a relative path means.
    Texts are lists of characters; 47 is '/', 46 is '.'.  Independent of the model. *)
From Verif Require Import Base.

Notation name := (list Z) (only parsing).
Definition dot : name := [46].
Definition dotdot : name := [46; 46].

(** [fields s l]: the texts between the slashes of [s], empty ones included. *)
Inductive fields : list Z -> list name -> Prop :=
| F_last x : ~ In 47 x -> fields x [x]
| F_more x s l : ~ In 47 x -> fields s l -> fields (x ++ 47 :: s) (x :: l).

(** The components of a path: the non-empty texts between its slashes. *)
Definition components (s : list Z) (l : list name) : Prop :=
  exists f, fields s f /\ l = filter (fun x => match x with [] => false | _ => true end) f.

Definition absolute (s : list Z) : Prop := exists r, s = 47 :: r.

(** Following a relative path from a directory, component by component: '.' stays, '..'
    goes to the parent (there is none at the root), a name goes down. *)
Inductive follow : list name -> list name -> list name -> Prop :=
| W_end d : follow d [] d
| W_dot d l r : follow d l r -> follow d (dot :: l) r
| W_up d x l r : follow d l r -> follow (d ++ [x]) (dotdot :: l) r
| W_down d x l r : x <> dot -> x <> dotdot -> follow (d ++ [x]) l r -> follow d (x :: l) r.

(** It leaves the root upwards. *)
Inductive escapes : list name -> list name -> Prop :=
| X_here l : escapes [] (dotdot :: l)
| X_dot d l : escapes d l -> escapes d (dot :: l)
| X_up d x l : escapes d l -> escapes (d ++ [x]) (dotdot :: l)
| X_down d x l : x <> dot -> x <> dotdot -> escapes (d ++ [x]) l -> escapes d (x :: l).

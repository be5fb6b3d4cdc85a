(** What a table is, for its users: a map from key paths to columns.  Reading this file
    needs no other. *)
From Coq Require Import List ZArith Bool.
Import ListNotations.
Open Scope Z_scope.

(** Requests that change a table: write the columns [data] of the cell [path] (primary key
    first), or delete the row with a primary key. *)
Inductive top := TWrite (path data : list Z) | TDelete (pk : Z).

(** Requests that are well formed for a table with [d] clustering keys. *)
Definition op_ok (d : nat) (o : top) : Prop :=
  match o with
  | TWrite p data => length p = S d /\ data <> [] /\
                     Forall (fun k => - 2 ^ 63 <= k < 2 ^ 63 - 1) (firstn 1 p)
  | TDelete _ => True
  end.

Fixpoint same (p q : list Z) : bool :=
  match p, q with
  | [], [] => true
  | x :: p, y :: q => (x =? y) && same p q
  | _, _ => false
  end.

Definition contents := list Z -> option (list Z).

Definition after (m : contents) (o : top) : contents := fun p =>
  match o with
  | TWrite path data => if same p path then Some data else m p
  | TDelete pk => if same (firstn 1 p) [pk] then None else m p
  end.

Definition map_of (os : list top) : contents := fold_left after os (fun _ => None).

(** Path order. *)
Fixpoint path_lt (p q : list Z) : Prop :=
  match p, q with
  | x :: p, y :: q => x < y \/ (x = y /\ path_lt p q)
  | [], _ :: _ => True
  | _, [] => False
  end.
Fixpoint ascending (l : list (list Z * list Z)) : Prop :=
  match l with
  | [] => True
  | (p, _) :: t => (forall q d, In (q, d) t -> path_lt p q) /\ ascending t
  end.

(** [l] lists exactly the cells of [m] whose path satisfies [P], in order. *)
Definition lists (m : contents) (P : list Z -> Prop) (l : list (list Z * list Z)) : Prop :=
  ascending l /\ forall p d, In (p, d) l <-> m p = Some d /\ P p.

Definition row_of (pk : Z) (p : list Z) : Prop := exists r, p = pk :: r.
Definition rows_between (lo hi : Z) (p : list Z) : Prop := exists k r, p = k :: r /\ lo <= k <= hi.

(** Specification of vector clocks (C40): finite maps from node ids to counters. *)
From Verif Require Import Base M_VClock.

Definition clock := Z -> option Z.
Definition empty : clock := fun _ => None.
Definition set (m : clock) (id : Z) (c : option Z) : clock := fun k => if k =? id then c else m k.

(** The pointwise order: everything [a] knows, [b] knows at least as well. *)
Definition leq (a b : clock) : Prop := forall id c, a id = Some c -> exists c', b id = Some c' /\ c <= c'.
Definition same_nodes (a b : clock) : Prop := forall id, a id = None <-> b id = None.

(** The pointwise maximum. *)
Definition join (a b : clock) : clock := fun id =>
  match a id, b id with
  | Some x, Some y => Some (Z.max x y)
  | Some x, None => Some x
  | None, y => y
  end.

(** What compare returns: clocks over different sets of nodes are incomparable (-2);
    otherwise the pointwise order, -3 if neither is below the other. *)
Inductive compares (a b : clock) : Z -> Prop :=
| cmp_eq : same_nodes a b -> leq a b -> leq b a -> compares a b 0
| cmp_lt : same_nodes a b -> leq a b -> ~ leq b a -> compares a b (-1)
| cmp_gt : same_nodes a b -> ~ leq a b -> leq b a -> compares a b 1
| cmp_disjoint : same_nodes a b -> ~ leq a b -> ~ leq b a -> compares a b (-3)
| cmp_incomparable : ~ same_nodes a b -> compares a b (-2).

(** Histories on clock variables named by numbers, all empty at first. *)
Inductive op :=
| New (i : nat) (id : Z)            (* init_local_vc_id *)
| Incr (i : nat) (id : Z)
| Add (i : nat) (id c : Z)
| Get (i : nat) (id : Z)
| Remove (i : nat) (id : Z)
| Update (i j : nat)                (* update_vc *)
| Replace (i j : nat)               (* update_or_replace_vc *)
| Copy (i j : nat)
| Send (i j : nat)                  (* to a message and back *)
| Compare (i j : nat).

Definition upd {A} (s : nat -> A) (i : nat) (x : A) : nat -> A := fun k => if Nat.eqb k i then x else s k.

(** [step s o r s']: in state [s] the call [o] returns [r] and leads to [s']. *)
Inductive step (s : nat -> clock) : op -> Z -> (nat -> clock) -> Prop :=
| st_new : forall i id, step s (New i id) 0 (upd s i (set empty id (Some 0)))
| st_incr : forall i id c, s i id = Some c -> step s (Incr i id) 0 (upd s i (set (s i) id (Some (c + 1))))
| st_incr_none : forall i id, s i id = None -> step s (Incr i id) (-1) s
| st_add : forall i id c, s i id = None -> step s (Add i id c) 0 (upd s i (set (s i) id (Some (Z.max c 0))))
| st_add_old : forall i id c, s i id <> None -> step s (Add i id c) (-1) s
| st_get : forall i id c, s i id = Some c -> step s (Get i id) c s
| st_get_none : forall i id, s i id = None -> step s (Get i id) (-1) s
| st_remove : forall i id, s i id <> None -> step s (Remove i id) 0 (upd s i (set (s i) id None))
| st_remove_none : forall i id, s i id = None -> step s (Remove i id) (-1) s
| st_update : forall i j, step s (Update i j) 0 (upd s i (join (s i) (s j)))
| st_replace : forall i j, step s (Replace i j) 0 (upd s i (s j))
| st_copy : forall i j, step s (Copy i j) 0 (upd s i (s j))
| st_send : forall i j, step s (Send i j) 0 (upd s i (s j))
| st_compare : forall i j r, compares (s i) (s j) r -> step s (Compare i j) r s.

Inductive steps : (nat -> clock) -> list op -> list Z -> Prop :=
| sts_nil : forall s, steps s [] []
| sts_cons : forall s o r s1 s2 os rs,
    step s o r s1 -> (forall i id, s1 i id = s2 i id) -> steps s2 os rs -> steps s (o :: os) (r :: rs).

(** The node id a call mentions. *)
Definition op_id (o : op) : option Z :=
  match o with
  | New _ id | Incr _ id | Add _ id _ | Get _ id | Remove _ id => Some id
  | _ => None
  end.

(** Running a history in the model. *)
Definition exec (junk : Z -> Z * Z) (s : nat -> vclock) (o : op) : res ((nat -> vclock) * Z) :=
  match o with
  | New i id => do v <- init_local_vc_id id; Ok (upd s i v, 0)
  | Incr i id => do (v, r) <- increment_vc (s i) id; Ok (upd s i v, r)
  | Add i id c => do (v, r) <- add_component_vc junk (s i) id c; Ok (upd s i v, r)
  | Get i id => do r <- get_component_vc (s i) id; Ok (s, r)
  | Remove i id => do (v, r) <- remove_component_vc (s i) id; Ok (upd s i v, r)
  | Update i j => do v <- update_vc junk (s i) (s j); Ok (upd s i v, 0)
  | Replace i j => do v <- update_or_replace_vc junk (Some (s i)) (s j); Ok (upd s i v, 0)
  | Copy i j => do v <- copy_vc junk (s j); Ok (upd s i v, 0)
  | Send i j => do m <- init_vc_msg (s j); do v <- init_vc_from_msg m; Ok (upd s i v, 0)
  | Compare i j => do r <- compare_vc (Some (s i)) (Some (s j)); Ok (s, r)
  end.

Fixpoint exec_all (junk : Z -> Z * Z) (s : nat -> vclock) (os : list op) : res (list Z) :=
  match os with
  | [] => Ok []
  | o :: t => do x <- exec junk s o; do rs <- exec_all junk (fst x) t; Ok (snd x :: rs)
  end.

(** An array that represents a clock. *)
Definition entries (v : vclock) : list (Z * Z) := firstn (Z.to_nat (vn v)) (varr v).
Definition rep (v : vclock) (m : clock) : Prop :=
  0 <= vn v <= capacity v
  /\ (forall i j x y, (i < j)%nat -> nth_error (entries v) i = Some x -> nth_error (entries v) j = Some y -> fst x < fst y)
  /\ forall id c, In (id, c) (entries v) <-> m id = Some c.

(** Specification of an ordered map from 64-bit keys to values (C39). *)
From Verif Require Import Base M_Skiplist.
Require Import Sorted.

(** Calls, and what the caller gets back. *)
Inductive op :=
| Insert (k v : Z) | Delete (k : Z) | Search (k : Z)
| Higher (k : Z) | Lower (k : Z) | Count | Items
| Clone (junk : Z).      (* go on with a copy of the map *)

Inductive out :=
| Done | Value (v : Z) | NotFound | Node (k v : Z) | Number (n : Z) | List (l : list (Z * Z)).

(** [Higher k]: the item with the least key >= k; [Lower k]: the item with the greatest
    key <= k, or a node that is no item (key LONG_MAX) if there is none; a deletion
    returns the value, or NULL (0) if there was none. *)
Inductive spec (m : Z -> option Z) : op -> out -> (Z -> option Z) -> Prop :=
| sp_insert : forall k v,
    spec m (Insert k v) Done (fun k' => if k' =? k then Some v else m k')
| sp_delete : forall k,
    spec m (Delete k) (Value (match m k with Some v => v | None => 0 end))
         (fun k' => if k' =? k then None else m k')
| sp_search : forall k,
    spec m (Search k) (match m k with Some v => Value v | None => NotFound end) m
| sp_higher : forall k k' v,
    m k' = Some v -> k <= k' -> (forall j, k <= j < k' -> m j = None) ->
    spec m (Higher k) (Node k' v) m
| sp_higher_none : forall k, (forall j, k <= j -> m j = None) -> spec m (Higher k) NotFound m
| sp_lower : forall k k' v,
    m k' = Some v -> k' <= k -> (forall j, k' < j <= k -> m j = None) ->
    spec m (Lower k) (Node k' v) m
| sp_lower_none : forall k, (forall j, j <= k -> m j = None) -> spec m (Lower k) NotFound m
| sp_count : forall keys,
    NoDup keys -> (forall k, In k keys <-> m k <> None) -> spec m Count (Number (zlen keys)) m
| sp_items : forall l,
    StronglySorted Z.lt (map fst l) -> (forall k v, In (k, v) l <-> m k = Some v) ->
    spec m Items (List l) m
| sp_clone : forall junk, spec m (Clone junk) Done m.

Inductive specs : (Z -> option Z) -> list op -> list out -> Prop :=
| sps_nil : forall m, specs m [] []
| sps_cons : forall m o r m' m2 os rs,
    spec m o r m' -> (forall k, m' k = m2 k) -> specs m2 os rs -> specs m (o :: os) (r :: rs).

Definition op_key (o : op) : option Z :=
  match o with
  | Insert k _ | Delete k | Search k | Higher k | Lower k => Some k
  | Count | Items | Clone _ => None
  end.

(** Performing one call of the interface. *)
Definition exec (l : slist) (seed : Z) (o : op) : res (slist * Z * out) :=
  match o with
  | Insert k v => do (l1, s1) <- insert l k v seed; Ok (l1, s1, Done)
  | Delete k => do (l1, v) <- delete l k; Ok (l1, seed, Value v)
  | Search k =>
      do p <- search l k;
      match p with
      | Some a => do n <- node l a; Ok (l, seed, Value (sval n))
      | None => Ok (l, seed, NotFound)
      end
  | Higher k =>
      do p <- search_higher l k;
      match p with
      | Some a => do n <- node l a; Ok (l, seed, Node (skey n) (sval n))
      | None => Ok (l, seed, NotFound)
      end
  | Lower k =>
      do a <- search_lower l k;
      do n <- node l a;
      Ok (l, seed, if skey n =? LONG_MAX then NotFound else Node (skey n) (sval n))
  | Count => Ok (l, seed, Number (sno l))
  | Items => do its <- items l; Ok (l, seed, List its)
  | Clone junk => do (l1, s1) <- clone l junk seed; Ok (l1, s1, Done)
  end.

Fixpoint exec_all (l : slist) (seed : Z) (os : list op) : res (list out) :=
  match os with
  | [] => Ok []
  | o :: t => do x <- exec l seed o;
              do rs <- exec_all (fst (fst x)) (snd (fst x)) t; Ok (snd x :: rs)
  end.

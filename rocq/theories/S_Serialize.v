(** What it means that a deserialized object graph is a copy of the original one
    (C32), and which graphs the positive theorem covers. *)
From Verif Require Import Base M_Serialize.

(** [M a a']: object [a'] of the copy stands for object [a] of the original. *)
Definition corr := addr -> addr -> Prop.

(** None stands for None, a reference for a reference to the copy. *)
Inductive same_ref (M : corr) : ref -> ref -> Prop :=
| same_null : same_ref M RNull RNull
| same_ptr : forall a a', M a a' -> same_ref M (RPtr a) (RPtr a').

Inductive same_field (M : corr) : field -> field -> Prop :=
| same_fref : forall r r', same_ref M r r' -> same_field M (FRef r) (FRef r')
| same_fraw : forall cid sz w g g', same_field M (FRaw cid sz w g) (FRaw cid sz w g').

Definition same_entry (M : corr) (e e' : Z * ref * ref) : Prop :=
  fst (fst e) = fst (fst e') /\ same_ref M (snd (fst e)) (snd (fst e')) /\ same_ref M (snd e) (snd e').
Definition same_slot (M : corr) (e e' : Z * ref) : Prop :=
  fst e = fst e' /\ same_ref M (snd e) (snd e').

(** Same class, same primitive contents (bytes of memory between values do not
    count), corresponding parts. *)
Inductive same_obj (M : corr) : obj -> obj -> Prop :=
| so_scalar : forall cls v g g', same_obj M (OScalar cls v g) (OScalar cls v g')
| so_float : forall b, same_obj M (OFloat b) (OFloat b)
| so_bool : forall b, same_obj M (OBool b) (OBool b)
| so_str : forall n l, same_obj M (OStr n l) (OStr n l)
| so_bytes : forall l, same_obj M (OBytes l) (OBytes l)
| so_bytearray : forall l, same_obj M (OByteArray l) (OByteArray l)
| so_big : forall s n, same_obj M (OBig s n) (OBig s n)
| so_range : forall a b c, same_obj M (ORange a b c) (ORange a b c)
| so_list : forall l l', Forall2 (same_ref M) l l' -> same_obj M (OList l) (OList l')
| so_tuple : forall l l', Forall2 (same_ref M) l l' -> same_obj M (OTuple l) (OTuple l')
| so_dict : forall num size usable idx es es',
    Forall2 (same_entry M) es es' ->
    same_obj M (ODict num (Some (DTab size usable idx es)))
               (ODict num (Some (DTab size usable idx es')))
| so_dict_empty : forall num, same_obj M (ODict num None) (ODict num None)
| so_set : forall num fill mask finger es es',
    Forall2 (same_slot M) es es' ->
    same_obj M (OSet num fill mask finger es) (OSet num fill mask finger es')
| so_user : forall cls fs fs',
    Forall2 (same_field M) fs fs' -> same_obj M (OUser cls fs) (OUser cls fs').

(** Immutable values: a program cannot tell whether two references to equal values
    share one object. *)
Definition is_value (o : obj) : Prop :=
  match o with
  | OScalar _ _ _ | OFloat _ | OBool _ | OStr _ _ | OBytes _ => True
  | _ => False
  end.

(** [root'] in [h'] is a copy of [root] in [h]: there is a correspondence relating the
    roots and preserving objects, under which two references in the copy lead to the
    same object exactly if they do in the original (except for immutable values). *)
Definition is_copy (h : heap) (root : ref) (h' : heap) (root' : ref) : Prop :=
  exists M : corr,
    same_ref M root root'
    /\ (forall a a', M a a' -> exists o o',
          nth_error h a = Some o /\ nth_error h' a' = Some o' /\ same_obj M o o')
    /\ (forall a b a', M a a' -> M b a' -> a = b)
    /\ (forall a a' b' o, M a a' -> M a b' -> nth_error h a = Some o -> ~ is_value o -> a' = b').

(** ** Graphs covered by the positive theorem. *)

(** References held by an object. *)
Definition refs_of (o : obj) : list ref :=
  match o with
  | OList l | OTuple l => l
  | ODict _ (Some t) => flat_map (fun e => [snd (fst e); snd e]) (dt_entries t)
  | OSet _ _ _ _ es => map snd es
  | OUser _ fs => flat_map (fun f => match f with FRef r => [r] | FRaw _ _ _ _ => [] end) fs
  | _ => []
  end.

Definition ref_eq_dec : forall a b : ref, {a = b} + {a <> b}.
Proof. decide equality. apply Nat.eq_dec. Defined.

(** Number of references to [a] from the root and from all objects. *)
Definition num_refs (h : heap) (root : ref) (a : addr) : nat :=
  count_occ ref_eq_dec (root :: flat_map refs_of h) (RPtr a).

(** Boxed integers and bytearrays: no second reference to them may exist. *)
Definition fragile (o : obj) : Prop :=
  match o with OScalar _ _ _ | OByteArray _ => True | _ => False end.

Definition valid_ref (h : heap) (r : ref) : Prop :=
  match r with RNull => True | RPtr a => (a < length h)%nat | RBad => False end.

Definition byte (b : Z) : Prop := 0 <= b < 256.
Definition word (w : Z) : Prop := 0 <= w < 2 ^ 64.
Definition len_ok {A} (l : list A) : Prop := zlen l < 2 ^ 31.

Definition field_kind (f : field) : kind :=
  match f with FRef _ => KStep | FRaw cid sz _ _ => KRaw cid sz end.

(** Objects as the runtime creates them: contents within the range of their C types,
    instances of registered classes laid out as the class says, hash tables with as
    many slots as their size fields say; no range objects, no actors, no unregistered
    classes, no dict that never had an element, no deleted entries in tables. *)
Definition obj_ok (layout : Z -> option (list kind)) (o : obj) : Prop :=
  match o with
  | OScalar cls v g =>
      exists sg b, scalar_type cls = Some (sg, b)
                   /\ (if sg : bool then inS b v else inU b v) /\ 0 <= g /\ (b = 64 -> g = 0)
                   /\ 2 ^ b * (g + 1) <= 2 ^ 64
  | OFloat w => word w
  | OBool _ => True
  | OStr nc l => Forall byte l /\ zlen l < INT_MAX - 64 /\ 0 <= nc < 2 ^ 31
  | OBytes l | OByteArray l => Forall byte l /\ zlen l < INT_MAX - 64
  | OBig size n => Forall word n /\ zlen n = Z.abs size /\ zlen n < 2 ^ 31 - 1
  | OList l | OTuple l => len_ok l
  | ODict num (Some t) =>
      inS 64 num /\ 0 <= dt_size t < 2 ^ 31 /\ inS 64 (dt_usable t) /\ Forall word (dt_idx t)
      /\ zlen (dt_idx t) = (dt_size t + 1) * 4 / 8
      /\ Forall (fun e => inU 64 (fst (fst e))) (dt_entries t)
      /\ zlen (dt_entries t) <= 2 * dt_size t / 3
  | OSet num fill mask finger es =>
      inS 64 num /\ inS 64 fill /\ 0 <= mask < 2 ^ 31 /\ inS 64 finger
      /\ zlen es = mask + 1
      /\ Forall (fun e => inS 64 (fst e) /\ fst e <> -1) es
  | OUser cls fs =>
      ITEM_ID < cls < 2 ^ 31 /\ scalar_type cls = None /\ cls <> BIGINT_ID
      /\ layout cls = Some (map field_kind fs)
      /\ Forall (fun f => match f with
                          | FRef _ => True
                          | FRaw cid sz w g => 0 <= sz <= 8 /\ 0 <= w < 2 ^ (8 * sz)
                                               /\ inS 32 cid
                          end) fs
  | _ => False
  end.

Definition graph_ok (layout : Z -> option (list kind)) (h : heap) (root : ref) : Prop :=
  valid_ref h root
  /\ (forall o, In o h -> obj_ok layout o /\ Forall (valid_ref h) (refs_of o))
  /\ (forall a o, nth_error h a = Some o -> fragile o -> (num_refs h root a <= 1)%nat).

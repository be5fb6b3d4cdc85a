(** Specification of dicts: a finite map, kept as the list of its (key, value) pairs in
    order of insertion.  Independent of the representation in M_Dict. *)
From Verif Require Import Base.

Section DictSpec.
Context {K V : Type}.
Variable keq : K -> K -> bool.    (* equality of keys *)

Fixpoint lookup (k : K) (l : list (K * V)) : option V :=
  match l with
  | [] => None
  | (k', v) :: l' => if keq k k' then Some v else lookup k l'
  end.
(** A new key goes to the end; an old one keeps its place (and its key object). *)
Fixpoint put (k : K) (v : V) (l : list (K * V)) : list (K * V) :=
  match l with
  | [] => [(k, v)]
  | (k', v') :: l' => if keq k k' then (k', v) :: l' else (k', v') :: put k v l'
  end.
Fixpoint del (k : K) (l : list (K * V)) : list (K * V) :=
  match l with
  | [] => []
  | (k', v') :: l' => if keq k k' then l' else (k', v') :: del k l'
  end.

Inductive dop :=
| DSet (k : K) (v : V) | DDel (k : K) | DPop (k : K) | DPopDef (k : K) (v : V) | DPopItem
| DSetDefault (k : K) (v : V) | DUpdate (kvs : list (K * V))
| DGet (k : K) | DGetDef (k : K) (v : V) | DGetItem (k : K)
| DContains (k : K) | DContainsNot (k : K) | DLen | DBool | DKeys | DValues | DItems.

(** Observable results; [ROpt None] is Acton's None. *)
Inductive dval :=
| RUnit | RVal (v : V) | ROpt (o : option V) | RPair (o : option (K * V)) | RBool (b : bool) | RInt (n : Z)
| RKeys (l : list K) | RVals (l : list V) | RItems (l : list (K * V)).

(** Removing a missing key is not an error in Acton: del and pop do nothing then
    (dict.c:531-532, :796-798). *)
Definition dict_spec (l : list (K * V)) (op : dop) : res dval * list (K * V) :=
  match op with
  | DSet k v => (Ok RUnit, put k v l)
  | DDel k => (Ok RUnit, del k l)
  | DPop k => (Ok (ROpt (lookup k l)), del k l)
  | DPopDef k v => (Ok (RVal (match lookup k l with Some x => x | None => v end)), del k l)
  | DPopItem => match rev l with
                | [] => (Ok (RPair None), [])
                | kv :: r => (Ok (RPair (Some kv)), rev r)
                end
  | DSetDefault k v => match lookup k l with
                       | Some x => (Ok (RVal x), l)
                       | None => (Ok (RVal v), l ++ [(k, v)])
                       end
  | DUpdate kvs => (Ok RUnit, fold_left (fun l kv => put (fst kv) (snd kv) l) kvs l)
  | DGet k => (Ok (ROpt (lookup k l)), l)
  | DGetDef k v => (Ok (RVal (match lookup k l with Some x => x | None => v end)), l)
  | DGetItem k => (match lookup k l with Some x => Ok (RVal x) | None => Exn KeyError end, l)
  | DContains k => (Ok (RBool (match lookup k l with Some _ => true | None => false end)), l)
  | DContainsNot k => (Ok (RBool (match lookup k l with Some _ => false | None => true end)), l)
  | DLen => (Ok (RInt (zlen l)), l)
  | DBool => (Ok (RBool (match l with [] => false | _ => true end)), l)
  | DKeys => (Ok (RKeys (map fst l)), l)
  | DValues => (Ok (RVals (map snd l)), l)
  | DItems => (Ok (RItems l), l)
  end.

Fixpoint run_dspec (l : list (K * V)) (ops : list dop) : list (res dval) * list (K * V) :=
  match ops with
  | [] => ([], l)
  | op :: ops' => let '(o, l1) := dict_spec l op in
                  let '(os, l2) := run_dspec l1 ops' in (o :: os, l2)
  end.

(** Size limit: entry numbers are C ints. *)
Definition dsmall (l : list (K * V)) : Prop := zlen l <= 2 ^ 28.
Definition dop_small (l : list (K * V)) (op : dop) : Prop :=
  match op with DUpdate kvs => zlen l + zlen kvs <= 2 ^ 28 | _ => True end.
Fixpoint dhistory_ok (l : list (K * V)) (ops : list dop) : Prop :=
  match ops with
  | [] => True
  | op :: ops' => dop_small l op /\ dsmall (snd (dict_spec l op)) /\ dhistory_ok (snd (dict_spec l op)) ops'
  end.

(** Histories that remove keys only from dicts of at least three entries. *)
Definition del_big (l : list (K * V)) (op : dop) : Prop :=
  match op with
  | DDel k | DPop k | DPopDef k _ => lookup k l = None \/ 3 <= zlen l
  | _ => True
  end.
Fixpoint dels_big (l : list (K * V)) (ops : list dop) : Prop :=
  match ops with
  | [] => True
  | op :: ops' => del_big l op /\ dels_big (snd (dict_spec l op)) ops'
  end.

(** Same keys with equal values; [veq] is equality of values. *)
Definition submap (veq : V -> V -> bool) (a b : list (K * V)) : Prop :=
  forall k v, lookup k a = Some v -> exists w, lookup k b = Some w /\ veq v w = true.
End DictSpec.
Arguments dop : clear implicits.
Arguments dval : clear implicits.

(** What the Hashable protocol promises about a key type. *)
Record key_laws {K : Type} (keq same : K -> K -> bool) (hash : K -> Z) : Prop := {
  kl_refl : forall x, keq x x = true;
  kl_sym : forall x y, keq x y = true -> keq y x = true;
  kl_trans : forall x y z, keq x y = true -> keq y z = true -> keq x z = true;
  kl_same : forall x y, same x y = true -> x = y;       (* identical objects are equal *)
  kl_hash : forall x y, keq x y = true -> hash x = hash y;
  kl_u64 : forall x, 0 <= hash x < 2 ^ 64
}.

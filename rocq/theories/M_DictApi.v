(** The dict API as a state machine over the representation of M_Dict: one method call of
    base/builtin/dict.c per step. *)
From Verif Require Import Base M_Dict S_Dict.

Section Api.
Context {K V : Type}.
Variable keq same : K -> K -> bool.
Variable hash : K -> Z.

(** Driving an iterator of dict.c:399-415, :581-597, :636-652 to exhaustion. *)
Fixpoint drain {A} (fuel : nat) (nx : Z -> res (A * Z)) (nxt : Z) : res (list A) :=
  match fuel with
  | O => NoFuel
  | S f => match nx nxt with
           | Ok (x, n') => do r <- drain f nx n'; Ok (x :: r)
           | Exn _ => Ok []
           | UB => UB
           | NoFuel => NoFuel
           end
  end.
Definition drain_dict {A} (nx : dict K V -> Z -> res (A * Z)) (d : dict K V) : res (list A) :=
  drain (S (match d_tab d with Some t => length (tb_ents t) | None => 0 end)) (nx d) 0.

Definition dupd {R} (r : res (R * dict K V)) (f : R -> dval K V) (d : dict K V) : res (dval K V) * dict K V :=
  match r with Ok (x, d') => (Ok (f x), d') | Exn e => (Exn e, d) | UB => (UB, d) | NoFuel => (NoFuel, d) end.
Definition dunit (r : res (dict K V)) (d : dict K V) : res (dval K V) * dict K V :=
  match r with Ok d' => (Ok RUnit, d') | Exn e => (Exn e, d) | UB => (UB, d) | NoFuel => (NoFuel, d) end.

Definition dict_step (d : dict K V) (op : dop K V) : res (dval K V) * dict K V :=
  match op with
  | DSet k v => dunit (dict_setitem keq same hash d k v) d
  | DDel k => dupd (dict_remove keq same hash d k) (fun _ => RUnit) d
  | DPop k => dupd (dict_remove keq same hash d k) ROpt d
  | DPopDef k v => dupd (dict_remove keq same hash d k)
                        (fun o => RVal (match o with Some x => x | None => v end)) d
  | DPopItem => dupd (dict_popitem hash d) RPair d
  | DSetDefault k v => dupd (dict_setdefault keq same hash d k v) RVal d
  | DUpdate kvs => dunit (dict_update keq same hash d kvs) d
  | DGet k => (mapr ROpt (dict_get keq same hash d k), d)
  | DGetDef k v => (mapr RVal (dict_get_def keq same hash d k v), d)
  | DGetItem k => (mapr RVal (dict_getitem keq same hash d k), d)
  | DContains k => (mapr RBool (dict_contains keq same hash d k), d)
  | DContainsNot k => (mapr (fun b => RBool (negb b)) (dict_contains keq same hash d k), d)
  | DLen => (Ok (RInt (d_num d)), d)            (* dict.c:472-474 *)
  | DBool => (Ok (RBool (d_num d >? 0)), d)     (* dict.c:252-254 *)
  | DKeys => (mapr RKeys (drain_dict dict_keys_next d), d)
  | DValues => (mapr RVals (drain_dict dict_values_next d), d)
  | DItems => (mapr RItems (drain_dict dict_items_next d), d)
  end.

Fixpoint run_dict (d : dict K V) (ops : list (dop K V)) : list (res (dval K V)) * dict K V :=
  match ops with
  | [] => ([], d)
  | op :: ops' => let '(o, d1) := dict_step d op in
                  let '(os, d2) := run_dict d1 ops' in (o :: os, d2)
  end.
End Api.

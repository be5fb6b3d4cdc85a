(** Property theorems C08-C11: dicts. *)
From Verif Require Import Base M_Iter S_Iter M_Dict S_Dict M_DictApi P_Dict.

(** ** C08: a dict is a finite map under every history of operations.  [key_laws] allows any
    hash function compatible with equality; no operation runs out of fuel, so every probing
    loop terminates. *)
Theorem C08_dict_refines_map : forall (K V : Type) (keq same : K -> K -> bool) (hash : K -> Z) (ops : list (dop K V)),
  key_laws keq same hash -> dhistory_ok keq [] ops ->
  fst (run_dict keq same hash dict_new ops) = fst (run_dspec keq [] ops).
Proof.
  intros K V keq same hash ops HL H.
  apply (run_ok keq same hash HL ops dict_new []); [apply new_inv|cbn; lia|exact H].
Qed.
Print Assumptions C08_dict_refines_map.

Definition zlaws : key_laws Z.eqb Z.eqb (fun _ => 7).
Proof. constructor; intros; lia. Qed.

(** All keys collide; the history goes through the small table, growth, deletion and shrinking. *)
Example C08_case :
  let ops := [DSet 1 10; DSet 2 20; DSet 3 30; DSet 2 21; DDel 1; DSetDefault 1 11; DPopDef 9 0; DGetItem 1;
              DGetItem 7; DPop 2; DPopItem; DItems; DUpdate [(5, 50); (6, 60); (3, 31)]; DItems; DLen] in
  dhistory_ok Z.eqb [] ops /\
  fst (run_dspec Z.eqb [] ops) =
    [Ok RUnit; Ok RUnit; Ok RUnit; Ok RUnit; Ok RUnit; Ok (RVal 11); Ok (RVal 0); Ok (RVal 11);
     Exn KeyError; Ok (ROpt (Some 21)); Ok (RPair (Some (1, 11))); Ok (RItems [(3, 30)]); Ok RUnit;
     Ok (RItems [(3, 31); (5, 50); (6, 60)]); Ok (RInt 3)].
Proof. split; [|reflexivity]. cbn. unfold dsmall. cbn. repeat split; lia. Qed.

(** The lookups the runtime itself uses (B_dictD_get) see the same map. *)
Theorem C08_runtime_get : forall (K V : Type) (keq same : K -> K -> bool) (hash : K -> Z) (ops : list (dop K V)) k v,
  key_laws keq same hash -> dhistory_ok keq [] ops ->
  dictD_get keq same hash (snd (run_dict keq same hash dict_new ops)) k v
  = Ok (match lookup keq k (snd (run_dspec keq [] ops)) with Some x => x | None => v end).
Proof.
  intros K V keq same hash ops k v HL H. apply (dictD_get_ok keq same hash HL).
  apply (run_ok keq same hash HL ops dict_new []); [apply new_inv|cbn; lia|exact H].
Qed.
Print Assumptions C08_runtime_get.

(** ** C09: iteration follows insertion order: each iterator of the dict reached by a history
    yields exactly the pairs of the map, in the order of the specification, in which a new
    key goes last; the keys are pairwise different. *)
Theorem C09_dict_iteration : forall (K V : Type) (keq same : K -> K -> bool) (hash : K -> Z) (ops : list (dop K V)),
  key_laws keq same hash -> dhistory_ok keq [] ops ->
  let d := snd (run_dict keq same hash dict_new ops) in
  let l := snd (run_dspec keq [] ops) in
  produces (dict_items_next d) 0 l /\ produces (dict_keys_next d) 0 (map fst l) /\
  produces (dict_values_next d) 0 (map snd l) /\
  ForallOrdPairs (fun x y => keq (fst x) (fst y) = false) l /\
  fst (dict_step keq same hash d DPopItem) = Ok (RPair (match rev l with [] => None | kv :: _ => Some kv end)).
Proof.
  intros K V keq same hash ops HL H d l.
  assert (Hd : dinv keq hash d l).
  { apply (run_ok keq same hash HL ops dict_new []); [apply new_inv|cbn; lia|exact H]. }
  split; [eapply items_produces; exact Hd|]. split; [eapply keys_produces; exact Hd|].
  split; [eapply values_produces; exact Hd|]. split; [apply Hd|].
  cbn [dict_step]. destruct (popitem_ok keq same hash HL d l Hd) as (d' & -> & _). reflexivity.
Qed.
Print Assumptions C09_dict_iteration.

Example C09_case : let ops := [DSet 3 30; DSet 1 10; DSet 2 20; DDel 3; DSet 1 11; DSet 3 31] in
  dhistory_ok Z.eqb [] ops /\ snd (run_dspec Z.eqb [] ops) = [(1, 11); (2, 20); (3, 31)].
Proof. split; [|reflexivity]. cbn. unfold dsmall. cbn. repeat split; lia. Qed.

(** ** C10: comparisons.  The full claim (for all pairs of dicts) is refuted below; it holds
    for ==, !=, < and <= unless [a] is a small table and [b] a hashed one. *)
Definition is_hashed {K V} (d : dict K V) : bool :=
  match d_tab d with Some t => tb_size t >? INIT_SIZE | None => false end.

Theorem C10_dict_comparison_partial : forall (K V : Type) (keq same : K -> K -> bool) (hash : K -> Z)
    (veq : V -> V -> bool) (opsa opsb : list (dop K V)),
  key_laws keq same hash -> (forall v w, veq v w = true -> veq w v = true) ->
  dhistory_ok keq [] opsa -> dhistory_ok keq [] opsb ->
  let a := snd (run_dict keq same hash dict_new opsa) in
  let b := snd (run_dict keq same hash dict_new opsb) in
  let la := snd (run_dspec keq [] opsa) in
  let lb := snd (run_dspec keq [] opsb) in
  is_hashed a = true \/ is_hashed b = false ->
  let vne := fun v w => negb (veq v w) in
  exists e n l le,
    dict_eq keq same hash vne a b = Ok e /\ (e = true <-> submap keq veq la lb /\ submap keq veq lb la) /\
    dict_ne keq same hash vne a b = Ok n /\ n = negb e /\
    dict_lt keq same hash vne a b = Ok l /\ (l = true <-> submap keq veq la lb /\ ~ submap keq veq lb la) /\
    dict_le keq same hash vne a b = Ok le /\ (le = true <-> submap keq veq la lb).
Proof.
  intros K V keq same hash veq opsa opsb HL Hs Ha Hb a b la lb Hh vne.
  assert (Da : dinv keq hash a la).
  { apply (run_ok keq same hash HL opsa dict_new []); [apply new_inv|cbn; lia|exact Ha]. }
  assert (Db : dinv keq hash b lb).
  { apply (run_ok keq same hash HL opsb dict_new []); [apply new_inv|cbn; lia|exact Hb]. }
  clearbody a b la lb.
  assert (Hag : hash_agree a b).
  { unfold hash_agree, is_hashed in *. destruct (d_tab a) as [ta|], (d_tab b) as [tb|]; try exact I.
    destruct Hh as [Hh|Hh]; [left|right]; lia. }
  destruct (eq_ok keq same hash HL veq Hs a la b lb Da Db Hag) as (e & E1 & E2).
  destruct (lt_ok keq same hash HL veq Hs a la b lb Da Db Hag) as (l & L1 & L2).
  destruct (le_ok keq same hash HL veq Hs a la b lb Da Db Hag) as (le & M1 & M2).
  exists e, (negb e), l, le. unfold dict_ne, vne. rewrite E1, L1, M1.
  repeat (split; [first [reflexivity|assumption]|]). exact M2.
Qed.
Print Assumptions C10_dict_comparison_partial.

(** In particular for every [a] with at least three entries. *)
Theorem C10_dict_comparison_large : forall (K V : Type) (keq same : K -> K -> bool) (hash : K -> Z)
    (veq : V -> V -> bool) (opsa opsb : list (dop K V)),
  key_laws keq same hash -> (forall v w, veq v w = true -> veq w v = true) ->
  dhistory_ok keq [] opsa -> dhistory_ok keq [] opsb ->
  let a := snd (run_dict keq same hash dict_new opsa) in
  let b := snd (run_dict keq same hash dict_new opsb) in
  let la := snd (run_dspec keq [] opsa) in
  let lb := snd (run_dspec keq [] opsb) in
  3 <= zlen la ->
  exists e, dict_eq keq same hash (fun v w => negb (veq v w)) a b = Ok e /\
    (e = true <-> submap keq veq la lb /\ submap keq veq lb la).
Proof.
  intros K V keq same hash veq opsa opsb HL Hs Ha Hb a b la lb H3.
  assert (Da : dinv keq hash a la).
  { apply (run_ok keq same hash HL opsa dict_new []); [apply new_inv|cbn; lia|exact Ha]. }
  destruct (C10_dict_comparison_partial K V keq same hash veq opsa opsb HL Hs Ha Hb)
    as (e & n & l & le & E1 & E2 & _).
  - left. fold a. unfold is_hashed. destruct (d_tab a) as [t|] eqn:Et.
    + pose proof (big_hashed keq hash a la Da H3 t Et). lia.
    + destruct Da as (_ & _ & Da). rewrite Et in Da. subst la. rewrite Da in H3. cbn in H3. lia.
  - exists e. split; [exact E1|exact E2].
Qed.
Print Assumptions C10_dict_comparison_large.

Example C10_case :
  let opsa := [DSet 1 10; DSet 2 20; DSet 3 30] in
  let opsb := [DSet 3 30; DSet 4 40; DSet 2 20; DSet 1 10; DDel 4] in
  dhistory_ok Z.eqb [] opsa /\ dhistory_ok Z.eqb [] opsb /\
  is_hashed (snd (run_dict Z.eqb Z.eqb (fun _ => 7) dict_new opsa)) = true /\
  dict_eq Z.eqb Z.eqb (fun _ => 7) (fun v w => negb (v =? w)) (snd (run_dict Z.eqb Z.eqb (fun _ => 7) dict_new opsa))
    (snd (run_dict Z.eqb Z.eqb (fun _ => 7) dict_new opsb)) = Ok true.
Proof.
  repeat (split; [cbn; unfold dsmall; cbn; repeat split; lia|]). split; vm_compute; reflexivity.
Qed.

(** Two dicts with the same content compare different when the left one never grew and the
    right one did: the hash 0 is used to search the hashed table. *)
Theorem C10_dict_comparison_refuted : exists (opsa opsb : list (dop Z Z)),
  dhistory_ok Z.eqb [] opsa /\ dhistory_ok Z.eqb [] opsb /\
  snd (run_dspec Z.eqb [] opsa) = snd (run_dspec Z.eqb [] opsb) /\
  dict_eq Z.eqb Z.eqb (fun _ => 7) (fun v w => negb (v =? w))
    (snd (run_dict Z.eqb Z.eqb (fun _ => 7) dict_new opsa))
    (snd (run_dict Z.eqb Z.eqb (fun _ => 7) dict_new opsb)) = Ok false.
Proof.
  exists [DSet 1 10; DSet 2 20], [DSet 1 10; DSet 2 20; DSet 3 30; DDel 3].
  repeat (split; [cbn; unfold dsmall; cbn; repeat split; lia|]). split; vm_compute; reflexivity.
Qed.
Print Assumptions C10_dict_comparison_refuted.

(** > and >= are the negations of < and <= with swapped arguments: {} > {} holds, and
    {1: 10, 2: 20} >= {1: 10} does not. *)
Theorem C10_dict_greater_refuted :
  dict_gt Z.eqb Z.eqb (fun _ => 7) (fun v w => negb (v =? w)) dict_new dict_new = Ok true /\
  dict_ge Z.eqb Z.eqb (fun _ => 7) (fun v w => negb (v =? w))
    (snd (run_dict Z.eqb Z.eqb (fun _ => 7) dict_new [DSet 1 10; DSet 2 20]))
    (snd (run_dict Z.eqb Z.eqb (fun _ => 7) dict_new [DSet 1 10])) = Ok false.
Proof. split; vm_compute; reflexivity. Qed.
Print Assumptions C10_dict_greater_refuted.

(** ** C11: memory safety.  [tb_oob] records an access before the index array.  Deleting from a
    small table that was rebuilt writes there; histories that delete by key only from dicts
    with at least three entries never do. *)
Theorem C11_dict_safe_partial : forall (K V : Type) (keq same : K -> K -> bool) (hash : K -> Z) (ops : list (dop K V)),
  key_laws keq same hash -> dhistory_ok keq [] ops -> dels_big keq [] ops ->
  Forall (fun o => o <> UB) (fst (run_dict keq same hash dict_new ops)) /\
  match d_tab (snd (run_dict keq same hash dict_new ops)) with Some t => tb_oob t = false | None => True end.
Proof.
  intros K V keq same hash ops HL H HB. split.
  - rewrite (C08_dict_refines_map K V keq same hash ops HL H). clear H HB. generalize (@nil (K * V)).
    induction ops as [|op ops IH]; intros l; cbn [run_dspec]; [constructor|].
    destruct (dict_spec keq l op) as [o l1] eqn:E. specialize (IH l1).
    destruct (run_dspec keq l1 ops) as [os l2]. cbn [fst] in *. constructor; [|exact IH].
    destruct op; cbn [dict_spec] in E;
      repeat match type of E with context [match ?x with _ => _ end] => destruct x end; injection E as <- <-; discriminate.
  - destruct (run_ok keq same hash HL ops dict_new [] (new_inv _ _) ltac:(cbn; lia) H) as (_ & _ & H3).
    specialize (H3 HB). unfold oobd in H3. destruct (d_tab _); [exact H3|exact I].
Qed.
Print Assumptions C11_dict_safe_partial.

Example C11_case :
  let ops := [DSet 1 10; DSet 2 20; DSet 3 30; DDel 1; DDel 9; DPopItem; DSet 4 40; DSet 5 50; DPop 4] in
  dhistory_ok Z.eqb [] ops /\ dels_big Z.eqb [] ops.
Proof.
  split; [cbn; unfold dsmall; cbn; repeat split; lia|].
  cbn. repeat split; first [right; lia|left; reflexivity].
Qed.

(** Without that condition: set 1, set 2, del 1, set 3, del 2. *)
Theorem C11_dict_safe_refuted : exists (ops : list (dop Z Z)),
  dhistory_ok Z.eqb [] ops /\
  match d_tab (snd (run_dict Z.eqb Z.eqb (fun _ => 7) dict_new ops)) with
  | Some t => tb_oob t = true /\ nent_long t < 0
  | None => False
  end.
Proof.
  exists [DSet 1 10; DSet 2 20; DDel 1; DSet 3 30; DDel 2].
  split; [cbn; unfold dsmall; cbn; repeat split; lia|]. vm_compute. split; reflexivity.
Qed.
Print Assumptions C11_dict_safe_refuted.

(** Property theorems C12, C13, C51: sets. *)
From Verif Require Import Base S_Dict M_Set S_Set M_SetApi P_Set.

(** ** C12: sets behave as finite sets under every history of operations on any number of set
    variables.  Full claim: for all hash functions.  Proved for hashes below 2^63 (as long as
    no set grows beyond 2^28 elements, where the int argument of the resize matters);
    refuted below for a hash of 2^64-1. *)
Theorem C12_set_refines_partial : forall (K : Type) (keq same : K -> K -> bool) (hash : K -> Z) (ops : list (setop K)),
  key_laws keq same hash -> (forall k, hash k < 2 ^ 63) ->
  set_history keq (2 ^ 28) (fun _ => []) ops (fst (run_set keq same hash (fun _ => set_empty) ops)).
Proof.
  intros K keq same hash ops HL Hlow. apply (run_set_ok keq same hash HL Hlow).
  - intros i. apply rep_empty.
  - intros i. cbn. lia.
Qed.
Print Assumptions C12_set_refines_partial.

Definition zlaws8 : key_laws Z.eqb Z.eqb (fun k => k mod 4).
Proof. constructor; intros; lia. Qed.

(** Colliding elements, growth (twice), tombstones and their reuse, all operators. *)
Definition C12_ops : list (setop Z) :=
  [SNew 0 [0; 4; 8; 1; 12]; SDiscard 0 4; SAdd 0 16; SContains 0 4; SContains 0 16; SContains 0 12;
   SNew 1 [16; 3; 0]; SOr 2 0 1; SAnd 3 0 1; SSub 4 0 1; SXor 5 0 1; SLen 2; SLen 3; SLen 4; SLen 5;
   SEq 0 1; SLe 3 0; SLt 3 3; SGe 2 1; SGt 2 1; SUpdateSet 1 0; SEq 1 2; SPop 3; SPop 3; SPop 3; SIter 4; SNe 1 2].
Example C12_case : (forall k, k mod 4 < 2 ^ 63) /\
  fst (run_set Z.eqb Z.eqb (fun k => k mod 4) (fun _ => set_empty) C12_ops) =
    [Ok SVUnit; Ok SVUnit; Ok SVUnit; Ok (SVBool false); Ok (SVBool true); Ok (SVBool true);
     Ok SVUnit; Ok SVUnit; Ok SVUnit; Ok SVUnit; Ok SVUnit; Ok (SVInt 6); Ok (SVInt 2); Ok (SVInt 3); Ok (SVInt 4);
     Ok (SVBool false); Ok (SVBool true); Ok (SVBool false); Ok (SVBool true); Ok (SVBool true); Ok SVUnit;
     Ok (SVBool true); Ok (SVElem 0); Ok (SVElem 16); Exn ValueError; Ok (SVElems [12; 1; 8]); Ok (SVBool false)].
Proof. split; [intros k; pose proof (Z.mod_pos_bound k 4 ltac:(lia)); lia|vm_compute; reflexivity]. Qed.

(** An element whose hash is 2^64-1 (-1 as a long) looks like a tombstone: adding another one
    overwrites it, while the length still counts it; and looking it up where a tombstone is
    compares it with the tombstone. *)
Definition h_neg (k : Z) : Z := if k =? 0 then 2 ^ 64 - 1 else 7.
Theorem C12_set_refuted :
  key_laws Z.eqb Z.eqb h_neg /\
  fst (run_set Z.eqb Z.eqb h_neg (fun _ => set_empty) [SAdd 0 0; SAdd 0 1; SContains 0 0; SLen 0])
    = [Ok SVUnit; Ok SVUnit; Ok (SVBool false); Ok (SVInt 2)] /\
  fst (run_set Z.eqb Z.eqb h_neg (fun _ => set_empty) [SAdd 0 1; SDiscard 0 1; SContains 0 0])
    = [Ok SVUnit; Ok SVUnit; UB] /\
  ~ set_history Z.eqb (2 ^ 28) (fun _ => []) [SAdd 0 0; SAdd 0 1; SContains 0 0; SLen 0]
      (fst (run_set Z.eqb Z.eqb h_neg (fun _ => set_empty) [SAdd 0 0; SAdd 0 1; SContains 0 0; SLen 0])).
Proof.
  split.
  { constructor; intros; try lia.
    - apply Z.eqb_eq in H. subst. reflexivity.
    - unfold h_neg. destruct (x =? 0); lia. }
  split; [vm_compute; reflexivity|]. split; [vm_compute; reflexivity|].
  replace (fst (run_set _ _ _ _ _)) with [@Ok (setval Z) SVUnit; Ok SVUnit; Ok (SVBool false); Ok (SVInt 2)]
    by (vm_compute; reflexivity).
  cbn [set_history]. intros H. destruct (H _ eq_refl) as (_ & H1).
  { intros [|[|i]]; vm_compute; discriminate. }
  destruct (H1 _ eq_refl) as (_ & H2). { intros [|[|i]]; vm_compute; discriminate. }
  destruct (H2 _ eq_refl) as (H3 & _). { intros [|[|i]]; vm_compute; discriminate. }
  vm_compute in H3. discriminate.
Qed.
Print Assumptions C12_set_refuted.

(** ** C13: membership and insertion terminate.  Full claim: for all 64-bit hashes.  With hashes
    below 2^63 no operation of any history runs for ever (or is undefined). *)
Theorem C13_set_terminates_partial : forall (K : Type) (keq same : K -> K -> bool) (hash : K -> Z) (ops : list (setop K)),
  key_laws keq same hash -> (forall k, hash k < 2 ^ 63) ->
  let rs := fst (run_set keq same hash (fun _ => set_empty) ops) in
  set_within keq (2 ^ 28) (fun _ => []) ops rs ->
  Forall (fun r => r <> NoFuel /\ r <> UB) rs.
Proof.
  intros K keq same hash ops HL Hlow rs Hw.
  pose proof (C12_set_refines_partial K keq same hash ops HL Hlow) as H. fold rs in H. clearbody rs.
  revert H Hw. generalize (fun _ : nat => @nil K). revert rs.
  induction ops as [|op ops IH]; intros [|r rs] st H Hw; try contradiction; [constructor|].
  destruct Hw as [Hw1 Hw2]. destruct (H _ eq_refl Hw1) as [Ha Hh]. constructor; [|eapply IH; eassumption].
  destruct op; cbn [allowed] in Ha; try (rewrite Ha; split; discriminate).
  - destruct (card keq (st r0) =? 0); [rewrite Ha; split; discriminate|]. destruct Ha as (k & _ & ->). split; discriminate.
  - destruct Ha as (l & -> & _). split; discriminate.
Qed.
Print Assumptions C13_set_terminates_partial.

Example C13_case : let ops := [SNew 0 [0; 4; 8; 1; 12]; SDiscard 0 4; SXor 1 0 0; SAdd 1 4; SLt 1 0; SContains 0 8] in
  set_within Z.eqb (2 ^ 28) (fun _ => []) ops (fst (run_set Z.eqb Z.eqb (fun k => k mod 4) (fun _ => set_empty) ops)).
Proof.
  intros ops.
  replace (fst _) with [@Ok (setval Z) SVUnit; Ok SVUnit; Ok SVUnit; Ok SVUnit; Ok (SVBool false); Ok (SVBool true)]
    by (vm_compute; reflexivity).
  repeat split; intros [|[|i]]; vm_compute; discriminate.
Qed.

(** With hashes -8 and -16: once the first is in the set, neither looking up nor adding the
    second ever returns, whatever the number of probes allowed. *)
Definition h_neg2 (k : Z) : Z := if k =? 0 then 2 ^ 64 - 8 else 2 ^ 64 - 16.
Theorem C13_set_terminates_refuted :
  key_laws Z.eqb Z.eqb h_neg2 /\
  exists s, set_of Z.eqb Z.eqb h_neg2 [0] = Ok s /\
    (forall fuel, lookkey_f Z.eqb Z.eqb fuel s 1 (shash h_neg2 1) = NoFuel) /\
    (forall fuel, add_loop Z.eqb Z.eqb fuel (s_tab s) (s_mask s) (Z.land (shash h_neg2 1) (s_mask s))
                    (shash h_neg2 1) 1 (shash h_neg2 1) None = NoFuel).
Proof.
  split.
  { constructor; intros; try lia.
    - apply Z.eqb_eq in H. subst. reflexivity.
    - unfold h_neg2. destruct (x =? 0); lia. }
  exists (match set_of Z.eqb Z.eqb h_neg2 [0] with Ok s => s | _ => set_empty end).
  split; [vm_compute; reflexivity|].
  set (s := match set_of Z.eqb Z.eqb h_neg2 [0] with Ok s => s | _ => set_empty end).
  change (shash h_neg2 1) with (-16). split.
  - assert (H : forall fuel p, p = -16 \/ p = -1 -> look_loop Z.eqb Z.eqb fuel (s_tab s) (s_mask s) 0 p 1 (-16) = NoFuel).
    { induction fuel as [|f IH]; intros p Hp; [reflexivity|]. cbn [look_loop].
      change (orUB (zget (s_tab s) 0)) with (Ok (mkSE (KElem 0) (-8))). cbn [bindr se_key se_hash].
      change (-8 =? -16) with false. cbn [bindr].
      assert (E : s_next (s_mask s) 0 p = 0 /\ Z.shiftr p 5 = -1) by (destruct Hp as [-> | ->]; vm_compute; auto).
      destruct E as [-> ->]. apply IH. auto. }
    intros fuel. apply H. auto.
  - assert (H : forall fuel p, p = -16 \/ p = -1 -> add_loop Z.eqb Z.eqb fuel (s_tab s) (s_mask s) 0 p 1 (-16) None = NoFuel).
    { induction fuel as [|f IH]; intros p Hp; [reflexivity|]. cbn [add_loop].
      change (orUB (zget (s_tab s) 0)) with (Ok (mkSE (KElem 0) (-8))). cbn [bindr se_key se_hash].
      change (-8 =? -16) with false. cbn [bindr]. change (-8 =? -1) with false. cbv iota.
      assert (E : s_next (s_mask s) 0 p = 0 /\ Z.shiftr p 5 = -1) by (destruct Hp as [-> | ->]; vm_compute; auto).
      destruct E as [-> ->]. apply IH. auto. }
    intros fuel. apply H. auto.
Qed.
Print Assumptions C13_set_terminates_refuted.

(** ** C51: isdisjoint.  Full claim: a.isdisjoint(b) is true exactly when a and b have no common
    element.  It answers false when they have one; when they have none it raises StopIteration. *)
Theorem C51_isdisjoint_partial : forall (K : Type) (keq same : K -> K -> bool) (hash : K -> Z) (xs ys : list K) a b x,
  key_laws keq same hash -> (forall k, hash k < 2 ^ 63) ->
  zlen xs <= 2 ^ 28 -> zlen ys <= 2 ^ 28 ->
  set_of keq same hash xs = Ok a -> set_of keq same hash ys = Ok b ->
  mem keq x xs = true -> mem keq x ys = true ->
  set_isdisjoint keq same false a b = Ok false.
Proof.
  intros K keq same hash xs ys a b x HL Hlow Hx Hy Ea Eb Mx My.
  assert (Hc : forall l, card keq l <= zlen l).
  { induction l as [|k l IH]; [cbn; lia|]. cbn [card]. unfold zlen in *. cbn [length]. destruct (mem keq k l); lia. }
  destruct (add_all_ok keq same hash HL Hlow xs set_empty [] (rep_empty keq hash)) as (a' & A1 & A2).
  { rewrite app_nil_r. pose proof (Hc xs). lia. }
  destruct (add_all_ok keq same hash HL Hlow ys set_empty [] (rep_empty keq hash)) as (b' & B1 & B2).
  { rewrite app_nil_r. pose proof (Hc ys). lia. }
  rewrite app_nil_r in *. unfold set_of in *. rewrite Ea in A1. injection A1 as <-. rewrite Eb in B1. injection B1 as <-.
  rewrite (isdisjoint_ok keq same hash HL Hlow a xs b ys A2 B2).
  rewrite (proj2 (common_spec keq same hash HL xs ys)); [reflexivity|]. exists x. auto.
Qed.
Print Assumptions C51_isdisjoint_partial.

Example C51_case : exists a b, set_of Z.eqb Z.eqb (fun k => k mod 4) [1; 5; 9] = Ok a /\
  set_of Z.eqb Z.eqb (fun k => k mod 4) [2; 9; 4; 8] = Ok b /\ mem Z.eqb 9 [1; 5; 9] = true /\ mem Z.eqb 9 [2; 9; 4; 8] = true.
Proof. do 2 eexists. repeat split; vm_compute; reflexivity. Qed.

Theorem C51_isdisjoint_refuted : forall (K : Type) (keq same : K -> K -> bool) (hash : K -> Z) (xs ys : list K) a b,
  key_laws keq same hash -> (forall k, hash k < 2 ^ 63) ->
  zlen xs <= 2 ^ 28 -> zlen ys <= 2 ^ 28 ->
  set_of keq same hash xs = Ok a -> set_of keq same hash ys = Ok b ->
  (forall x, mem keq x xs = true -> mem keq x ys = false) ->
  set_isdisjoint keq same false a b = Exn StopIteration.
Proof.
  intros K keq same hash xs ys a b HL Hlow Hx Hy Ea Eb Hd.
  assert (Hc : forall l, card keq l <= zlen l).
  { induction l as [|k l IH]; [cbn; lia|]. cbn [card]. unfold zlen in *. cbn [length]. destruct (mem keq k l); lia. }
  destruct (add_all_ok keq same hash HL Hlow xs set_empty [] (rep_empty keq hash)) as (a' & A1 & A2).
  { rewrite app_nil_r. pose proof (Hc xs). lia. }
  destruct (add_all_ok keq same hash HL Hlow ys set_empty [] (rep_empty keq hash)) as (b' & B1 & B2).
  { rewrite app_nil_r. pose proof (Hc ys). lia. }
  rewrite app_nil_r in *. unfold set_of in *. rewrite Ea in A1. injection A1 as <-. rewrite Eb in B1. injection B1 as <-.
  rewrite (isdisjoint_ok keq same hash HL Hlow a xs b ys A2 B2).
  destruct (common keq xs ys) eqn:E; [|reflexivity]. exfalso.
  apply (common_spec keq same hash HL) in E. destruct E as (x & X1 & X2). rewrite (Hd x X1) in X2. discriminate.
Qed.
Print Assumptions C51_isdisjoint_refuted.

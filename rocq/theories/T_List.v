(** Property theorems C01-C05: lists and slices.
    A list is any list reachable from the empty list by a history of API calls; its
    abstract value is the sequence the same history yields in [run_spec]. *)
From Verif Require Import Base M_Slice S_Slice M_List S_List M_ListApi P_List P_ListThm.

(** ** C01: forward slicing *)
Theorem C01_forward_slice : forall (A : Type) (eqb : A -> A -> bool) (ops : list (lop A)) (s : slice),
  history_ok eqb [] ops -> 0 <= step_of s ->
  fst (list_step eqb (snd (run_list eqb (mkList [] 0 0) ops)) (GetSlice s))
  = mapr VSeq (py_slice (snd (run_spec eqb [] ops)) s).
Proof.
  intros A eqb ops s H Hs. apply (reach_step eqb ops (GetSlice s) H); [left; assumption|].
  apply reach_small; [unfold small; cbn; lia|assumption].
Qed.
Print Assumptions C01_forward_slice.

Example C01_case :
  let ops := [Extend [10; 11; 12; 13; 14]; Append 15] in
  history_ok Z.eqb [] ops /\
  py_slice (snd (run_spec Z.eqb [] ops)) (mkSlice (Some (-5)) (Some 100) (Some 2)) = Ok [11; 13; 15].
Proof. split; [cbn; unfold small; cbn; repeat split; lia|reflexivity]. Qed.

(** ** C02: backward slicing.  The full statement (no condition on the bounds) is
    false, see the two refutations. *)
Theorem C02_backward_slice_partial : forall (A : Type) (eqb : A -> A -> bool) (ops : list (lop A)) (s : slice),
  history_ok eqb [] ops -> step_of s < 0 ->
  let xs := snd (run_spec eqb [] ops) in
  xs <> [] -> bound_ok (length xs) (sl_start s) -> bound_ok (length xs) (sl_stop s) ->
  fst (list_step eqb (snd (run_list eqb (mkList [] 0 0) ops)) (GetSlice s)) = mapr VSeq (py_slice xs s).
Proof.
  intros A eqb ops s H Hs xs Hne H1 H2. apply (reach_step eqb ops (GetSlice s) H).
  - right. repeat split; try assumption. fold xs. destruct xs; [congruence|cbn; lia].
  - apply reach_small; [unfold small; cbn; lia|assumption].
Qed.
Print Assumptions C02_backward_slice_partial.

Example C02_case :
  let ops := [Extend [10; 11; 12; 13; 14]] in
  let s := mkSlice (Some (-2)) None (Some (-2)) in
  history_ok Z.eqb [] ops /\ bound_ok 5 (sl_start s) /\ py_slice (snd (run_spec Z.eqb [] ops)) s = Ok [13; 11].
Proof. split; [cbn; unfold small; cbn; repeat split; lia|]. split; [cbn; lia|reflexivity]. Qed.

(** A start before the first element selects element 0: [1,2,3][-5::-1] is [1]. *)
Theorem C02_backward_slice_refuted : exists (ops : list (lop Z)) (s : slice),
  history_ok Z.eqb [] ops /\ step_of s < 0 /\
  fst (list_step Z.eqb (snd (run_list Z.eqb (mkList [] 0 0) ops)) (GetSlice s)) = Ok (VSeq [1]) /\
  py_slice (snd (run_spec Z.eqb [] ops)) s = Ok [].
Proof.
  exists [Extend [1; 2; 3]], (mkSlice (Some (-5)) None (Some (-1))).
  split; [cbn; unfold small; cbn; repeat split; lia|]. split; [reflexivity|]. split; reflexivity.
Qed.
Print Assumptions C02_backward_slice_refuted.

(** On an empty list it reads outside the sequence: [][-1::-1]. *)
Theorem C02_backward_slice_unsafe_refuted : exists s : slice,
  step_of s < 0 /\ fst (list_step Z.eqb (mkList [] 0 0) (GetSlice s)) = UB.
Proof. exists (mkSlice (Some (-1)) None (Some (-1))). split; reflexivity. Qed.
Print Assumptions C02_backward_slice_unsafe_refuted.

(** ** C03: refinement of sequences over all histories *)
Theorem C03_list_refines_sequence : forall (A : Type) (eqb : A -> A -> bool) (ops : list (lop A)),
  history_ok eqb [] ops ->
  fst (run_list eqb (mkList [] 0 0) ops) = fst (run_spec eqb [] ops) /\
  contents (snd (run_list eqb (mkList [] 0 0) ops)) = Ok (snd (run_spec eqb [] ops)).
Proof.
  intros A eqb ops H. split.
  - apply (run_rep eqb ops); [apply empty_rep|unfold small; cbn; lia|assumption].
  - apply contents_rep, reach_rep. assumption.
Qed.
Print Assumptions C03_list_refines_sequence.

(** No call of a history in the domain touches memory outside the list's array. *)
Theorem C03_list_memory_safe : forall (A : Type) (eqb : A -> A -> bool) (ops : list (lop A)),
  history_ok eqb [] ops -> Forall (fun o => o <> UB) (fst (run_list eqb (mkList [] 0 0) ops)).
Proof.
  intros A eqb ops H. rewrite (proj1 (C03_list_refines_sequence A eqb ops H)). apply run_no_ub.
Qed.
Print Assumptions C03_list_memory_safe.

Example C03_case :
  let ops := [Append 1; Insert (-7) 2; ExtendSelf; Pop (Some (-2)); Reverse; SetItem (-1) 9;
              DelItem 0; GetItem 5; Index 9 None None; Mul 2; Clear; Pop None] in
  history_ok Z.eqb [] ops /\
  fst (run_spec Z.eqb [] ops) =
    [Ok VUnit; Ok VUnit; Ok VUnit; Ok (VElem 2); Ok VUnit; Ok VUnit; Ok VUnit;
     Exn IndexError; Ok (VInt 1); Ok (VSeq [1; 9; 1; 9]); Ok VUnit; Exn IndexError].
Proof.
  split; [|reflexivity]. cbn. unfold small, inS, zlen. cbn.
  repeat split; first [lia | discriminate | exact I].
Qed.

(** ** C04: indexing, for indices that fit 32 bits *)
Theorem C04_indexing_partial : forall (A : Type) (eqb : A -> A -> bool) (ops : list (lop A)) (n : Z) (x : A),
  history_ok eqb [] ops -> inS 32 n ->
  let l := snd (run_list eqb (mkList [] 0 0) ops) in
  let xs := snd (run_spec eqb [] ops) in
  let i := if n <? 0 then zlen xs + n else n in
  (0 <= i < zlen xs ->
     (exists v, nth_error xs (Z.to_nat i) = Some v /\ fst (list_step eqb l (GetItem n)) = Ok (VElem v)) /\
     fst (list_step eqb l (SetItem n x)) = Ok VUnit /\
     contents (snd (list_step eqb l (SetItem n x)))
       = Ok (firstn (Z.to_nat i) xs ++ x :: skipn (S (Z.to_nat i)) xs)) /\
  (~ 0 <= i < zlen xs ->
     fst (list_step eqb l (GetItem n)) = Exn IndexError /\
     fst (list_step eqb l (SetItem n x)) = Exn IndexError /\
     contents (snd (list_step eqb l (SetItem n x))) = Ok xs).
Proof.
  intros A eqb ops n x H Hn l xs i.
  assert (Hs : small xs) by (apply reach_small; [unfold small; cbn; lia|assumption]).
  destruct (reach_step eqb ops (GetItem n) H Hn) as [G1 _].
  { unfold list_spec. fold xs. destruct (position xs n) as [p|]; [destruct (nth_error xs p)|]; assumption. }
  destruct (reach_step eqb ops (SetItem n x) H Hn) as [S1 S2].
  { unfold list_spec. fold xs. destruct (position xs n) as [p|] eqn:E; [|assumption].
    unfold small in *. unfold zlen in *. cbn [snd]. unfold position, from_end, zlen in E.
    destruct (_ && _) eqn:E2; [|discriminate]. injection E as <-.
    rewrite update_at_length; [assumption|]. lia. }
  fold l xs in G1, S1, S2. rewrite G1, S1, S2. cbn [list_spec].
  assert (Ei : from_end (zlen xs) n = i).
  { unfold from_end, i. destruct (n <? 0); lia. }
  unfold position. rewrite Ei. split; intros Hi.
  - replace ((0 <=? i) && (i <? zlen xs)) with true by lia. repeat split.
    destruct (nth_error xs (Z.to_nat i)) as [v|] eqn:E; [exists v; split; reflexivity|].
    apply nth_error_None in E. unfold zlen in Hi. lia.
  - replace ((0 <=? i) && (i <? zlen xs)) with false by lia. repeat split.
Qed.
Print Assumptions C04_indexing_partial.

Example C04_case : history_ok Z.eqb [] [Extend [7; 8]] /\ inS 32 (-2) /\ inS 32 (-3).
Proof. cbn; unfold small, inS; cbn; repeat split; lia. Qed.

(** An index of 2^32 is accepted: l[4294967296] is l[0]. *)
Theorem C04_indexing_refuted : exists (ops : list (lop Z)) (n : Z),
  history_ok Z.eqb [] ops /\ inS 64 n /\ zlen (snd (run_spec Z.eqb [] ops)) <= n /\
  fst (list_step Z.eqb (snd (run_list Z.eqb (mkList [] 0 0) ops)) (GetItem n)) = Ok (VElem 7).
Proof.
  exists [Append 7], (2 ^ 32). split; [cbn; unfold small; cbn; repeat split; lia|].
  split; [unfold inS; lia|]. split; [cbn; lia|reflexivity].
Qed.
Print Assumptions C04_indexing_refuted.

(** [del l[i]] outside the list raises nothing and changes nothing. *)
Theorem C04_delitem_refuted : forall (A : Type) (eqb : A -> A -> bool) (ops : list (lop A)) (n : Z),
  history_ok eqb [] ops -> inS 32 n ->
  let l := snd (run_list eqb (mkList [] 0 0) ops) in
  position (snd (run_spec eqb [] ops)) n = None ->
  list_step eqb l (DelItem n) = (Ok VUnit, l).
Proof.
  intros A eqb ops n H Hn l Hp. cbn [list_step]. unfold list_delitem.
  pose proof (reach_rep eqb ops H) as HR. fold l in HR.
  assert (El : len l = zlen (snd (run_spec eqb [] ops))) by apply HR.
  rewrite El, norm_index_ok by assumption.
  unfold position in Hp. destruct (_ && _) eqn:E in Hp; [discriminate|].
  destruct (_ || _) eqn:E2; [reflexivity|lia].
Qed.
Print Assumptions C04_delitem_refuted.
Example C04_delitem_case : position (snd (run_spec Z.eqb [] [Extend [7; 8]])) 2 = None.
Proof. reflexivity. Qed.

(** ** C05: slice assignment and deletion *)
Theorem C05_setslice_partial : forall (A : Type) (eqb : A -> A -> bool) (ops : list (lop A)) (s : slice) (ys : list A),
  history_ok eqb [] ops ->
  let l := snd (run_list eqb (mkList [] 0 0) ops) in
  let xs := snd (run_spec eqb [] ops) in
  slice_ok (length xs) s -> small ys -> small (snd (list_spec eqb xs (SetSlice s ys))) ->
  fst (list_step eqb l (SetSlice s ys)) = fst (list_spec eqb xs (SetSlice s ys)) /\
  contents (snd (list_step eqb l (SetSlice s ys))) = Ok (snd (list_spec eqb xs (SetSlice s ys))).
Proof. intros A eqb ops s ys H l xs Hs Hy Hr. apply reach_step; [assumption|split; assumption|assumption]. Qed.
Print Assumptions C05_setslice_partial.

Theorem C05_delslice_partial : forall (A : Type) (eqb : A -> A -> bool) (ops : list (lop A)) (s : slice),
  history_ok eqb [] ops -> 0 <= step_of s ->
  let l := snd (run_list eqb (mkList [] 0 0) ops) in
  let xs := snd (run_spec eqb [] ops) in
  small (snd (list_spec eqb xs (DelSlice s))) ->
  fst (list_step eqb l (DelSlice s)) = fst (list_spec eqb xs (DelSlice s)) /\
  contents (snd (list_step eqb l (DelSlice s))) = Ok (snd (list_spec eqb xs (DelSlice s))).
Proof. intros A eqb ops s H Hs l xs Hr. apply reach_step; assumption. Qed.
Print Assumptions C05_delslice_partial.

Example C05_case :
  let ops := [Extend [0; 1; 2; 3; 4; 5]] in
  let xs := snd (run_spec Z.eqb [] ops) in
  history_ok Z.eqb [] ops /\
  list_spec Z.eqb xs (SetSlice (mkSlice (Some 1) (Some (-2)) None) [8; 9]) = (Ok VUnit, [0; 8; 9; 4; 5]) /\
  list_spec Z.eqb xs (SetSlice (mkSlice (Some 5) None (Some (-2))) [7; 8; 9]) = (Ok VUnit, [0; 9; 2; 8; 4; 7]) /\
  list_spec Z.eqb xs (DelSlice (mkSlice (Some 1) None (Some 2))) = (Ok VUnit, [0; 2; 4]).
Proof. split; [cbn; unfold small; cbn; repeat split; lia|]. repeat split. Qed.

(** del l[::-1] passes a negative size to memmove. *)
Theorem C05_delslice_refuted : exists (ops : list (lop Z)) (s : slice),
  history_ok Z.eqb [] ops /\
  fst (list_step Z.eqb (snd (run_list Z.eqb (mkList [] 0 0) ops)) (DelSlice s)) = UB.
Proof.
  exists [Extend [1; 2]], (mkSlice None None (Some (-1))).
  split; [cbn; unfold small; cbn; repeat split; lia|reflexivity].
Qed.
Print Assumptions C05_delslice_refuted.

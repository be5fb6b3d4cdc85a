(** Consequences of the list refinement used by T_List. *)
From Verif Require Import Base M_Slice S_Slice M_List S_List M_ListApi P_Base P_Slice P_List.

Section C.
Context {A : Type} (eqb : A -> A -> bool).

Lemma reach_rep ops : history_ok eqb [] ops ->
  Rep (snd (run_list eqb (mkList [] 0 0) ops)) (snd (run_spec eqb [] ops)).
Proof. intros H. apply (run_rep eqb ops); [apply empty_rep|unfold small; cbn; lia|assumption]. Qed.

Lemma reach_small ops xs : small xs -> history_ok eqb xs ops -> small (snd (run_spec eqb xs ops)).
Proof.
  revert xs. induction ops as [|op ops IH]; intros xs Hs H; cbn; [assumption|].
  destruct H as (_ & H2 & H3). destruct (list_spec eqb xs op) as [o x1]. cbn in *.
  specialize (IH x1 H2 H3). destruct (run_spec eqb x1 ops). assumption.
Qed.

Lemma reach_step ops op :
  history_ok eqb [] ops -> op_ok (snd (run_spec eqb [] ops)) op ->
  small (snd (list_spec eqb (snd (run_spec eqb [] ops)) op)) ->
  let l := snd (run_list eqb (mkList [] 0 0) ops) in
  let xs := snd (run_spec eqb [] ops) in
  fst (list_step eqb l op) = fst (list_spec eqb xs op) /\
  contents (snd (list_step eqb l op)) = Ok (snd (list_spec eqb xs op)).
Proof.
  intros H Hok Hsm l xs. pose proof (reach_rep ops H) as HR. fold l xs in HR.
  assert (Hs : small xs) by (apply reach_small; [unfold small; cbn; lia|assumption]).
  destruct (step_rep eqb l xs op HR Hs Hok Hsm) as [E1 E2].
  split; [assumption|]. apply contents_rep. assumption.
Qed.

Lemma list_spec_no_ub xs op : fst (list_spec eqb xs op) <> UB.
Proof.
  destruct op; cbn; try discriminate.
  - unfold position. destruct ((0 <=? _) && (_ <? zlen xs)) eqn:E; [|discriminate].
    destruct (nth_error xs _) eqn:E2; [discriminate|]. apply nth_error_None in E2. unfold zlen in *. lia.
  - unfold position. destruct ((0 <=? _) && (_ <? zlen xs)) eqn:E; [|discriminate].
    destruct (nth_error xs _) eqn:E2; [discriminate|]. apply nth_error_None in E2. unfold zlen in *. lia.
  - destruct (position xs n); discriminate.
  - destruct (position xs n); discriminate.
  - unfold py_slice. destruct (select _ _); discriminate.
  - assert (H : fst (match select (length xs) s with
             | Some ps => if Nat.eqb (length ps) (length ys) then (Ok (@VUnit A), assign xs ps ys) else (Exn ValueError, xs)
             | None => (Exn ValueError, xs) end) <> UB).
    { destruct (select _ _); [|discriminate]. destruct (Nat.eqb _ _); discriminate. }
    destruct (sl_step s) as [[|[| |]|]|]; try exact H; discriminate.
  - destruct (select _ _); discriminate.
  - destruct (_ || _); [discriminate|]. destruct (find_first _ _ _ _); discriminate.
Qed.

Lemma run_no_ub ops xs : Forall (fun o => o <> UB) (fst (run_spec eqb xs ops)).
Proof.
  revert xs; induction ops as [|op ops IH]; intros xs; cbn; [constructor|].
  pose proof (list_spec_no_ub xs op) as H. destruct (list_spec eqb xs op) as [o x1].
  specialize (IH x1). destruct (run_spec eqb x1 ops). constructor; assumption.
Qed.
End C.

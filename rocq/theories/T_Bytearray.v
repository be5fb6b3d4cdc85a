(** Property theorems C78 and C79: bytearrays.
    A bytearray is any one reachable from bytearray(xs), xs a bytes value, by a history of
    API calls; its abstract value is the sequence the same history yields in [b_run]. *)
From Verif Require Import Base P_Base M_Slice S_Slice M_List S_List P_List S_Bytearray M_Bytearray P_Bytearray P_Bytearray2.

(** ** C78: a bytearray is a mutable sequence of bytes *)
Theorem C78_bytearray_refines_sequence_partial : forall (xs : list Z) (ops : list bop),
  Forall is_byte xs -> small xs -> bhistory_ok xs ops ->
  fst (ba_run (ba_init xs) ops) = fst (b_run xs ops) /\
  ba_contents (snd (ba_run (ba_init xs) ops)) = Ok (snd (b_run xs ops)) /\
  Forall is_byte (snd (b_run xs ops)).
Proof.
  intros xs ops Hb Hs Hok.
  destruct (run_brep ops (ba_init xs) xs true (init_rep xs Hb) Hs Hok) as [E R].
  split; [exact E|]. split; [eapply contents_brep; exact R|]. destruct R as (_ & _ & _ & _ & H & _). exact H.
Qed.
Print Assumptions C78_bytearray_refines_sequence_partial.

(** No call of such a history reads or writes outside the bytearray's block, or reads a
    byte that was never written. *)
Theorem C78_bytearray_memory_safe_partial : forall (xs : list Z) (ops : list bop),
  Forall is_byte xs -> small xs -> bhistory_ok xs ops ->
  Forall (fun o => o <> UB /\ o <> NoFuel) (fst (ba_run (ba_init xs) ops)).
Proof.
  intros xs ops Hb Hs Hok. rewrite (proj1 (C78_bytearray_refines_sequence_partial xs ops Hb Hs Hok)).
  apply b_run_no_ub.
Qed.
Print Assumptions C78_bytearray_memory_safe_partial.

Definition bytes_case : list Z := [97; 0; 255].
Definition ops_case : list bop :=
  [BAppend 300; BInsert (-1) (-1); BSetItem 0 7; BSetItem 9 7; BSetItem 1 256; BGetItem (-2);
   BDelItem 1; BAppend 3; BDelSlice (mkSlice None None (Some 2)); BReverse; BContains 3; BTrue;
   BGetSlice (mkSlice None None (Some (-1))); BIter; BReversed; BAdd [1; 2]; BMul 2; BDelItem 7; BLen].

Ltac hist :=
  match goal with
  | |- bhistory_ok _ [] => exact I
  | |- bhistory_ok ?x (?o :: ?l) =>
      split; [cbn [bop_ok]; try exact I
             |split; [unfold small; vm_compute; discriminate
                     |let y := eval vm_compute in (snd (b_spec x o)) in change (bhistory_ok y l); hist]]
  end.

Example C78_case :
  Forall is_byte bytes_case /\ small bytes_case /\ bhistory_ok bytes_case ops_case /\
  b_run bytes_case ops_case =
    ([Ok VUnit; Ok VUnit; Ok VUnit; Exn IndexError; Exn ValueError; Ok (VElem 255);
      Ok VUnit; Ok VUnit; Ok VUnit; Ok VUnit; Ok (VBool false); Ok (VBool true);
      Ok (VSeq [255; 44]); Ok (VSeq [44; 255]); Ok (VSeq [255; 44]); Ok (VSeq [44; 255; 1; 2]);
      Ok (VSeq [44; 255; 44; 255]); Exn IndexError; Ok (VInt 2)], [44; 255]).
Proof.
  split; [repeat (constructor; [unfold is_byte; lia|]); constructor|].
  split; [unfold small; vm_compute; discriminate|].
  split; [|vm_compute; reflexivity].
  unfold bytes_case, ops_case. hist.
  - cbn [step_of sl_step]. lia.
  - unfold is_byte; lia.
  - right. cbn. split; [lia|]. split; exact I.
  - split; [repeat (constructor; [unfold is_byte; lia|]); constructor|vm_compute; discriminate].
  - unfold inS. split; [lia|vm_compute; discriminate].
Qed.

(** The values of append and insert are taken modulo 256. *)
Theorem C78_append_value : forall (xs : list Z) (ops : list bop) (v : Z),
  Forall is_byte xs -> small xs -> bhistory_ok xs (ops ++ [BAppend v]) ->
  ba_contents (snd (ba_run (ba_init xs) (ops ++ [BAppend v])))
  = Ok (snd (b_run xs ops) ++ [v mod 256]).
Proof.
  intros xs ops v Hb Hs Hok.
  destruct (C78_bytearray_refines_sequence_partial xs _ Hb Hs Hok) as (_ & -> & _). f_equal.
  assert (G : forall o ys, snd (b_run ys (o ++ [BAppend v])) = snd (b_run ys o) ++ [v mod 256]).
  { induction o as [|op o IH]; intros ys; [reflexivity|]. cbn [app b_run].
    destruct (b_spec ys op) as [r y1]. specialize (IH y1).
    destruct (b_run y1 (o ++ [BAppend v])). destruct (b_run y1 o). exact IH. }
  apply G.
Qed.
Print Assumptions C78_append_value.

Example C78_append_case : bhistory_ok [1] ([BReverse] ++ [BAppend (-1)]).
Proof. cbn [app]. hist. Qed.

(** Deleting a slice with a negative step moves memory with a negative size. *)
Theorem C78_delslice_refuted : exists (xs : list Z) (s : slice),
  Forall is_byte xs /\ step_of s < 0 /\ select (length xs) s <> None /\
  fst (ba_run (ba_init xs) [BDelSlice s]) = [UB].
Proof.
  exists [1; 2; 3], (mkSlice None None (Some (-1))).
  split; [repeat (constructor; [unfold is_byte; lia|]); constructor|].
  split; [reflexivity|]. split; [discriminate|reflexivity].
Qed.
Print Assumptions C78_delslice_refuted.

(** Membership tests only the low eight bits: 353 in bytearray(b"a") is true. *)
Theorem C78_contains_refuted : exists (xs : list Z) (v : Z),
  Forall is_byte xs /\ ~ In v xs /\
  fst (ba_run (ba_init xs) [BContains v]) = [Ok (VBool true)].
Proof.
  exists [97], 353. split; [repeat (constructor; [unfold is_byte; lia|]); constructor|].
  split; [cbn; lia|reflexivity].
Qed.
Print Assumptions C78_contains_refuted.

(** Assigning to a slice never works: whatever the bytearray, the slice and the new
    values, the StopIteration that ends the iteration over the values escapes. *)
Theorem C78_setslice_refuted : forall (b : ba) (s : slice) (ys : list Z),
  small ys -> ba_setslice b s ys = Exn StopIteration.
Proof.
  intros b s ys Hs. unfold ba_setslice. rewrite unfilled_spec by lia. cbn [bindr].
  assert (G : forall zs o xs t, BRep o xs t -> zlen xs + zlen zs <= 2 ^ 30 -> ba_collect zs o = Exn StopIteration).
  { induction zs as [|z zs IH]; intros o xs t HR Hb; cbn [ba_collect]; [reflexivity|].
    unfold zlen in Hb. cbn [length] in Hb.
    destruct (append_brep o xs t z HR) as (o' & -> & HR'); [unfold zlen; lia|]. cbn [bindr].
    apply (IH o' _ true HR'). rewrite zlen_app. unfold zlen. cbn [length]. lia. }
  rewrite (G ys _ [] true); [reflexivity| |exact Hs].
  unfold BRep. cbn. repeat split; auto; lia.
Qed.
Print Assumptions C78_setslice_refuted.

(** ** C79: comparisons of bytearrays.
    Full statement: for all reachable bytearrays the six comparisons are those of the
    sequences.  It is false after the deletion of one element and in the presence of NUL
    bytes (below); it holds otherwise. *)
Theorem C79_order_partial : forall (o : cmp) (xs ys : list Z) (ops ops' : list bop),
  Forall is_byte xs -> small xs -> bhistory_ok xs ops ->
  Forall is_byte ys -> small ys -> bhistory_ok ys ops' ->
  settled true ops = true -> settled true ops' = true ->
  let va := snd (b_run xs ops) in
  let vb := snd (b_run ys ops') in
  ~ In 0 va -> ~ In 0 vb ->
  exists r, ba_cmp o (snd (ba_run (ba_init xs) ops)) (snd (ba_run (ba_init ys) ops')) = Ok r /\
            (r = true <-> means o va vb).
Proof.
  intros o xs ys ops ops' Hx Sx Ox Hy Sy Oy Tx Ty va vb Na Nb.
  destruct (run_brep ops (ba_init xs) xs true (init_rep xs Hx) Sx Ox) as [_ R].
  destruct (run_brep ops' (ba_init ys) ys true (init_rep ys Hy) Sy Oy) as [_ R'].
  rewrite Tx in R. rewrite Ty in R'. apply cmp_brep; assumption.
Qed.
Print Assumptions C79_order_partial.

Example C79_case :
  let ops := [BDelItem 0; BAppend 5; BInsert 1 9] in
  bhistory_ok [1; 2] ops /\ settled true ops = true /\ snd (b_run [1; 2] ops) = [2; 9; 5] /\
  means CLt [2; 9; 5] [2; 200].
Proof.
  split; [hist|]. split; [reflexivity|]. split; [reflexivity|].
  exists [2]. right. exists 9, [5], 200, []. split; [reflexivity|]. split; [reflexivity|lia].
Qed.

(** The order is a total order on byte sequences. *)
Theorem C79_order_total : forall a b : list Z,
  (before a b /\ ~ a = b /\ ~ before b a) \/ (a = b /\ ~ before a b /\ ~ before b a) \/
  (before b a /\ ~ a = b /\ ~ before a b).
Proof.
  assert (T : forall a b, before a b \/ a = b \/ before b a).
  { induction a as [|x a IH]; intros [|y b].
    - right. left. reflexivity.
    - left. exists []. left. exists y, b. split; reflexivity.
    - right. right. exists []. left. exists x, a. split; reflexivity.
    - destruct (Z.lt_trichotomy x y) as [H|[->|H]].
      + left. exists []. right. exists x, a, y, b. auto.
      + destruct (IH b) as [(p & H)|[->|(p & H)]].
        * left. exists (y :: p). destruct H as [(z & b' & -> & ->)|(u & a' & z & b' & -> & -> & H)];
            [left; exists z, b'|right; exists u, a', z, b']; auto.
        * right. left. reflexivity.
        * right. right. exists (y :: p). destruct H as [(z & b' & -> & ->)|(u & a' & z & b' & -> & -> & H)];
            [left; exists z, b'|right; exists u, a', z, b']; auto.
      + right. right. exists []. right. exists y, b, x, a. auto. }
  intros a b. destruct (T a b) as [H|[->|H]].
  - left. split; [assumption|]. split; [intros ->; eapply before_irrefl; eassumption|intros G; eapply before_asym; eassumption].
  - right. left. split; [reflexivity|]. split; apply before_irrefl.
  - right. right. split; [assumption|]. split; [intros ->; eapply before_irrefl; eassumption|intros G; eapply before_asym; eassumption].
Qed.
Print Assumptions C79_order_total.

(** After [del b[1]] the bytearray b"ab" is not equal to bytearray(b"a"), although it has
    the same length and the same bytes. *)
Theorem C79_delitem_refuted : exists (xs : list Z) (op : bop) (ys : list Z),
  Forall is_byte xs /\ Forall is_byte ys /\ ~ In 0 xs /\ bhistory_ok xs [op] /\
  snd (b_run xs [op]) = ys /\
  ba_contents (snd (ba_run (ba_init xs) [op])) = Ok ys /\
  ba_cmp CEq (snd (ba_run (ba_init xs) [op])) (ba_init ys) = Ok false.
Proof.
  exists [97; 98], (BDelItem 1), [97].
  split; [repeat (constructor; [unfold is_byte; lia|]); constructor|].
  split; [repeat (constructor; [unfold is_byte; lia|]); constructor|].
  split; [cbn; lia|]. split; [hist|]. split; [reflexivity|]. split; reflexivity.
Qed.
Print Assumptions C79_delitem_refuted.

(** The comparison stops at a NUL byte: bytearrays that differ after one are equal. *)
Theorem C79_nul_refuted : exists xs ys : list Z,
  Forall is_byte xs /\ Forall is_byte ys /\ xs <> ys /\
  ba_cmp CEq (ba_init xs) (ba_init ys) = Ok true.
Proof.
  exists [97; 0; 1], [97; 0; 2; 3].
  split; [repeat (constructor; [unfold is_byte; lia|]); constructor|].
  split; [repeat (constructor; [unfold is_byte; lia|]); constructor|].
  split; [discriminate|reflexivity].
Qed.
Print Assumptions C79_nul_refuted.

(** C43: transactions. *)
From Verif Require Import Base S_Table S_Txn M_Table M_Txn P_Base P_Bmh P_Table P_Txn P_Txn2.
From Coq Require Import Lia ZifyBool Permutation.

(** A database in which the tables [ts] have [d] clustering keys and no rows yet; about its
    queues nothing is said. *)
Definition fresh (d : nat) (ts : list Z) (x : db) : Prop :=
  forall t, In t ts -> exists s, zlook (tabs x) t = Some (Table s []) /\ std d s.

Lemma fresh_ok d ts x : fresh d ts x -> db_ok d ts x.
Proof.
  intros H t Ht. destruct (H t Ht) as (s & E & S). exists (Table s []). split; auto. split; auto. split; cbn; auto.
Qed.
Lemma inv0 d ts x : fresh d ts x -> inv d ts (view_of x) (Srv x []) (Book [] []) [].
Proof.
  intros H. split; [|split; [|split; [|split]]]; cbn [sdb txns bopen blog map].
  - apply fresh_ok; auto.
  - intros i. exact I.
  - constructor.
  - apply view_refl.
  - intros i. split; [intros []|intros (? & E & _); discriminate].
Qed.

(** Whatever the interleaving, what is in force are the changes of the committed
    transactions, each of them whole, in the order of their commits (and the changes made
    outside transactions); nothing of a transaction that is open or was aborted.
    Partial: for transactions as in [tx_ok] and keys as in [near], and without creating and
    deleting queues: otherwise see the refutations below. *)
Theorem C43_atomic_partial : forall d ts x rs s l, (1 <= d)%nat -> fresh d ts x -> legal d ts (Book [] []) rs ->
  run (Srv x []) rs = Ok (s, l) ->
  view_eq (S d) (view_of (sdb s)) (fold_left eff (blog (books rs)) (view_of x)).
Proof.
  intros d ts x rs s l Hd Hf Hl H. destruct (run_inv d ts (view_of x) Hd rs _ _ _ _ _ (inv0 d ts x Hf) Hl H) as (_ & _ & _ & V & _).
  exact V.
Qed.
Print Assumptions C43_atomic_partial.

(** If transactions are used as they should be nothing fails. *)
Theorem C43_progress : forall d ts x rs, (1 <= d)%nat -> fresh d ts x -> legal d ts (Book [] []) rs -> orderly ts (Book [] []) rs ->
  exists s l, run (Srv x []) rs = Ok (s, l).
Proof.
  intros d ts x rs Hd Hf Hl Ho. eapply run_total; eauto. apply inv0; auto. intros i iss v E. discriminate.
Qed.
Print Assumptions C43_progress.

(** Reading a row, in a transaction or not, gives the cells that are in force then: nothing
    of any open transaction, not even the reading one. *)
Theorem C43_read : forall d ts x rs s l i t pk, (1 <= d)%nat -> fresh d ts x -> legal d ts (Book [] []) rs ->
  run (Srv x []) rs = Ok (s, l) -> In t ts ->
  exists c, serve s (RRead i t pk) = Ok (s, Cells c) /\
    shows (S d) (fold_left eff (blog (books rs)) (view_of x)) t pk c.
Proof.
  intros d ts x rs s l i t pk Hd Hf Hl H Ht.
  destruct (run_inv d ts (view_of x) Hd rs _ _ _ _ _ (inv0 d ts x Hf) Hl H) as (Hx & _ & _ & (V & _) & _).
  destruct (Hx t Ht) as (tb & E & W). cbn [serve]. rewrite E. cbn [orUB bindr].
  destruct (row_read_ok d tb pk Hd W) as (c & R & A & C). rewrite R. cbn [bindr]. exists c. split; auto. split; auto.
  intros p dt. rewrite C. unfold row_of. split.
  - intros (ks & -> & L & Hv). assert (length (pk :: ks) = S d) by (cbn; auto). split; eauto.
    unfold effs, books in V. unfold books. rewrite <- V by auto. cbn [view_of vcell]. rewrite E. rewrite (read_tval d); auto.
  - intros (Hv & L & ks & ->). exists ks. split; auto. split. cbn in L. lia.
    unfold effs, books in V. unfold books in Hv. rewrite <- V in Hv by auto. cbn [view_of vcell] in Hv. rewrite E in Hv. rewrite (read_tval d) in Hv; auto.
Qed.
Print Assumptions C43_read.

(** Validation of a transaction that changes rows: 1 if another transaction that may commit
    changes the same row (deletes it too) or cell (writes it too), 0 if not. *)
Theorem C43_validate : forall d ts x rs s l i iss, (1 <= d)%nat -> fresh d ts x -> legal d ts (Book [] []) rs ->
  run (Srv x []) rs = Ok (s, l) -> zlook (bopen (books rs)) i = Some (iss, false) -> Forall row_change iss ->
  exists s' st, serve s (RValidate i) = Ok (s', Status st) /\ (st = 0 \/ st = 1) /\
    (st = 1 <-> exists j iss' a', j <> i /\ In j (granted rs l) /\ zlook (bopen (books rs)) j = Some (iss', a') /\
                exists w w', In w iss /\ In w' iss' /\ same_thing w w').
Proof.
  intros d ts x rs s l i iss Hd Hf Hl H Hi Hr. apply (validate_ok d ts (view_of x) Hd); auto.
  eapply run_inv; eauto. apply inv0; auto.
Qed.
Print Assumptions C43_validate.

(** So two transactions that may commit never change the same row or cell this way, if
    nothing is added to a transaction after its validation. *)
Theorem C43_exclusive : forall d ts x rs s l i j iss a iss' a' w w',
  (1 <= d)%nat -> fresh d ts x -> legal d ts (Book [] []) rs -> all_settled (Book [] []) rs ->
  run (Srv x []) rs = Ok (s, l) -> i <> j -> In i (granted rs l) -> In j (granted rs l) ->
  zlook (bopen (books rs)) i = Some (iss, a) -> zlook (bopen (books rs)) j = Some (iss', a') ->
  In w iss -> In w' iss' -> row_change w -> ~ same_thing w w'.
Proof.
  intros d ts x rs s l i j iss a iss' a' w w' Hd Hf Hl Hs H. revert i j iss a iss' a' w w'.
  change (apart (books rs) (granted rs l)).
  eapply (run_apart d ts (view_of x)); eauto. apply inv0; auto. intros i j iss a iss' a' w w' _ [].
Qed.
Print Assumptions C43_exclusive.

(** Examples and refutations: tables 7 and 9 hold rows, table 8 the queues 1 and 2, which have the
    subscriber 5. *)
Definition t7 : table := Table state_schema [].
Definition x0 : db := DB [(7, t7); (9, t7)] [(8, [(1, SQ [10; 11; 12] [(5, (2, -1))]); (2, SQ [] [(5, (-1, -1))])])].
Definition v0 : view := view_of x0.
Definition s0 : srv := Srv x0 [].
Lemma fresh0 : fresh 1 [7] x0.
Proof.
  intros t [<-|[]]. exists state_schema. split; auto. split; auto. intros [|i] H; cbn; auto. lia.
Qed.

Ltac histok := cbn -[Z.pow Z.of_nat];
  repeat match goal with
         | H : Some _ = Some _ |- _ => inversion H; subst; clear H
         | H : Some _ = None |- _ => discriminate H
         | H : None = Some _ |- _ => discriminate H
         | |- _ /\ _ => split
         | |- ~ _ => let H := fresh "H" in intros H; cbn in H; repeat match goal with H : _ /\ _ |- _ => destruct H | H : _ \/ _ |- _ => destruct H end; try tauto; try discriminate; lia
         | |- wr_ok _ _ _ => unfold wr_ok, near; cbn -[Z.pow]
         | |- tx_ok _ => unfold tx_ok; cbn -[Z.pow Z.of_nat]
         | |- near _ => unfold near
         | |- ForallOrdPairs _ (_ ++ _) => cbn [app]
         | |- forall _, _ => intros
         | |- Forall _ [] => constructor
         | |- Forall _ (_ :: _) => constructor
         | |- ForallOrdPairs _ [] => constructor
         | |- ForallOrdPairs _ (_ :: _) => constructor
         | |- follows _ _ => unfold follows; cbn
         | |- True => exact I
         | |- exists _, Some _ = Some _ => eexists; reflexivity
         | |- _ \/ _ => auto
         end; auto; try lia; try discriminate; try (cbn; lia).

(** Two transactions, changes in an order that is not that of their keys, an abort. *)
Definition rs0 : list req :=
  [RBegin 1; RWrite (Some 1) (Upd 7 [2; 5] [50]); RBegin 2; RWrite (Some 1) (Upd 7 [1; 4] [40; 41]);
   RWrite (Some 2) (Upd 7 [1; 4] [60]); RWrite (Some 1) (Enq 8 1 13); RWrite (Some 1) (Enq 8 2 14); RRead (Some 1) 7 2;
   RValidate 1; RValidate 2; RCommit 1; RAbort 2; RBegin 3; RWrite (Some 3) (Del 7 [2]); RWrite (Some 3) (Upd 7 [2; 6] [70]);
   RRead None 7 2; RValidate 3; RCommit 3; RRead (Some 9) 7 2].

Example ex_legal : legal 1 [7] (Book [] []) rs0 /\ orderly [7] (Book [] []) rs0 /\ all_settled (Book [] []) rs0.
Proof. split; [|split]; histok.
Qed.
Example ex_answers : mapr snd (run s0 rs0) =
  Ok [Status 0; Status 0; Status 0; Status 0; Status 0; Status 0; Status 0; Cells []; Status 0; Status 1; Status 0; Status 0;
      Status 0; Status 0; Status 0; Cells [([2; 5], [50])]; Status 0; Status 0; Cells [([2; 6], [70])]].
Proof. vm_compute. reflexivity. Qed.

(** Two transactions that may commit. *)
Definition rs1 : list req :=
  [RBegin 1; RBegin 2; RWrite (Some 1) (Upd 7 [1; 4] [10]); RWrite (Some 2) (Upd 7 [1; 5] [11]); RValidate 1; RValidate 2].
Example ex_granted : legal 1 [7] (Book [] []) rs1 /\ all_settled (Book [] []) rs1 /\
  exists s l, run s0 rs1 = Ok (s, l) /\ granted rs1 l = [2; 1].
Proof. split; [histok|]. split; [histok|]. do 2 eexists. split; vm_compute; reflexivity. Qed.

(** Not serializable: both transactions read the same cell, then both write it, and both
    commit. *)
Definition lost_update : list req :=
  [RBegin 1; RBegin 2; RRead (Some 1) 7 1; RRead (Some 2) 7 1;
   RWrite (Some 1) (Upd 7 [1; 4] [11]); RWrite (Some 2) (Upd 7 [1; 4] [12]);
   RValidate 1; RCommit 1; RValidate 2; RCommit 2].
Theorem C43_serializable_refuted : ~ forall d ts x rs s l, (1 <= d)%nat -> fresh d ts x -> legal d ts (Book [] []) rs ->
  orderly ts (Book [] []) rs -> all_settled (Book [] []) rs -> (forall w, ~ In (RWrite None w) rs) ->
  run (Srv x []) rs = Ok (s, l) -> serializable (S d) (view_of x) rs l.
Proof.
  intros H.
  assert (exists s l, run s0 lost_update = Ok (s, l) /\ l =
    [Status 0; Status 0; Cells []; Cells []; Status 0; Status 0; Status 0; Status 0; Status 0; Status 0])
    as (s & l & E & El). { do 2 eexists. split; vm_compute; reflexivity. }
  specialize (H 1%nat [7] x0 lost_update s l ltac:(lia) fresh0).
  assert (L : legal 1 [7] (Book [] []) lost_update) by histok.
  assert (O : orderly [7] (Book [] []) lost_update) by histok.
  assert (A : all_settled (Book [] []) lost_update) by histok.
  assert (N : forall w, ~ In (RWrite None w) lost_update).
  { intros w C. cbn in C. repeat destruct C as [C|C]; try discriminate C. destruct C. }
  specialize (H L O A N E). subst l. clear L O A N E.
  destruct H as (order & P & X). change (flat_map commits _) with [1; 2] in P. apply Permutation_sym, Permutation_length_2_inv in P.
  destruct P as [-> | ->]; cbn in X; destruct X as (_ & (_ & X) & _).
  - destruct (X [1; 4] [11]) as [_ []]. split; auto. split; auto. exists [4]. auto.
  - destruct (X [1; 4] [12]) as [_ []]. split; auto. split; auto. exists [4]. auto.
Qed.
Print Assumptions C43_serializable_refuted.

(** C43_atomic without [tx_ok]: a row deleted after one of its cells was written is still
    there. *)
Theorem C43_delete_after_write_refuted : exists s, run s0
    [RBegin 1; RWrite (Some 1) (Upd 7 [1; 4] [10]); RWrite (Some 1) (Del 7 [1]); RValidate 1; RCommit 1] =
    Ok (s, [Status 0; Status 0; Status 0; Status 0; Status 0]) /\
  vcell (view_of (sdb s)) 7 [1; 4] = Some [10].
Proof. eexists. split; vm_compute; reflexivity. Qed.
Print Assumptions C43_delete_after_write_refuted.

(** Without [near]: of two rows whose keys differ by 2^32 one is not written. *)
Theorem C43_far_keys_refuted : exists s, run s0
    [RBegin 1; RWrite (Some 1) (Upd 7 [1; 4] [10]); RWrite (Some 1) (Upd 7 [1 + 2 ^ 32; 4] [11]); RValidate 1; RCommit 1] =
    Ok (s, [Status 0; Status 0; Status 0; Status 0; Status 0]) /\
  vcell (view_of (sdb s)) 7 [1; 4] = None /\ vcell (view_of (sdb s)) 7 [1 + 2 ^ 32; 4] = Some [11].
Proof. eexists. split; [|split]; vm_compute; reflexivity. Qed.
Print Assumptions C43_far_keys_refuted.

(** A cell written twice in a transaction: the next write reads freed memory. *)
Theorem C43_twice_refuted : forall k k' d d' d'', d <> [] -> d' <> [] -> d'' <> [] -> run s0
  [RBegin 1; RWrite (Some 1) (Upd 7 [k; k'] d); RWrite (Some 1) (Upd 7 [k; k'] d'); RWrite (Some 1) (Upd 7 [k; k'] d'')] = UB.
Proof.
  intros k k' d d' d'' A B C. destruct d, d', d''; try congruence. cbn. rewrite ?Z.eqb_refl. cbn. rewrite ?Z.eqb_refl. cbn. reflexivity.
Qed.
Print Assumptions C43_twice_refuted.

(** Deleting one cell in a transaction deletes the whole row. *)
Theorem C43_delete_cell_refuted : exists s, run s0
    [RWrite None (Upd 7 [1; 4] [10]); RWrite None (Upd 7 [1; 5] [11]); RBegin 1; RWrite (Some 1) (Del 7 [1; 4]); RValidate 1; RCommit 1] =
    Ok (s, [Status 0; Status 0; Status 0; Status 0; Status 0; Status 0]) /\
  vcell (view_of (sdb s)) 7 [1; 5] = None.
Proof. eexists. split; vm_compute; reflexivity. Qed.
Print Assumptions C43_delete_cell_refuted.

(** Of two queues deleted in a transaction only the last is deleted. *)
Theorem C43_delete_queues_refuted : exists s, run s0
    [RBegin 1; RWrite (Some 1) (Dlq 8 1); RWrite (Some 1) (Dlq 8 2); RValidate 1; RCommit 1] =
    Ok (s, [Status 0; Status 0; Status 0; Status 0; Status 0]) /\
  vents (view_of (sdb s)) 8 1 = Some [10; 11; 12] /\ vents (view_of (sdb s)) 8 2 = None.
Proof. eexists. split; [|split]; vm_compute; reflexivity. Qed.
Print Assumptions C43_delete_queues_refuted.

(** A commit that ends in the deletion of a row that is not there is not answered by 0
    although it is done, and never will be, however often it is asked for (which is what
    the client does, backend/client_api.c remote_commit_txn). *)
Lemma commit_gone n s : zlook (txns s) 1 = None -> run s (repeat (RCommit 1) n) = Ok (s, repeat (Status (-3)) n).
Proof. intros H. induction n as [|n IH]; cbn [repeat run]; auto. cbn [serve]. rewrite H. cbn [bindr]. rewrite IH. auto. Qed.
Lemma run_app a : forall s s' l b, run s a = Ok (s', l) -> run s (a ++ b) = mapr (fun p => (fst p, l ++ snd p)) (run s' b).
Proof.
  induction a as [|r a IH]; intros s s' l b; cbn [run app]; intros H.
  - inversion H; subst. destruct (run s' b) as [[]| | |]; auto.
  - destruct (serve s r) as [[s1 x]| | |]; try discriminate. cbn [bindr] in *.
    destruct (run s1 a) as [[s2 l2]| | |] eqn:E; try discriminate. cbn [bindr] in H. inversion H; subst.
    rewrite (IH _ _ _ b E). destruct (run s' b) as [[]| | |]; auto.
Qed.
Theorem C43_commit_answer_refuted : forall n, exists s, run s0
    ([RBegin 1; RWrite (Some 1) (Enq 8 1 13); RWrite (Some 1) (Del 9 [2]); RValidate 1; RCommit 1] ++ repeat (RCommit 1) n) =
    Ok (s, [Status 0; Status 0; Status 0; Status 0; Status 1] ++ repeat (Status (-3)) n) /\
  vents (view_of (sdb s)) 8 1 = Some [10; 11; 12; 13].
Proof.
  intros n. eexists. split. erewrite run_app by (vm_compute; reflexivity). rewrite commit_gone by reflexivity.
  cbn [mapr fst snd]. reflexivity. reflexivity.
Qed.
Print Assumptions C43_commit_answer_refuted.

(** Two transactions may both mark the same entries of a queue consumed; the server then
    stops if the second goes less far. *)
Theorem C43_consume_refuted : run s0
    [RBegin 1; RBegin 2; RWrite (Some 1) (Csm 8 1 5 2); RWrite (Some 2) (Csm 8 1 5 1);
     RValidate 1; RValidate 2; RCommit 1] <> abort /\
  run s0
    [RBegin 1; RBegin 2; RWrite (Some 1) (Csm 8 1 5 2); RWrite (Some 2) (Csm 8 1 5 1);
     RValidate 1; RValidate 2; RCommit 1; RCommit 2] = abort.
Proof. split. vm_compute. discriminate. vm_compute. reflexivity. Qed.
Print Assumptions C43_consume_refuted.

(** The deletion of a row and the writing of one of its cells do not exclude each other. *)
Theorem C43_overlap_refuted : exists s, run s0
    [RWrite None (Upd 7 [1; 4] [10]); RBegin 1; RBegin 2; RWrite (Some 1) (Del 7 [1]); RWrite (Some 2) (Upd 7 [1; 4] [11]);
     RValidate 1; RValidate 2] =
    Ok (s, [Status 0; Status 0; Status 0; Status 0; Status 0; Status 0; Status 0]).
Proof. eexists. vm_compute. reflexivity. Qed.
Print Assumptions C43_overlap_refuted.

(** A transaction that failed its validation can be committed. *)
Theorem C43_unvalidated_refuted : exists s, run s0
    [RBegin 1; RBegin 2; RWrite (Some 1) (Upd 7 [1; 4] [10]); RWrite (Some 2) (Upd 7 [1; 4] [11]); RValidate 1; RValidate 2; RCommit 2] =
    Ok (s, [Status 0; Status 0; Status 0; Status 0; Status 0; Status 1; Status 0]) /\
  vcell (view_of (sdb s)) 7 [1; 4] = Some [11].
Proof. eexists. split; vm_compute; reflexivity. Qed.
Print Assumptions C43_unvalidated_refuted.

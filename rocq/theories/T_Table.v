(** C66: tables are maps from key paths to columns. *)
From Verif Require Import Base S_Table M_Table P_Base P_Bmh P_Table.
From Coq Require Import Lia ZifyBool.

Lemma twf_nil d s : std d s -> twf d (Table s []).
Proof. intros H. split; auto. split; cbn; auto. Qed.

Lemma map_len d os p x : Forall (op_ok d) os -> map_of os p = Some x -> length p = S d.
Proof.
  intros F. unfold map_of.
  assert (forall m : contents, (forall q y, m q = Some y -> length q = S d) ->
            fold_left after os m p = Some x -> length p = S d) as H.
  { induction F as [|o os Ho Fo IH]; cbn [fold_left]; intros m Hm; eauto. apply IH.
    intros q y. unfold after. destruct o.
    - destruct (same q path) eqn:E; eauto. apply same_ok in E. subst. intros _. apply Ho.
    - destruct (same _ _); eauto. discriminate. }
  apply H. discriminate.
Qed.

Lemma hist d s os : (1 <= d)%nat -> std d s -> Forall (op_ok d) os ->
  exists t, trun (Table s []) os = Ok t /\ twf d t /\ keys64 t /\
    forall p, length p = S d -> tval t p = map_of os p.
Proof.
  intros Hd Hs F. destruct (run_ok d os Hd (Table s [])) as (t & E & W & _ & K & V); auto.
  - apply twf_nil; auto.
  - intros k r [].
  - exists t. split; auto. split; auto. split; auto. intros p Hp. rewrite V by auto. unfold map_of.
    assert (forall m m' : contents, (forall q, m q = m' q) -> forall q, fold_left after os m q = fold_left after os m' q) as H.
    { clear. induction os as [|o os IH]; intros m m' Hm q; cbn [fold_left]; auto. apply IH. intros q'.
      unfold after. destruct o; destruct (same _ _); auto. }
    apply H. intros [|k q]; auto.
Qed.

(** After any writes and deletions a cell is what was last written to it; none of them
    fails. *)
Theorem C66_read : forall d s os, (1 <= d)%nat -> std d s -> Forall (op_ok d) os ->
  exists t, trun (Table s []) os = Ok t /\
    forall pk ks, length ks = d ->
      exists p, table_search_clustering t pk ks = Ok p /\ option_map cols p = map_of os (pk :: ks).
Proof.
  intros d s os Hd Hs F. destruct (hist d s os Hd Hs F) as (t & E & W & _ & V). exists t. split; auto.
  intros pk ks Hl. unfold table_search_clustering. destruct ks as [|k ks]; [cbn in Hl; lia|]. cbn [M_Queue.assert].
  rewrite <- V by (cbn in *; lia). cbn [tval]. unfold table_search. destruct (sget (rows t) pk) as [r|] eqn:G.
  - apply (descend_ok _ d); auto. destruct W as (_ & Hr & Hf). apply sget_in in G; auto.
    rewrite Forall_forall in Hf. apply (Hf _ G).
  - exists None. auto.
Qed.
Print Assumptions C66_read.

(** Reading a row gives its cells, all and only, in the order of their keys. *)
Theorem C66_row : forall d s os, (1 <= d)%nat -> std d s -> Forall (op_ok d) os ->
  exists t, trun (Table s []) os = Ok t /\
    forall pk, exists cs, server_read t pk [] = Ok cs /\ lists (map_of os) (row_of pk) cs.
Proof.
  intros d s os Hd Hs F. destruct (hist d s os Hd Hs F) as (t & E & W & _ & V). exists t. split; auto.
  intros pk. destruct (row_read_ok d t pk Hd W) as (cs & R & A & C). exists cs. split; auto. split; auto.
  intros p dt. rewrite C. split.
  - intros (ks & -> & Hl & Hv). rewrite <- V by (cbn; lia). split; auto. exists ks. auto.
  - intros [Hm (ks & ->)]. exists ks. split; auto. pose proof (map_len _ _ _ _ F Hm) as Hl. cbn in Hl.
    split. lia. rewrite V by (cbn; lia). auto.
Qed.
Print Assumptions C66_row.

Lemma srv_range d s os : (1 <= d)%nat -> std d s -> Forall (op_ok d) os ->
  exists t, trun (Table s []) os = Ok t /\ keys64 t /\
    (forall p x, map_of os p = Some x -> exists k r ks, p = k :: ks /\ length ks = d /\ In (k, r) (rows t) /\ val r ks = Some x) /\
    srt (rows t) /\
    forall b, exists cs, server_range t b = Ok cs /\ ascending cs /\
      forall p x, In (p, x) cs <-> map_of os p = Some x /\
         exists k r, In (k, r) (table_range_search t b) /\ hd_error p = Some k.
Proof.
  intros Hd Hs F. destruct (hist d s os Hd Hs F) as (t & E & W & K & V). exists t. split; auto. split; auto.
  pose proof W as W0. destruct W as (Hs' & Hr & Hf).
  assert (M : forall p x, map_of os p = Some x -> exists k r ks, p = k :: ks /\ length ks = d /\ In (k, r) (rows t) /\ val r ks = Some x).
  { intros p x Hm. pose proof (map_len _ _ _ _ F Hm) as Hl. destruct p as [|k ks]; [discriminate|].
    rewrite <- V in Hm by auto. cbn [tval] in Hm. destruct (sget (rows t) k) as [r|] eqn:G; [|discriminate].
    apply sget_in in G; auto. exists k, r, ks. cbn in Hl. split; auto. }
  split; auto. split; auto.
  intros b.
  assert (Hsub : forall k r, In (k, r) (table_range_search t b) -> In (k, r) (rows t)).
  { intros k r. unfold table_range_search. destruct b as [[lo hi]|]; auto. destruct (_ && _); auto.
    intros H. apply upto_in in H. apply in_higher in H; auto. tauto. }
  assert (Hsrt : srt (table_range_search t b)).
  { unfold table_range_search. destruct b as [[lo hi]|]; auto. destruct (_ && _); auto.
    apply srt_upto, srt_higher; auto. }
  destruct (range_response_ok d (tschema t) (table_range_search t b)) as (cs & R & C); auto.
  { rewrite Forall_forall in *. intros [k r] H. apply Hf. auto. }
  exists cs. split; auto. split. apply C. intros p x. split.
  - intros H. pose proof (all_val d t _ cs W0 Hsub C _ _ H) as [Hl Hv]. rewrite V in Hv by auto. split; auto.
    apply (proj2 C) in H as (k & r & ks & Hi & -> & _). exists k, r. auto.
  - intros [Hm (k & r & Hi & Hh)]. destruct (M _ _ Hm) as (k' & r' & ks & -> & Hl & Hi' & Hv).
    cbn in Hh. inversion Hh; subst k'. apply (proj2 C). exists k, r, ks.
    pose proof (Hsub _ _ Hi) as Hi2. apply sget_in in Hi2, Hi'; auto. split; auto. split; auto. split; auto. congruence.
Qed.

(** Reading the whole table. *)
Theorem C66_all : forall d s os, (1 <= d)%nat -> std d s -> Forall (op_ok d) os ->
  exists t, trun (Table s []) os = Ok t /\
    exists cs, server_range t None = Ok cs /\ lists (map_of os) (fun _ => True) cs.
Proof.
  intros d s os Hd Hs F. destruct (srv_range d s os Hd Hs F) as (t & E & K & M & _ & R). exists t. split; auto.
  destruct (R None) as (cs & R1 & A & C). exists cs. split; auto. split; auto. intros p x. rewrite C.
  split; [tauto|]. intros [Hm _]. split; auto. destruct (M _ _ Hm) as (k & r & ks & -> & _ & Hi & _).
  exists k, r. auto.
Qed.
Print Assumptions C66_all.

(** Reading the rows from [lo] to [hi]: they are all there, in order, with their cells; if
    there are others, they are the cells of one row, the next one after [hi], and then there
    is no row [hi].  (The full statement, without others, is refuted below.) *)
Theorem C66_range_partial : forall d s os lo hi, (1 <= d)%nat -> std d s -> Forall (op_ok d) os -> lo <= hi ->
  exists t, trun (Table s []) os = Ok t /\
    exists cs, server_range t (Some (lo, hi)) = Ok cs /\ ascending cs /\
      (forall p x, In (p, x) cs -> map_of os p = Some x) /\
      (forall p x, map_of os p = Some x -> rows_between lo hi p -> In (p, x) cs) /\
      (forall p x, In (p, x) cs -> rows_between lo hi p \/
         exists k r, p = k :: r /\ hi < k /\
           forall j q y, map_of os (j :: q) = Some y -> hi <= j -> k <= j).
Proof.
  intros d s os lo hi Hd Hs F Hlh. destruct (srv_range d s os Hd Hs F) as (t & E & K & M & Hr & R). exists t. split; auto.
  destruct (R (Some (lo, hi))) as (cs & R1 & A & C). exists cs. split; auto. split; auto.
  split; [|split].
  - intros p x H. apply C in H. tauto.
  - intros p x Hm (k & q & -> & Hk). apply C. split; auto. destruct (M _ _ Hm) as (k' & r & ks & Ep & _ & Hi & _).
    inversion Ep; subst k' ks. exists k, r. split; auto. unfold table_range_search. destruct (_ && _); auto.
    apply in_upto; [apply srt_higher; auto| |lia]. apply in_higher; auto. split; auto. lia.
  - intros p x H. apply C in H as [Hm (k & r & Hi & Hh)]. destruct p as [|k' q]; [discriminate|]. cbn in Hh. inversion Hh; subst k'.
    unfold table_range_search in Hi. destruct (_ && _) eqn:B.
    + left. exists k, q. split; auto. apply K in Hi. unfold LONG_MIN, LONG_MAX in B. lia.
    + destruct (Z_le_dec k hi) as [L|L].
      * left. exists k, q. split; auto. split; auto. apply upto_in, in_higher in Hi; auto. tauto.
      * right. exists k, q. split; auto. split; [lia|]. intros j q' y Hj Hjh.
        destruct (M _ _ Hj) as (j' & r' & ks & Ep & _ & Hi' & _). inversion Ep; subst j' ks.
        eapply (upto_beyond (shigher (rows t) lo)); eauto. apply srt_higher; auto. lia.
        apply in_higher; auto. split; eauto. lia.
Qed.
Print Assumptions C66_range_partial.

(** Tables of the server. *)
Lemma state_std : std 1 state_schema.
Proof. split; auto. intros [|[|i]] H; auto; lia. Qed.
Definition ops : list top := [TWrite [7; 0] [70]; TWrite [3; 0] [30]; TWrite [3; 5] [35]; TWrite [9; 0] [90];
                              TDelete 9; TWrite [3; 0] [31]].
Lemma ops_ok : Forall (op_ok 1) ops.
Proof. repeat constructor; cbn; try lia; try discriminate. Qed.
Example C66_case : Forall (op_ok 1) ops /\
  (do t <- trun (Table state_schema []) ops; server_range t None) =
  Ok [([3; 0], [31]); ([3; 5], [35]); ([7; 0], [70])].
Proof. split. apply ops_ok. reflexivity. Qed.

(** A range read returns a row outside the range. *)
Theorem C66_range_refuted :
  ~ (forall d s os lo hi, (1 <= d)%nat -> std d s -> Forall (op_ok d) os -> lo <= hi ->
       exists t, trun (Table s []) os = Ok t /\
         exists cs, server_range t (Some (lo, hi)) = Ok cs /\ lists (map_of os) (rows_between lo hi) cs).
Proof.
  intros H. destruct (H 1%nat state_schema ops 0 4) as (t & E & cs & R & A & C); try lia; auto using state_std, ops_ok.
  vm_compute in E. inversion E; subst t. vm_compute in R. inversion R; subst cs.
  destruct (proj1 (C [7; 0] [70])) as [_ (k & r & Ep & Hk)]. right; right; left; auto. inversion Ep; subst. lia.
Qed.
Print Assumptions C66_range_refuted.

(** With the server's schema: reading a range of the cells of a row ends the server. *)
Theorem C66_cell_range_refuted :
  exists os t, Forall (op_ok 1) os /\ trun (Table state_schema []) os = Ok t /\
    forall lo hi, lo <= 0 -> server_range_clustering t 3 [] lo hi = M_Queue.abort.
Proof.
  exists [TWrite [3; 0] [30]]. eexists. split. repeat constructor; cbn; try lia; discriminate. split. reflexivity.
  intros lo hi H. cbv - [Z.ltb]. replace (0 <? lo) with false by lia. reflexivity.
Qed.
Print Assumptions C66_cell_range_refuted.

(** So does reading a cell that has fewer columns than the schema has, keys included; the
    runtime's cells have one. *)
Theorem C66_cell_refuted :
  exists os t, Forall (op_ok 1) os /\ trun (Table state_schema []) os = Ok t /\
    map_of os [3; 0] = Some [30] /\ server_read t 3 [0] = M_Queue.abort.
Proof.
  exists [TWrite [3; 0] [30]]. eexists. split. repeat constructor; cbn; try lia; discriminate.
  split. reflexivity. split; reflexivity.
Qed.
Print Assumptions C66_cell_refuted.

(** Deleting a row that does not exist ends the server. *)
Theorem C66_delete_refuted : forall t pk, sget (rows t) pk = None -> server_delete t pk = M_Queue.abort.
Proof. intros t pk H. unfold server_delete, table_delete_row. rewrite H. reflexivity. Qed.
Print Assumptions C66_delete_refuted.

(** Without clustering keys the columns of a new row are lost. *)
Theorem C66_no_clustering_refuted : forall s pk data, min_cks s = O -> data <> [] ->
  exists t, server_write (Table s []) [pk] data = Ok t /\ table_search t pk = Some (Row None []).
Proof.
  intros s pk data H Hd. unfold server_write. destruct data as [|x data]; [congruence|].
  cbn [M_Queue.assert length Nat.pred]. unfold table_insert. cbn [tschema]. rewrite H. cbn [Nat.leb M_Queue.assert].
  replace (1 + Z.of_nat 0 <? zlen ([pk] ++ x :: data)) with true.
  2: { symmetry. apply Z.ltb_lt. unfold zlen. cbn [app length]. lia. }
  cbn. eexists. split. reflexivity. unfold table_search. cbn. rewrite Z.eqb_refl. auto.
Qed.
Print Assumptions C66_no_clustering_refuted.

(** With more clustering keys than the schema's, the path under which the cell is stored is
    not the one it was written with. *)
Theorem C66_deep_refuted : exists t, server_write (Table state_schema []) [3; 1; 2] [30] = Ok t /\
  table_search_clustering t 3 [1; 2] = Ok None /\
  option_map cols (match table_search_clustering t 3 [1; 1] with Ok p => p | _ => None end) = Some [30].
Proof. eexists. split. reflexivity. split; reflexivity. Qed.
Print Assumptions C66_deep_refuted.

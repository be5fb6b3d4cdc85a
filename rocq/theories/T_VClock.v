(** Theorems about vector clocks (C40) and node ids (C61). *)
From Verif Require Import Base M_VClock S_VClock P_VClock P_VClock2.

(** Every history of calls on any number of clocks behaves like finite maps, provided
    that at most 15 node ids occur and counters stay below 2^31.  Without these provisos:
    [C40_refuted]. *)
Theorem C40_history_partial : forall junk v0 nodes ops,
  init_empty_vc = Ok v0 ->
  zlen nodes <= 15 ->
  (forall o id, In o ops -> op_id o = Some id -> In id nodes) ->
  (forall i id c, In (Add i id c) ops -> c <= 2 ^ 30) ->
  zlen ops < 2 ^ 30 ->
  exists outs, exec_all junk (fun _ => v0) ops = Ok outs /\ steps (fun _ => empty) ops outs.
Proof.
  intros junk v0 nodes ops I N H1 H2 B. unfold init_empty_vc in I.
  destruct (init_ok [] sorted_nil) as (v & tl & R & W0 & L & _). rewrite R in I. injection I as ->.
  destruct (exec_all_ok junk nodes N ops (fun _ => v0) (fun _ => []) (2 ^ 30)) as (rs & E & S); auto; try lia.
  - intros i. split; [eauto|]. split; auto. intros e [].
  - intros o J. split.
    + destruct (op_id o) eqn:Q; auto. eauto.
    + destruct o; auto. eauto.
  - exists rs. split; auto.
Qed.
Print Assumptions C40_history_partial.

Example C40_history_case : forall junk v0, init_empty_vc = Ok v0 -> exists outs,
  exec_all junk (fun _ => v0)
    [New 0 5; Add 0 3 7; Incr 0 5; Copy 1 0; Incr 1 5; Compare 0 1; Add 1 9 2; Compare 0 1; Update 0 1; Compare 0 1;
     Remove 1 3; Get 1 3; Get 0 5; Incr 1 4; Send 2 1; Get 2 9] = Ok outs
  /\ outs = [0; 0; 0; 0; 0; -1; 0; -2; 0; 0; 0; -1; 2; -1; 0; 2].
Proof.
  intros junk v0 I. vm_compute in I. injection I as <-. eexists. split; [vm_compute; reflexivity|reflexivity].
Qed.

(** compare: what it returns for any two clocks. *)
Theorem C40_compare : forall a b ma mb, rep a ma -> rep b mb ->
  exists r, compare_vc (Some a) (Some b) = Ok r /\ compares ma mb r.
Proof.
  intros a b ma mb RA RB. destruct (rep_W a ma RA) as (es & tl & WA & _ & MA). destruct (rep_W b mb RB) as (ss & tl2 & WB & _ & MB).
  destruct (compare_ok a es tl b ss tl2 WA WB) as (r & E & C). exists r. split; auto.
  eapply compares_ext; [| |exact C]; auto.
Qed.
Print Assumptions C40_compare.

Lemma leq_trans : forall a b c, leq a b -> leq b c -> leq a c.
Proof. intros a b c H1 H2 id x E. destruct (H1 id x E) as (y & E2 & L). destruct (H2 id y E2) as (z & E3 & L2). exists z. split; auto. lia. Qed.
Lemma leq_refl : forall a, leq a a.
Proof. intros a id c E. exists c. split; auto. lia. Qed.
Lemma same_trans : forall a b c, same_nodes a b -> same_nodes b c -> same_nodes a c.
Proof. intros a b c H1 H2 id. rewrite (H1 id). apply H2. Qed.
Lemma same_sym : forall a b, same_nodes a b -> same_nodes b a.
Proof. intros a b H id. symmetry. apply H. Qed.

Lemma compares_fun : forall a b r r', compares a b r -> compares a b r' -> r = r'.
Proof. intros a b r r' H H'. destruct H, H'; auto; exfalso; tauto. Qed.

(** compare is a partial order on clocks: reflexive, antisymmetric (and consistent when
    its arguments are swapped), transitive. *)
Theorem C40_order : forall a b c ma mb mc, rep a ma -> rep b mb -> rep c mc ->
  compare_vc (Some a) (Some a) = Ok 0
  /\ (compare_vc (Some a) (Some b) = Ok 0 -> forall id, ma id = mb id)
  /\ (compare_vc (Some a) (Some b) = Ok 1 <-> compare_vc (Some b) (Some a) = Ok (-1))
  /\ (forall r1 r2, r1 = 0 \/ r1 = -1 -> r2 = 0 \/ r2 = -1 ->
        compare_vc (Some a) (Some b) = Ok r1 -> compare_vc (Some b) (Some c) = Ok r2 ->
        compare_vc (Some a) (Some c) = Ok (Z.min r1 r2)).
Proof.
  intros a b c ma mb mc RA RB RC.
  destruct (C40_compare a a ma ma RA RA) as (raa & Eaa & Caa).
  destruct (C40_compare a b ma mb RA RB) as (rab & Eab & Cab).
  destruct (C40_compare b a mb ma RB RA) as (rba & Eba & Cba).
  destruct (C40_compare b c mb mc RB RC) as (rbc & Ebc & Cbc).
  destruct (C40_compare a c ma mc RA RC) as (rac & Eac & Cac).
  rewrite Eaa, Eab, Eba, Ebc, Eac. split; [|split; [|split]].
  - f_equal. eapply compares_fun; [exact Caa|]. apply cmp_eq; try apply leq_refl. intros id. tauto.
  - intros X. injection X as ->. inversion Cab as [S L1 L2| | | |]; subst. intros id.
    destruct (ma id) as [x|] eqn:E.
    + destruct (L1 id x E) as (y & E2 & L). destruct (L2 id y E2) as (z & E3 & L'). rewrite E in E3. injection E3 as <-.
      rewrite E2. f_equal. lia.
    + symmetry. now apply S.
  - split; intros X; injection X as ->; f_equal.
    + eapply compares_fun; [exact Cba|]. inversion Cab; subst. apply cmp_lt; auto. now apply same_sym.
    + eapply compares_fun; [exact Cab|]. inversion Cba; subst. apply cmp_gt; auto. now apply same_sym.
  - intros r1 r2 H1 H2 X1 X2. injection X1 as ->. injection X2 as ->. f_equal.
    assert (A1 : same_nodes ma mb /\ leq ma mb /\ (r1 = 0 -> leq mb ma) /\ (r1 = -1 -> ~ leq mb ma)).
    { destruct H1; subst; inversion Cab; subst; (split; [auto|split; [auto|split; [try discriminate; auto|try discriminate; auto]]]). }
    assert (A2 : same_nodes mb mc /\ leq mb mc /\ (r2 = 0 -> leq mc mb) /\ (r2 = -1 -> ~ leq mc mb)).
    { destruct H2; subst; inversion Cbc; subst; (split; [auto|split; [auto|split; [try discriminate; auto|try discriminate; auto]]]). }
    destruct A1 as (S1 & L1 & Q1 & N1), A2 as (S2 & L2 & Q2 & N2).
    pose proof (same_trans _ _ _ S1 S2) as S3. pose proof (leq_trans _ _ _ L1 L2) as L3.
    eapply compares_fun; [exact Cac|]. destruct H1 as [-> | ->].
    + destruct H2 as [-> | ->]; cbn.
      * apply cmp_eq; auto. eapply leq_trans; eauto.
      * apply cmp_lt; auto. intros X. apply N2; auto. eapply leq_trans; eauto.
    + replace (Z.min (-1) r2) with (-1) by lia. apply cmp_lt; auto. intros X. apply N1; auto. eapply leq_trans; eauto.
Qed.
Print Assumptions C40_order.

(** NULL clocks equal each other and nothing else. *)
Theorem C40_null : forall v, compare_vc None None = Ok 0
  /\ compare_vc (Some v) None = Ok (-2) /\ compare_vc None (Some v) = Ok (-2).
Proof. intros. repeat split. Qed.
Print Assumptions C40_null.

(** update computes the least clock above both, if the array of the destination has
    room for all nodes and the counters are below 2^31. *)
Theorem C40_join_partial : forall junk d s md ms nodes, rep d md -> rep s ms ->
  (forall id, md id <> None \/ ms id <> None -> In id nodes) -> zlen nodes <= capacity d ->
  (forall id c, ms id = Some c -> 0 <= c < 2 ^ 31) ->
  exists d' m', update_vc junk d s = Ok d' /\ rep d' m'
    /\ leq md m' /\ leq ms m' /\ (forall u, leq md u -> leq ms u -> leq m' u).
Proof.
  intros junk d s md ms nodes RD RS HN LN HC.
  destruct (rep_W d md RD) as (es & tl & WD & _ & MD). destruct (rep_W s ms RS) as (ss & tl2 & WS & _ & MS).
  destruct (update_ok junk d es tl s ss tl2 nodes WD WS) as (d' & es' & tl' & E & W' & _ & M & _); auto.
  - intros [k c] J. apply HN. left. rewrite MD. apply mp_in in J; [|apply WD]. cbn. congruence.
  - intros [k c] J. apply HN. right. rewrite MS. apply mp_in in J; [|apply WS]. cbn. congruence.
  - intros [k c] J. apply (HC k c). rewrite MS. apply mp_in in J; auto. apply WS.
  - exists d', (join md ms). split; auto. split.
    { eapply W_rep; [exact W'|]. intros k. rewrite M. unfold join. now rewrite MD, MS. }
    unfold leq, join. split; [|split].
    + intros id c X. rewrite X. destruct (ms id) as [y|]; eexists; split; eauto; lia.
    + intros id c X. rewrite X. destruct (md id) as [y|]; eexists; split; eauto; lia.
    + intros u U1 U2 id c X. destruct (md id) as [x|] eqn:E1, (ms id) as [y|] eqn:E2; try discriminate.
      * injection X as <-. destruct (U1 _ _ E1) as (a & A & L1). destruct (U2 _ _ E2) as (b & B & L2).
        exists a. split; auto. rewrite A in B. injection B as <-. lia.
      * injection X as <-. eauto.
      * injection X as <-. eauto.
Qed.
Print Assumptions C40_join_partial.

Lemma leq_ext : forall a b a' b', (forall k, a k = a' k) -> (forall k, b k = b' k) -> leq a b -> leq a' b'.
Proof. intros a b a' b' H1 H2 L id c X. rewrite <- H1 in X. destruct (L _ _ X) as (y & Y & Q). exists y. rewrite <- H2. auto. Qed.

(** increment makes a clock strictly larger. *)
Theorem C40_increment : forall v m id c, rep v m -> m id = Some c -> c + 1 < 2 ^ 63 ->
  exists v', increment_vc v id = Ok (v', 0)
    /\ rep v' (fun k => if k =? id then Some (c + 1) else m k)
    /\ compare_vc (Some v) (Some v') = Ok (-1).
Proof.
  intros v m id c R E B. destruct (rep_W v m R) as (es & tl & H & _ & M).
  pose proof (increment_ok v es tl id H) as IO. rewrite <- M, E in IO.
  destruct (IO B) as (v' & es' & R' & H' & _ & MP). exists v'. split; auto.
  assert (RV : rep v' (fun k => if k =? id then Some (c + 1) else m k)).
  { eapply W_rep; [exact H'|]. intros k. rewrite MP. unfold set. rewrite M. reflexivity. }
  split; auto. destruct (C40_compare v v' _ _ R RV) as (r & Er & C). rewrite Er. f_equal.
  eapply compares_fun; [exact C|]. apply cmp_lt.
  - intros k. destruct (k =? id) eqn:K; [|tauto]. apply Z.eqb_eq in K. subst. split; congruence.
  - intros k x X. destruct (k =? id) eqn:K; [|exists x; split; auto; lia]. apply Z.eqb_eq in K. subst.
    exists (c + 1). split; auto. rewrite E in X. injection X as <-. lia.
  - intros L. destruct (L id (c + 1)) as (y & Y & Q); [now rewrite Z.eqb_refl|]. rewrite E in Y. injection Y as <-. lia.
Qed.
Print Assumptions C40_increment.

(** Creating a clock from distinct node ids in any order, with sorting. *)
Theorem C40_init : forall pairs, NoDup (map fst pairs) ->
  (forall x y, In x pairs -> In y pairs -> - 2 ^ 31 <= fst x - fst y < 2 ^ 31) ->
  exists v m, init_vc pairs true = Ok v /\ rep v m /\ forall id c, m id = Some c <-> In (id, c) pairs.
Proof.
  intros pairs N B. destruct (qsort_ok pairs N B) as (l & E & S & L & I). unfold init_vc. rewrite E. cbn [bindr].
  eexists _, (mp l). split; [reflexivity|]. split.
  - eapply W_rep; [|reflexivity]. repeat split; auto. cbn [vn]. unfold zlen. now rewrite L.
  - intros id c. rewrite mp_in by auto. apply I.
Qed.
Print Assumptions C40_init.

Example C40_case : exists v m v', init_vc [(7, 4); (2, 0); (5, 1)] true = Ok v /\ rep v m /\ m 7 = Some 4
  /\ increment_vc v 2 = Ok (v', 0) /\ compare_vc (Some v) (Some v') = Ok (-1).
Proof.
  destruct (C40_init [(7, 4); (2, 0); (5, 1)]) as (v & m & E & R & M).
  - repeat constructor; cbn; lia.
  - cbn. intros x y [<-|[<-|[<-|[]]]] [<-|[<-|[<-|[]]]]; cbn; lia.
  - exists v, m. destruct (C40_increment v m 2 0 R) as (v' & E1 & _ & C); [apply M; cbn; auto|reflexivity|].
    exists v'. split; [exact E|]. split; [exact R|]. split; [apply M; cbn; auto|]. split; auto.
Qed.

(** (1) A merge is not above its argument in the order compare computes, when the
    destination knows a node the source does not.  (2) A counter of 2^31 received for a
    new node is taken over as 0; one of 2^32 + 5 as 5.  (3) With 16 nodes in the array
    (it is full), merging a clock with a larger new node id reads past the array, and
    (4) removing a node does too. *)
Theorem C40_refuted : forall junk,
  (exists d s d', init_vc [(1, 3); (2, 3)] false = Ok d /\ init_vc [(1, 4)] false = Ok s
     /\ update_vc junk d s = Ok d' /\ compare_vc (Some s) (Some d') = Ok (-2))
  /\ (exists d s d', init_vc [] false = Ok d /\ init_vc [(1, 2 ^ 31); (2, 2 ^ 32 + 5)] false = Ok s
     /\ update_vc junk d s = Ok d' /\ get_component_vc d' 1 = Ok 0 /\ get_component_vc d' 2 = Ok 5)
  /\ (exists d s, init_empty_vc = Ok (VC 0 (repeat (0, 0) 16))
     /\ fold_left (fun r i => do v <- r; do (v1, _) <- add_component_vc junk v i 1; Ok v1)
          [1; 2; 3; 4; 5; 6; 7; 8; 9; 10; 11; 12; 13; 14; 15; 16] init_empty_vc = Ok d
     /\ init_local_vc_id 17 = Ok s /\ update_vc junk d s = UB
     /\ remove_component_vc d 3 = UB).
Proof.
  intros junk. split; [|split].
  - eexists _, _, _. split; [vm_compute; reflexivity|]. split; [vm_compute; reflexivity|].
    split; [vm_compute; reflexivity|vm_compute; reflexivity].
  - eexists _, _, _. split; [vm_compute; reflexivity|]. split; [vm_compute; reflexivity|].
    split; [vm_compute; reflexivity|]. split; vm_compute; reflexivity.
  - eexists _, _. split; [vm_compute; reflexivity|]. split; [vm_compute; reflexivity|].
    split; [vm_compute; reflexivity|]. split; vm_compute; reflexivity.
Qed.
Print Assumptions C40_refuted.

(** Node ids: servers whose IPv4 addresses agree in the upper 16 bits get different
    ids unless they are the same server ... *)
Theorem C61_node_id_partial : forall a1 p1 a2 p2,
  inU 32 a1 -> inU 32 a2 -> inU 16 p1 -> inU 16 p2 -> a1 / 2 ^ 16 = a2 / 2 ^ 16 ->
  get_node_id a1 p1 = get_node_id a2 p2 -> a1 = a2 /\ p1 = p2.
Proof.
  unfold inU, get_node_id. intros a1 p1 a2 p2 HA1 HA2 HP1 HP2 Q.
  assert (L : forall a p, 0 <= a < 2 ^ 32 -> 0 <= p < 2 ^ 16 ->
     Z.lor (wrapU 32 (Z.shiftl a 16)) p = (a mod 2 ^ 16) * 2 ^ 16 + p).
  { intros a p A P. assert (wrapU 32 (Z.shiftl a 16) = Z.shiftl (a mod 2 ^ 16) 16) as ->.
    { unfold wrapU. rewrite !Z.shiftl_mul_pow2 by lia. change (2 ^ 32) with (2 ^ 16 * 2 ^ 16).
      rewrite Z.mul_mod_distr_r by lia. reflexivity. }
    rewrite <- Z.shiftl_mul_pow2 by lia.
    assert (LD : Z.land (Z.shiftl (a mod 2 ^ 16) 16) p = 0); [|rewrite Z.add_nocarry_lxor by exact LD; symmetry; now apply Z.lxor_lor].
    apply Z.bits_inj'. intros n Hn. rewrite Z.land_spec, Z.bits_0, Z.shiftl_spec by lia.
    destruct (Z.ltb_spec n 16).
    - rewrite Z.testbit_neg_r by lia. reflexivity.
    - replace (Z.testbit p n) with false; [now rewrite andb_false_r|].
      symmetry. rewrite <- (Z.mod_small p (2 ^ 16)) by lia. now apply Z.mod_pow2_bits_high. }
  rewrite !L by lia. unfold wrapS. change (32 - 1) with 31.
  pose proof (Z.mod_pos_bound a1 (2 ^ 16) ltac:(lia)). pose proof (Z.mod_pos_bound a2 (2 ^ 16) ltac:(lia)).
  pose proof (Z.div_mod a1 (2 ^ 16) ltac:(lia)). pose proof (Z.div_mod a2 (2 ^ 16) ltac:(lia)).
  set (x := a1 mod 2 ^ 16) in *. set (y := a2 mod 2 ^ 16) in *. intros E.
  assert (x * 2 ^ 16 + p1 = y * 2 ^ 16 + p2).
  { assert (X : forall u, 0 <= u < 2 ^ 32 -> (u + 2 ^ 31) mod 2 ^ 32 = if u <? 2 ^ 31 then u + 2 ^ 31 else u - 2 ^ 31).
    { intros u Hu. destruct (Z.ltb_spec u (2 ^ 31)); [apply Z.mod_small; lia|].
      symmetry. apply (Z.mod_unique _ _ 1); lia. }
    rewrite !X in E by lia. destruct (Z.ltb_spec (x * 2 ^ 16 + p1) (2 ^ 31)), (Z.ltb_spec (y * 2 ^ 16 + p2) (2 ^ 31)); lia. }
  assert (x = y) by lia. split; lia.
Qed.
Print Assumptions C61_node_id_partial.

Example C61_case : inU 32 3232235777 /\ inU 16 32001 /\ get_node_id 3232235777 32001 <> get_node_id 3232235778 32001.
Proof. split; [|split]; [unfold inU; lia|unfold inU; lia|vm_compute; discriminate]. Qed.

(** ... but 10.0.0.1 and 10.1.0.1 (and any two that agree in the lower 16 bits) with the
    same port are taken for the same server. *)
Theorem C61_node_id_refuted :
  get_node_id (10 * 2 ^ 24 + 1) 32000 = get_node_id (10 * 2 ^ 24 + 2 ^ 16 + 1) 32000.
Proof. reflexivity. Qed.
Print Assumptions C61_node_id_refuted.

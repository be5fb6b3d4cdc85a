(** Proofs about tables (M_Table, S_Table). *)
From Verif Require Import Base M_Table S_Table P_Base P_Bmh.
From Coq Require Import Lia ZifyBool.

Fixpoint srt {A} (l : list (Z * A)) : Prop :=
  match l with
  | [] => True
  | (k, _) :: t => (forall j y, In (j, y) t -> k < j) /\ srt t
  end.

Section Assoc.
Context {A : Type}.
Implicit Types (l : list (Z * A)) (x y : A).

Lemma sget_put l k x : sget (sput l k x) k = Some x.
Proof.
  induction l as [|[j y] l IH]; cbn [sput sget]. rewrite Z.eqb_refl. auto.
  destruct (j <? k) eqn:E. cbn [sget]. replace (j =? k) with false by lia. auto.
  destruct (j =? k) eqn:E2; cbn [sget]. rewrite E2. auto. rewrite Z.eqb_refl. auto.
Qed.

Lemma sget_put_o l k x i : i <> k -> sget (sput l k x) i = sget l i.
Proof.
  intros Hi. induction l as [|[j y] l IH]; cbn [sput sget].
  replace (k =? i) with false by lia. auto.
  destruct (j <? k) eqn:E. cbn [sget]. rewrite IH. auto.
  destruct (j =? k) eqn:E2; cbn [sget].
  - replace (j =? i) with false by lia. auto.
  - replace (k =? i) with false by lia. auto.
Qed.

Lemma in_put l k x i y : In (i, y) (sput l k x) -> (i = k /\ y = x) \/ In (i, y) l.
Proof.
  induction l as [|[j z] l IH]; cbn [sput]; intros H.
  - destruct H as [H|[]]. inversion H. auto.
  - destruct (j <? k) eqn:E.
    + destruct H as [H|H]. right. left. auto. destruct (IH H); auto. right. right. auto.
    + destruct (j =? k) eqn:E2.
      * destruct H as [H|H]. inversion H; subst. left. split; [lia|auto]. right. right. auto.
      * destruct H as [H|H]. inversion H. auto. right. auto.
Qed.

Lemma srt_put l k x : srt l -> srt (sput l k x).
Proof.
  induction l as [|[j z] l IH]; cbn [sput srt]; intros H. split; [intros ? ? []|auto].
  destruct H as [Hj Hs]. destruct (j <? k) eqn:E.
  - split; [|auto]. intros i y Hi. apply in_put in Hi as [[-> _]|Hi]. lia. eauto.
  - destruct (j =? k) eqn:E2; cbn [srt].
    + auto.
    + split; [|auto]. intros i y [Hi|Hi]. inversion Hi. lia.
      specialize (Hj _ _ Hi). lia.
Qed.

Lemma put_nil l k x : sput l k x <> [].
Proof. destruct l as [|[j z] l]; cbn [sput]. discriminate. destruct (j <? k), (j =? k); discriminate. Qed.

Lemma sget_in l k x : srt l -> (sget l k = Some x <-> In (k, x) l).
Proof.
  induction l as [|[j y] l IH]; cbn [sget srt]; intros H. split; [discriminate|intros []].
  destruct H as [Hj Hs]. destruct (j =? k) eqn:E.
  - apply Z.eqb_eq in E. subst. split. intros H. inversion H. left. auto.
    intros [H|H]. inversion H. auto. specialize (Hj _ _ H). lia.
  - rewrite IH by auto. split. right. auto. intros [H|H]; auto. inversion H. lia.
Qed.

Lemma sget_none l k : sget l k = None -> forall x, ~ In (k, x) l.
Proof.
  induction l as [|[j y] l IH]; cbn [sget]; intros H x Hx. auto.
  destruct (j =? k) eqn:E. discriminate. destruct Hx as [Hx|Hx]. inversion Hx. lia.
  eapply IH; eauto.
Qed.

Lemma in_del l k i x : In (i, x) (sdel l k) -> In (i, x) l.
Proof.
  induction l as [|[j y] l IH]; cbn [sdel]; auto. destruct (j =? k). right; auto.
  intros [H|H]. left; auto. right; auto.
Qed.
Lemma srt_del l k : srt l -> srt (sdel l k).
Proof.
  induction l as [|[j y] l IH]; cbn [sdel srt]; auto. intros [Hj Hs]. destruct (j =? k). auto.
  cbn [srt]. split; auto. intros i z H. apply in_del in H. eauto.
Qed.
Lemma sget_del l k : srt l -> sget (sdel l k) k = None.
Proof.
  induction l as [|[j y] l IH]; cbn [sdel srt sget]; auto. intros [Hj Hs]. destruct (j =? k) eqn:E.
  - destruct (sget l k) eqn:G; auto. apply sget_in in G; auto. specialize (Hj _ _ G). lia.
  - cbn [sget]. rewrite E. auto.
Qed.
Lemma sget_del_o l k i : i <> k -> sget (sdel l k) i = sget l i.
Proof.
  intros Hi. induction l as [|[j y] l IH]; cbn [sdel sget]; auto. destruct (j =? k) eqn:E.
  - replace (j =? i) with false by lia. auto.
  - cbn [sget]. rewrite IH. auto.
Qed.

Lemma in_higher l k i x : srt l -> (In (i, x) (shigher l k) <-> In (i, x) l /\ k <= i).
Proof.
  induction l as [|[j y] l IH]; cbn [shigher srt]; intros H. split; [intros []|intros [[] _]].
  destruct H as [Hj Hs]. destruct (j <? k) eqn:E.
  - rewrite IH by auto. cbn [In]. split. intros []; auto. intros [[H|H] Hk]; auto. inversion H. lia.
  - cbn [In]. split; [|intros [H _]; auto]. intros [H|H]; (split; [auto|]). inversion H. lia.
    specialize (Hj _ _ H). lia.
Qed.
Lemma srt_higher l k : srt l -> srt (shigher l k).
Proof.
  induction l as [|[j y] l IH]; cbn [shigher srt]; auto. intros [Hj Hs]. destruct (j <? k); auto.
  cbn [srt]. auto.
Qed.

Lemma upto_in l hi i x : In (i, x) (upto l hi) -> In (i, x) l.
Proof.
  induction l as [|a l IH]; cbn [upto]; auto. destruct l as [|b l]; auto.
  destruct (fst a <? hi). intros [H|H]. left; auto. right; auto.
  intros [H|[]]. left. auto.
Qed.
Lemma srt_upto l hi : srt l -> srt (upto l hi).
Proof.
  induction l as [|a l IH]; cbn [upto]; auto. intros H. destruct l as [|b l]; auto.
  destruct a as [j y]. cbn [fst]. destruct H as [Hj Hs]. destruct (j <? hi); cbn [srt].
  - split; auto. intros i z Hi. apply upto_in in Hi. eauto.
  - split; [intros ? ? []|auto].
Qed.
Lemma in_upto l hi i x : srt l -> In (i, x) l -> i <= hi -> In (i, x) (upto l hi).
Proof.
  induction l as [|a l IH]; cbn [upto]; auto. intros H Hin Hi. destruct l as [|b l]; auto.
  destruct a as [j y]. cbn [fst]. destruct H as [Hj Hs]. destruct (j <? hi) eqn:E.
  - destruct Hin as [Hin|Hin]. left; auto. right; auto.
  - destruct Hin as [Hin|Hin]. left; auto. specialize (Hj _ _ Hin). lia.
Qed.
(** A row beyond the end is the last, and is the first stored at or beyond the end. *)
Lemma upto_beyond l hi i x : srt l -> In (i, x) (upto l hi) -> hi < i ->
  forall j y, In (j, y) l -> hi <= j -> i <= j.
Proof.
  induction l as [|a l IH]; cbn [upto]; intros H Hin Hi j y Hj Hhj. destruct Hin.
  destruct l as [|b l].
  - destruct Hin as [->|[]]. destruct Hj as [Hj|[]]. inversion Hj. lia.
  - destruct a as [k z]. cbn [fst] in Hin. destruct H as [Hk Hs]. destruct (k <? hi) eqn:E.
    + destruct Hin as [Hin|Hin]. inversion Hin; lia. destruct Hj as [Hj|Hj]. inversion Hj; lia. eauto.
    + destruct Hin as [Hin|[]]. inversion Hin; subst. destruct Hj as [Hj|Hj]. inversion Hj; lia.
      specialize (Hk _ _ Hj). lia.
Qed.
End Assoc.

Lemma same_ok p q : same p q = true <-> p = q.
Proof.
  revert q. induction p as [|x p IH]; intros [|y q]; cbn [same]; try (split; congruence).
  rewrite Bool.andb_true_iff, IH, Z.eqb_eq. split. intros [-> ->]; auto. intros H; inversion H; auto.
Qed.
Lemma same_refl p : same p p = true. Proof. apply same_ok. auto. Qed.

(** Rows of depth [d]. *)
Fixpoint wf (d : nat) (r : row) : Prop :=
  match d with
  | O => cells r = None /\ cols r <> []
  | S d => exists l, cells r = Some l /\ l <> [] /\ srt l /\ Forall (fun x => wf d (snd x)) l
  end.
(** The same, possibly still empty. *)
Definition pre (d : nat) (r : row) : Prop :=
  match d with
  | O => cells r = None
  | S d => exists l, cells r = Some l /\ srt l /\ Forall (fun x => wf d (snd x)) l
  end.
Lemma wf_pre d r : wf d r -> pre d r.
Proof. destruct d; cbn. tauto. intros (l & H1 & H2 & H3 & H4). eauto. Qed.

Fixpoint val (r : row) (ks : list Z) : option (list Z) :=
  match ks with
  | [] => Some (cols r)
  | k :: ks => match cells r with
               | Some l => match sget l k with Some c => val c ks | None => None end
               | None => None
               end
  end.

Lemma Forall_put {A} (P : Z * A -> Prop) l k x :
  Forall P l -> P (k, x) -> Forall P (sput l k x).
Proof.
  rewrite !Forall_forall. intros H Hx [i y] Hi. apply in_put in Hi as [[-> ->]|Hi]; auto.
Qed.

Lemma put_ok ks : forall d r data, pre d r -> length ks = d -> data <> [] ->
  exists r', put r ks data = Ok r' /\ wf d r' /\
    forall q, length q = d -> val r' q = if same q ks then Some data else val r q.
Proof.
  induction ks as [|k ks IH]; intros d r data Hp Hl Hd.
  - subst d. cbn in Hp. exists (Row None data). cbn [put]. rewrite Hp. cbn.
    split; auto. split; auto. intros [|? ?] Hq; [auto|discriminate].
  - destruct d as [|d]; [discriminate|]. assert (Hl' : length ks = d) by (cbn in Hl; lia). destruct Hp as (l & Hc & Hs & Hf).
    set (c := match sget l k with Some c => c | None => Row (match ks with [] => None | _ => Some [] end) [] end).
    assert (Hpc : pre d c).
    { unfold c. destruct (sget l k) eqn:G.
      - apply wf_pre. rewrite Forall_forall in Hf. apply sget_in in G; auto. apply (Hf _ G).
      - destruct ks as [|k2 ks]; cbn in Hl'; subst d; cbn. auto. exists []. cbn. auto. }
    destruct (IH d c data Hpc Hl' Hd) as (c' & P & W & V).
    exists (Row (Some (sput l k c')) (cols r)). cbn [put]. rewrite Hc. cbn [orUB bindr]. fold c. rewrite P. cbn [bindr].
    split; auto. split.
    + cbn [wf cells]. exists (sput l k c'). split; [reflexivity|]. split; [apply put_nil|]. split; [apply srt_put; auto|]. apply Forall_put; auto.
    + intros [|k' q] Hq; [discriminate|]. cbn [val cells same]. rewrite Hc.
      destruct (Z.eq_dec k' k) as [->|N].
      * rewrite sget_put, Z.eqb_refl. cbn [andb]. rewrite V by (cbn in Hq; lia).
        destruct (same q ks) eqn:S; auto. unfold c. destruct (sget l k); auto.
        destruct ks as [|k2 ks].
        -- destruct q; [discriminate|cbn in Hq; cbn in Hl'; lia].
        -- destruct q; [cbn in Hq; cbn in Hl'; lia|]. reflexivity.
      * rewrite sget_put_o by auto. replace (k' =? k) with false by lia. auto.
Qed.

Lemma new_row_ok ks : forall data, ks <> [] -> data <> [] ->
  wf (length ks) (new_row ks data) /\
  forall q, length q = length ks -> val (new_row ks data) q = if same q ks then Some data else None.
Proof.
  induction ks as [|k ks IH]; intros data Hk Hd. contradiction.
  destruct ks as [|k2 ks].
  - cbn [new_row length]. split.
    + cbn. eexists. split; [reflexivity|]. split; [discriminate|]. split; [split; [intros ? ? []|exact I]|].
      constructor; [|constructor]. cbn. auto.
    + intros [|k' [|? ?]] Hq; try discriminate. cbn. destruct (k' =? k) eqn:E.
      * apply Z.eqb_eq in E. subst. rewrite Z.eqb_refl. auto.
      * replace (k =? k') with false by lia. auto.
  - destruct (IH data ltac:(discriminate) Hd) as (W & V).
    change (new_row (k :: k2 :: ks) data) with (Row (Some [(k, new_row (k2 :: ks) data)]) []).
    split.
    + change (length (k :: k2 :: ks)) with (S (length (k2 :: ks))). cbn [wf].
      eexists. split; [reflexivity|]. split; [discriminate|]. split; [split; [intros ? ? []|exact I]|].
      constructor; [exact W|constructor].
    + intros [|k' q] Hq; [discriminate|]. cbn [val cells sget].
      change (same (k' :: q) (k :: k2 :: ks)) with ((k' =? k) && same q (k2 :: ks)).
      destruct (Z.eq_dec k' k) as [->|N].
      * rewrite Z.eqb_refl. cbn [andb]. rewrite V; auto.
      * replace (k =? k') with false by lia. replace (k' =? k) with false by lia. auto.
Qed.

Lemma descend_ok ks : forall d r, wf d r -> length ks = d ->
  exists p, descend r ks = Ok p /\ option_map cols p = val r ks.
Proof.
  induction ks as [|k ks IH]; intros d r W Hl; subst d.
  - exists (Some r). auto.
  - cbn [length wf] in W. destruct W as (l & Hc & Hn & Hs & Hf). cbn [descend val]. rewrite Hc. cbn [orUB bindr].
    destruct (sget l k) eqn:G.
    + apply (IH (length ks)); auto. apply sget_in in G; auto. rewrite Forall_forall in Hf. apply (Hf _ G).
    + exists None. auto.
Qed.

Definition twf (d : nat) (t : table) : Prop :=
  std d (tschema t) /\ srt (rows t) /\ Forall (fun x => wf d (snd x)) (rows t).

Definition tval (t : table) (p : list Z) : option (list Z) :=
  match p with
  | [] => None
  | pk :: ks => match sget (rows t) pk with Some r => val r ks | None => None end
  end.

Lemma cks_ok s d vals n : forall i ks, std d s -> (i + n = d)%nat ->
  length ks = n -> (forall j, (j < n)%nat -> zget vals (Z.of_nat (S (i + j))) = nth_error ks j) ->
  cks s vals i n = Ok ks.
Proof.
  induction n as [|n IH]; intros i ks Hs Hi Hl Hv.
  - destruct ks; [auto|discriminate].
  - destruct ks as [|k ks]; [discriminate|]. cbn [cks]. unfold col_index. destruct Hs as [H1 H2].
    rewrite H1. replace (i <? d)%nat with true by (symmetry; apply Nat.ltb_lt; lia).
    rewrite H2 by lia. cbn [orUB bindr].
    pose proof (Hv O ltac:(lia)) as H0. rewrite Nat.add_0_r in H0. rewrite H0. cbn [nth_error orUB bindr].
    rewrite (IH (S i) ks); [auto|split; auto|lia|cbn in Hl; lia|].
    intros j Hj. specialize (Hv (S j) ltac:(lia)). cbn [nth_error] in Hv. rewrite <- Hv. f_equal. lia.
Qed.

Lemma zget_cons {A} (x : A) l i : 0 <= i -> zget (x :: l) (i + 1) = zget l i.
Proof.
  intros H. unfold zget. replace (i + 1 <? 0) with false by lia. replace (i <? 0) with false by lia.
  replace (Z.to_nat (i + 1)) with (S (Z.to_nat i)) by lia. auto.
Qed.

Lemma insert_ok d t pk ks data : (1 <= d)%nat -> twf d t -> length ks = d -> data <> [] ->
  exists t', server_write t (pk :: ks) data = Ok t' /\ twf d t' /\ tschema t' = tschema t /\
    forall p, length p = S d -> tval t' p = if same p (pk :: ks) then Some data else tval t p.
Proof.
  intros Hd (Hs & Hr & Hf) Hl Hda.
  unfold server_write. replace (match data with [] => false | _ => true end) with true by (destruct data; congruence).
  cbn [M_Queue.assert length Nat.pred]. unfold table_insert.
  destruct Hs as [Hm Hx]. rewrite Hm, Hl, Nat.leb_refl. cbn [M_Queue.assert].
  replace (1 + Z.of_nat d <? zlen ((pk :: ks) ++ data)) with true.
  2: { symmetry. apply Z.ltb_lt. unfold zlen. rewrite app_length. cbn [length]. destruct data; [congruence|]. cbn [length]. lia. }
  cbn [M_Queue.assert]. cbn [app]. change (zget (pk :: ks ++ data) 0) with (Some pk). cbn [orUB bindr].
  rewrite (cks_ok (tschema t) d (pk :: ks ++ data) d 0 ks); [|split; auto|lia|auto|].
  2: { intros j Hj. rewrite Nat.add_0_l. replace (Z.of_nat (S j)) with (Z.of_nat j + 1) by lia.
       rewrite zget_cons by lia. unfold zget. replace (Z.of_nat j <? 0) with false by lia. rewrite Nat2Z.id.
       apply nth_error_app1. lia. }
  cbn [bindr]. replace (skipn (1 + d) (pk :: ks ++ data)) with data.
  2: { cbn [skipn Nat.add]. rewrite skipn_app, <- Hl, skipn_all, Nat.sub_diag. auto. }
  assert (exists r', match sget (rows t) pk with None => Ok (new_row ks data) | Some r => put r ks data end = Ok r'
            /\ wf d r' /\ forall q, length q = d -> val r' q = if same q ks then Some data else tval t (pk :: q)) as (r' & E & W & V).
  { cbn [tval]. destruct (sget (rows t) pk) as [r|] eqn:G.
    - apply put_ok; auto. apply wf_pre. apply sget_in in G; auto. rewrite Forall_forall in Hf. apply (Hf _ G).
    - exists (new_row ks data). destruct (new_row_ok ks data) as (W & V); auto. destruct ks; cbn in Hl; [lia|discriminate].
      rewrite Hl in *. auto. }
  rewrite E. cbn [bindr]. eexists. split; [reflexivity|]. split; [|split; [reflexivity|]].
  - split. split; auto. split. apply srt_put; auto. apply Forall_put; auto.
  - intros [|k q] Hp; [discriminate|]. cbn [tval rows same]. destruct (Z.eq_dec k pk) as [->|N].
    + rewrite sget_put, Z.eqb_refl. cbn [andb]. rewrite V by (cbn in Hp; lia). auto.
    + rewrite sget_put_o by auto. replace (k =? pk) with false by lia. auto.
Qed.

Lemma delete_ok d t pk : twf d t ->
  twf d (fst (table_delete_row t pk)) /\ tschema (fst (table_delete_row t pk)) = tschema t /\
  forall p, length p = S d -> tval (fst (table_delete_row t pk)) p
            = if same (firstn 1 p) [pk] then None else tval t p.
Proof.
  intros (Hs & Hr & Hf). unfold table_delete_row. destruct (sget (rows t) pk) eqn:G; cbn [fst].
  - split; [|split]; auto.
    + split; auto. split. apply srt_del; auto. rewrite Forall_forall in *. intros [i x] Hi.
      apply in_del in Hi. auto.
    + intros [|k q] Hp; [discriminate|]. cbn [firstn tval rows same]. rewrite Bool.andb_true_r.
      destruct (Z.eq_dec k pk) as [->|N].
      * rewrite sget_del, Z.eqb_refl; auto.
      * rewrite sget_del_o by auto. replace (k =? pk) with false by lia. auto.
  - split; [|split]; auto. split; auto.
    intros [|k q] Hp; [discriminate|]. cbn [firstn tval same]. rewrite Bool.andb_true_r.
    destruct (Z.eq_dec k pk) as [->|N].
    + rewrite G, Z.eqb_refl. auto.
    + replace (k =? pk) with false by lia. auto.
Qed.

Definition keys64 (t : table) : Prop := forall k r, In (k, r) (rows t) -> - 2 ^ 63 <= k < 2 ^ 63 - 1.

Lemma tval_keys t pk ks data t' : server_write t (pk :: ks) data = Ok t' ->
  - 2 ^ 63 <= pk < 2 ^ 63 - 1 -> keys64 t -> keys64 t'.
Proof.
  unfold server_write, table_insert. intros H Hk K.
  destruct data as [|d0 data]; [discriminate|]. cbn [M_Queue.assert] in H.
  destruct (_ <=? _)%nat in H; [|discriminate]. cbn [M_Queue.assert] in H.
  destruct (_ <? _) in H; [|discriminate]. cbn [M_Queue.assert] in H.
  change (zget ((pk :: ks) ++ d0 :: data) 0) with (Some pk) in H. cbn [orUB bindr] in H.
  destruct (cks _ _ _ _) in H; try discriminate. cbn [bindr] in H.
  destruct (match sget (rows t) pk with Some _ => _ | None => _ end) in H; try discriminate.
  cbn [bindr] in H. inversion H. intros i x Hi. cbn [rows] in Hi. apply in_put in Hi as [[-> _]|Hi]; eauto.
Qed.

Lemma run_ok d os : (1 <= d)%nat -> forall t, twf d t -> keys64 t -> Forall (op_ok d) os ->
  exists t', trun t os = Ok t' /\ twf d t' /\ tschema t' = tschema t /\ keys64 t' /\
    forall p, length p = S d -> tval t' p = fold_left after os (tval t) p.
Proof.
  intros Hd. unfold trun. induction os as [|o os IH]; intros t W K F.
  - exists t. cbn. auto.
  - inversion F as [|? ? Ho Fo]; subst. cbn [fold_left].
    assert (exists t1, trun1 (Ok t) o = Ok t1 /\ twf d t1 /\ tschema t1 = tschema t /\ keys64 t1 /\
              forall p, length p = S d -> tval t1 p = after (tval t) o p) as (t1 & E & W1 & S1 & K1 & V1).
    { unfold trun1. cbn [bindr]. destruct o as [p data|pk].
      - destruct Ho as (Hp & Hda & Hk). destruct p as [|pk ks]; [discriminate|].
        destruct (insert_ok d t pk ks data) as (t' & E & W' & S' & V); auto.
        exists t'. rewrite E. split; auto. split; auto. split; auto. split; auto.
        eapply tval_keys; eauto. cbn in Hk. inversion Hk; auto.
      - destruct (delete_ok d t pk W) as (W' & S' & V). eexists. split; [reflexivity|].
        split; auto. split; auto. split; auto.
        intros k r Hi. unfold table_delete_row in Hi. destruct (sget (rows t) pk); cbn [fst rows] in Hi.
        apply in_del in Hi. eauto. eauto. }
    rewrite E. destruct (IH t1 W1 K1 Fo) as (t2 & E2 & W2 & S2 & K2 & V2).
    exists t2. split; auto. split; auto. split; [congruence|]. split; auto.
    intros p Hp. rewrite V2 by auto.
    clear - V1 Hp. assert (forall (m m' : contents), (forall q, length q = S d -> m q = m' q) ->
      forall q, length q = S d -> fold_left after os m q = fold_left after os m' q) as H.
    { induction os as [|o' os IH]; intros m m' Hm q Hq; cbn [fold_left]; auto.
      apply IH; auto. intros q' Hq'. unfold after. destruct o'.
      - destruct (same q' path); auto.
      - destruct (same (firstn 1 q') [pk]); auto. }
    apply H; auto.
Qed.

(** * Reading whole rows *)

Fixpoint go (l : list (Z * row)) (path : list Z) (size sk : Z) : res (list cell) :=
  match l with
  | [] => Ok []
  | (k, c) :: t => do a <- serialize_cells c k path size sk;
                   do b <- go t path size sk; Ok (a ++ b)
  end.

Lemma serialize_node l c key path size sk : l <> [] ->
  serialize_cells (Row (Some l) c) key path size sk =
  if zlen path + 1 <=? size then go l (path ++ [key]) size sk else UB.
Proof.
  intros Hl. destruct l as [|[k0 c0] l]; [congruence|].
  cbn [serialize_cells]. destruct (_ <=? size); auto. cbn [go].
  destruct (serialize_cells c0 k0 (path ++ [key]) size sk); auto. cbn [bindr].
  replace ((fix go0 (l0 : list (Z * row)) : res (list cell) :=
      match l0 with
      | [] => Ok []
      | (k, c1) :: t =>
          do a0 <- serialize_cells c1 k (path ++ [key]) size sk; do b <- go0 t; Ok (a0 ++ b)
      end) l) with (go l (path ++ [key]) size sk); auto.
  induction l as [|[k c1] l IH]; cbn [go]; auto. rewrite <- IH. auto. discriminate.
Qed.

Lemma path_lt_pre p q r : path_lt q r -> path_lt (p ++ q) (p ++ r).
Proof. intros H. induction p as [|x p IH]; cbn [app path_lt]; auto. Qed.

Lemma asc_app a b : ascending a -> ascending b ->
  (forall p d q e, In (p, d) a -> In (q, e) b -> path_lt p q) -> ascending (a ++ b).
Proof.
  intros Ha Hb Hab. induction a as [|[p d] a IH]; cbn [app ascending]; auto. destruct Ha as [H1 H2].
  split.
  - intros q e Hq. apply in_app_or in Hq as [Hq|Hq]. eauto. eapply Hab; eauto. left; eauto.
  - apply IH; auto. intros. eapply Hab; eauto. right; eauto.
Qed.

(** The cells of [r], below [pre]. *)
Definition cells_of (d : nat) (r : row) (pref : list Z) (cs : list cell) : Prop :=
  ascending cs /\ forall p dt, In (p, dt) cs <-> exists ks, p = pref ++ ks /\ length ks = d /\ val r ks = Some dt.
Definition cells_of_all (d : nat) (l : list (Z * row)) (pref : list Z) (cs : list cell) : Prop :=
  ascending cs /\ forall p dt, In (p, dt) cs <->
    exists k c ks, In (k, c) l /\ p = pref ++ k :: ks /\ length ks = d /\ val c ks = Some dt.

Definition cnt (l : list (Z * row)) (a : Z * Z) : Z * Z :=
  fold_left (fun a (x : Z * row) => let '(n, d) := count_cells (snd x) (snd a) in (fst a + n, d)) l a.

Lemma count_node l c dep : l <> [] -> count_cells (Row (Some l) c) dep = cnt l (0, dep + 1).
Proof. intros H. destruct l as [|x l]; [congruence|]. reflexivity. Qed.

Lemma serialize_ok d : forall r key path size sk, wf d r ->
  zlen path + 1 + Z.of_nat d <= size -> sk <= zlen path + 1 + Z.of_nat d ->
  exists cs, serialize_cells r key path size sk = Ok cs /\ cells_of d r (path ++ [key]) cs /\
    forall dep, exists dep', count_cells r dep = (zlen cs, dep') /\ dep + Z.of_nat d <= dep'.
Proof.
  induction d as [|d IH]; intros r key path size sk W Hz Hk.
  - destruct r as [c co]. cbn in W. destruct W as [-> Hc]. cbn [serialize_cells].
    replace (zlen path + 1 <=? size) with true by lia.
    replace (match co with [] => false | _ => true end) with true by (destruct co; congruence).
    cbn [M_Queue.assert]. replace (sk <=? zlen path + 1) with true by lia. cbn [M_Queue.assert].
    eexists. split; [reflexivity|]. split; [split|].
    + cbn. split; [tauto|exact I].
    + intros p dt. cbn [In]. split.
      * intros [H|[]]. inversion H; subst. exists []. rewrite app_nil_r. auto.
      * intros ([|? ?] & -> & Hl & Hv); [|discriminate]. cbn in Hv. inversion Hv. rewrite app_nil_r. auto.
    + intros dep. exists dep. split; [reflexivity|lia].
  - destruct r as [c co]. cbn [wf cells] in W. destruct W as (l & -> & Hn & Hs & Hf).
    rewrite serialize_node by auto. replace (zlen path + 1 <=? size) with true by lia.
    assert (Hp : zlen (path ++ [key]) = zlen path + 1) by (unfold zlen; rewrite app_length; cbn; lia).
    assert (G : forall l, srt l -> Forall (fun x => wf d (snd x)) l ->
      exists cs, go l (path ++ [key]) size sk = Ok cs /\ cells_of_all d l (path ++ [key]) cs /\
        (forall a dep, exists dep', cnt l (a, dep) = (a + zlen cs, dep') /\
            dep <= dep' /\ (l <> [] -> dep + Z.of_nat d <= dep'))).
    { clear l Hn Hs Hf. induction l as [|[k c] l IHl]; intros Hs Hf.
      - exists []. split; auto. split. split; [cbn; auto|]. intros p dt. split. intros []. intros (k & c & ks & [] & _).
        intros a dep. exists dep. cbn. split. f_equal. change (zlen (@nil cell)) with 0. lia. split. lia. congruence.
      - inversion Hf as [|? ? Hc Hfl]; subst. cbn [snd] in Hc. destruct Hs as [Hk1 Hs].
        destruct (IH c k (path ++ [key]) size sk Hc) as (cs1 & E1 & (A1 & C1) & N1); [lia|lia|].
        destruct (IHl Hs Hfl) as (cs2 & E2 & (A2 & C2) & N2).
        cbn [go]. rewrite E1. cbn [bindr]. rewrite E2. cbn [bindr]. eexists. split; [reflexivity|]. split; [split|].
        + apply asc_app; auto. intros p dt q e Hp' Hq'. apply C1 in Hp' as (ks & -> & _). apply C2 in Hq' as (k' & c' & ks' & Hi & -> & _).
          rewrite <- app_assoc. apply path_lt_pre. cbn [app path_lt]. left. eauto.
        + intros p dt. rewrite in_app_iff, C1, C2. split.
          * intros [(ks & -> & Hl & Hv)|(k' & c' & ks & Hi & -> & Hl & Hv)].
            -- exists k, c, ks. rewrite <- app_assoc. split; [left; auto|auto].
            -- exists k', c', ks. split; [right; auto|auto].
          * intros (k' & c' & ks & [Hi|Hi] & -> & Hl & Hv).
            -- inversion Hi; subst k' c'. left. exists ks. rewrite <- !app_assoc. split; [reflexivity|auto].
            -- right. exists k', c', ks. auto.
        + intros a dep. cbn [cnt fold_left snd fst]. destruct (N1 dep) as (dep1 & F1 & G1). rewrite F1.
          destruct (N2 (a + zlen cs1) dep1) as (dep2 & F2 & G2 & _). unfold cnt in F2. rewrite F2.
          exists dep2. split. f_equal. unfold zlen. rewrite app_length. lia. split; [lia|]. intros _. lia. }
    destruct (G l Hs Hf) as (cs & E & (A & C) & N). exists cs. split; auto. split; [split; auto|].
    + intros p dt. rewrite C. split.
      * intros (k & c & ks & Hi & -> & Hl & Hv). exists (k :: ks). split; auto. split. cbn; lia.
        cbn [val cells]. apply sget_in in Hi; auto. rewrite Hi. auto.
      * intros ([|k ks] & -> & Hl & Hv); [discriminate|]. cbn [val cells] in Hv.
        destruct (sget l k) as [c|] eqn:Gk; [|discriminate]. apply sget_in in Gk; auto.
        exists k, c, ks. split; auto.
    + intros dep. rewrite count_node by auto. destruct (N 0 (dep + 1)) as (dep' & F & G1 & G2).
      rewrite F. exists dep'. split; auto. specialize (G2 Hn). lia.
Qed.

Lemma row_read_ok d t pk : (1 <= d)%nat -> twf d t ->
  exists cs, server_read t pk [] = Ok cs /\ ascending cs /\
    forall p dt, In (p, dt) cs <-> exists ks, p = pk :: ks /\ length ks = d /\ tval t p = Some dt.
Proof.
  intros Hd ((Hm & Hi) & Hs & Hf). unfold server_read, read_response, table_search. destruct (sget (rows t) pk) as [r|] eqn:G.
  - assert (W : wf d r). { pose proof G as G'. apply sget_in in G'; auto. rewrite Forall_forall in Hf. apply (Hf _ G'). }
    replace (leaf r) with false.
    2: { destruct d as [|d]; [lia|]. cbn [wf] in W. destruct W as (l & E & Hn & _). unfold leaf. rewrite E. destruct l; congruence. }
    destruct (serialize_ok d r pk [] (snd (count_cells r 1)) (schema_keys (tschema t)) W) as (cs & E & (A & C) & N).
    + destruct (serialize_ok d r pk [] (1 + Z.of_nat d) 0 W) as (cs & _ & _ & N); [change (zlen (@nil Z)) with 0; lia|change (zlen (@nil Z)) with 0; lia|].
      destruct (N 1) as (dep' & F & H). rewrite F. cbn [snd]. change (zlen (@nil Z)) with 0. lia.
    + unfold schema_keys. rewrite Hm. change (zlen (@nil Z)) with 0. lia.
    + destruct (N 1) as (dep' & F & H). rewrite F in *. cbn [snd] in E. rewrite E. cbn [bindr].
      rewrite Z.eqb_refl. cbn [M_Queue.assert]. exists cs. split; auto. split; auto.
      intros p dt. rewrite C. cbn [app]. split; intros (ks & -> & Hl & Hv); exists ks; cbn [app tval] in *; rewrite ?G in *; auto.
  - exists []. split; auto. split; [cbn; auto|]. intros p dt. split. intros [].
    intros (ks & -> & _ & Hv). cbn [tval] in Hv. rewrite G in Hv. discriminate.
Qed.

Lemma range_response_ok d s l : std d s -> srt l -> Forall (fun x => wf d (snd x)) l ->
  exists cs, range_response s (Some l) = Ok cs /\ cells_of_all d l [] cs.
Proof.
  intros (Hm & _) Hs Hf. unfold range_response, schema_keys. rewrite Hm.
  set (dd := fold_right Z.max 0 (map snd (map (fun x => count_cells (snd x) 1) l))).
  assert (Hdd : l = [] \/ 1 + Z.of_nat d <= dd).
  { unfold dd. clear dd. destruct l as [|[k c] l]; auto. right. cbn [map fold_right snd].
    pose proof (Forall_inv Hf) as Hc; pose proof (Forall_inv_tail Hf) as Hfl. cbn [snd] in Hc.
    destruct (serialize_ok d c k [] (1 + Z.of_nat d) 0 Hc) as (cs & _ & _ & N); [change (zlen (@nil Z)) with 0; lia|change (zlen (@nil Z)) with 0; lia|].
    destruct (N 1) as (dep' & F & H). rewrite F. cbn [snd]. lia. }
  assert (exists cs, serialize_all l dd (1 + Z.of_nat d) = Ok cs /\ cells_of_all d l [] cs /\
            zlen cs = fold_right Z.add 0 (map fst (map (fun x => count_cells (snd x) 1) l))) as (cs & E & C & N).
  { clearbody dd. induction l as [|[k c] l IH].
    - exists []. split; auto. split; auto. split; [cbn; auto|]. intros p dt. split. intros []. intros (k & c & ks & [] & _).
    - pose proof (Forall_inv Hf) as Hc; pose proof (Forall_inv_tail Hf) as Hfl. cbn [snd] in Hc. destruct Hs as [Hk1 Hs]. destruct Hdd as [|Hdd]; [discriminate|].
      destruct (serialize_ok d c k [] dd (1 + Z.of_nat d) Hc) as (cs1 & E1 & (A1 & C1) & N1); [change (zlen (@nil Z)) with 0; lia|change (zlen (@nil Z)) with 0; lia|].
      destruct (IH Hs Hfl) as (cs2 & E2 & (A2 & C2) & N2); auto.
      cbn [serialize_all]. rewrite E1. cbn [bindr]. rewrite E2. cbn [bindr]. eexists. split; [reflexivity|]. split; [split|].
      + apply asc_app; auto. intros p dt q e Hp' Hq'. apply C1 in Hp' as (ks & -> & _). apply C2 in Hq' as (k' & c' & ks' & Hi & -> & _).
        cbn [app path_lt]. left. eauto.
      + intros p dt. rewrite in_app_iff, C1, C2. split.
        * intros [(ks & -> & Hl & Hv)|(k' & c' & ks & Hi & -> & Hl & Hv)].
          -- exists k, c, ks. split; [left; auto|auto].
          -- exists k', c', ks. split; [right; auto|auto].
        * intros (k' & c' & ks & [Hi|Hi] & -> & Hl & Hv).
          -- inversion Hi; subst k' c'. left. exists ks. split; [reflexivity|auto].
          -- right. exists k', c', ks. auto.
      + cbn [map fold_right]. destruct (N1 1) as (dep' & F & H). cbn [snd]. rewrite F. cbn [fst]. rewrite <- N2.
        unfold zlen. rewrite app_length. lia. }
  rewrite E. cbn [bindr]. rewrite N, Z.eqb_refl. cbn [M_Queue.assert]. eauto.
Qed.

Lemma all_val d t l cs : twf d t -> (forall k r, In (k, r) l -> In (k, r) (rows t)) -> cells_of_all d l [] cs ->
  forall p dt, In (p, dt) cs -> length p = S d /\ tval t p = Some dt.
Proof.
  intros (_ & Hs & _) Hl (_ & C) p dt Hp. apply C in Hp as (k & c & ks & Hi & -> & Hk & Hv). cbn [app].
  split. cbn; lia. cbn [tval]. apply Hl in Hi. apply sget_in in Hi; auto. rewrite Hi. auto.
Qed.

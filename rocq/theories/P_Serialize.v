(** Object graphs: the deserializer rebuilds what the serializer wrote (C32). *)
From Verif Require Import Base M_Serialize S_Serialize P_SerBytes.
From Coq Require Import Permutation.

(** ** Strings. *)
Lemma bytes_of_num_pad : forall n l, Forall byte l -> (length l <= n)%nat ->
  bytes_of n (num_of l) = l ++ repeat 0 (n - length l).
Proof.
  induction n; intros l H L.
  - destruct l; [easy|cbn in L; lia].
  - destruct l as [|b l].
    + cbn [num_of bytes_of length Nat.sub repeat app].
      change (0 mod 256) with 0. change (0 / 256) with 0. f_equal.
      specialize (IHn [] (Forall_nil _)). cbn [num_of length app] in IHn.
      rewrite IHn by lia. now rewrite Nat.sub_0_r.
    + apply Forall_cons_iff in H. destruct H as [Hb H]. unfold byte in Hb.
      cbn [num_of bytes_of length app Nat.sub].
      replace (b + 256 * num_of l) with (b + num_of l * 256) by lia.
      rewrite Z.mod_add, Z.mod_small, Z.div_add, Z.div_small by lia. cbn [Z.add].
      rewrite IHn; auto. cbn in L; lia.
Qed.

Lemma unpack_pack : forall nw l, Forall byte l -> (length l <= 8 * nw)%nat ->
  unpack (pack nw l) = l ++ repeat 0 (8 * nw - length l).
Proof.
  induction nw; intros l H L.
  - destruct l; [easy|cbn in L; lia].
  - cbn [pack]. rewrite unpack_cons.
    rewrite bytes_of_num_pad; [|now apply Forall_firstn'|rewrite firstn_length; lia].
    rewrite IHnw; [|now apply Forall_skipn'|rewrite skipn_length; lia].
    rewrite firstn_length, skipn_length.
    destruct (le_lt_dec (length l) 8).
    + rewrite firstn_all2 by lia. rewrite skipn_all2 by lia. cbn [app].
      rewrite <- app_assoc, <- repeat_app. f_equal. f_equal. lia.
    + replace (8 - Nat.min 8 (length l))%nat with 0%nat by lia. cbn [repeat].
      rewrite app_nil_r, app_assoc, firstn_skipn. f_equal. f_equal. lia.
Qed.

Lemma wrapS64_id : forall z, - 2 ^ 63 <= z < 2 ^ 63 -> wrapS 64 z = z.
Proof.
  intros. unfold wrapS. change (64 - 1) with 63.
  change (2 ^ 64) with (2 ^ 63 + 2 ^ 63). rewrite Z.mod_small; lia.
Qed.

Lemma wrapSU : forall b z, 0 < b -> inS b z -> wrapS b (wrapU b z) = z.
Proof.
  intros b z Hb H. unfold inS, wrapS, wrapU in *.
  assert (E : 2 ^ b = 2 ^ (b - 1) + 2 ^ (b - 1)).
  { replace b with (b - 1 + 1) at 1 by lia. rewrite Z.pow_add_r by lia. lia. }
  rewrite Z.add_mod_idemp_l by lia. rewrite Z.mod_small; lia.
Qed.

Lemma wrapS_mod : forall b x y, 0 < b -> x mod 2 ^ b = y mod 2 ^ b -> wrapS b x = wrapS b y.
Proof.
  intros. unfold wrapS.
  assert (0 < 2 ^ b) by (apply Z.pow_pos_nonneg; lia).
  rewrite <- (Z.add_mod_idemp_l x), <- (Z.add_mod_idemp_l y), H0; lia.
Qed.

Lemma nwords_enough : forall l, (length l <= 8 * nwords l)%nat /\ (length l < 8 * nwords l)%nat.
Proof.
  intros. unfold nwords, zlen.
  pose proof (Z.div_mod (Z.of_nat (length l)) 8). pose proof (Z.mod_pos_bound (Z.of_nat (length l)) 8). lia.
Qed.

Lemma read_string_ok : forall c l pre, Forall byte l -> zlen l < 2 ^ 31 -> 
  read_string (Row c (zlen l :: pre ++ pack (nwords l) l)) (S (length pre)) = Ok l.
Proof.
  intros c l pre H L. unfold read_string. cbn [rblob].
  change (zget (zlen l :: pre ++ pack (nwords l) l) 0) with (Some (zlen l)). cbn [orUB bindr].
  pose proof (zlen_nn _ l).
  rewrite wrapS64_id by (change (2 ^ 31) with 2147483648 in L; lia).
  cbn [skipn]. rewrite skipn_app_exact by easy.
  destruct (nwords_enough l) as [N1 N2].
  rewrite unpack_pack by auto. rewrite zlen_app'.
  unfold zlen at 4. rewrite repeat_length.
  replace (_ && _) with true by (unfold zlen; lia).
  unfold zlen. rewrite Nat2Z.id, firstn_app_exact by easy. easy.
Qed.

(** ** Boxed integers. *)
Lemma scalar_type_props : forall cls sg b, scalar_type cls = Some (sg, b) ->
  ITEM_ID < cls < 2 ^ 31 /\ 0 < b <= 64 /\ cls <> BIGINT_ID.
Proof.
  intros cls sg b H. unfold scalar_type in H.
  repeat match type of H with (if ?c then _ else _) = _ => destruct c eqn:? end; try discriminate;
  injection H as <- <-; unfold ITEM_ID, BIGINT_ID; change (2 ^ 31) with 2147483648; lia.
Qed.

Lemma step_box : forall layout rec d sg b cls x w tail,
  scalar_type cls = Some (sg, b) ->
  drows d = Row cls [] :: Row x [w] :: tail ->
  step layout rec d =
  Ok (RPtr (length (dheap d)),
      DSt tail (drow_no d + 2) (ddone d) (dheap d ++ [OScalar cls (to_scalar (sg, b) w) 0])).
Proof.
  intros layout rec d sg b cls x w tail H R.
  destruct (scalar_type_props _ _ _ H) as [Hc _]. unfold ITEM_ID in Hc.
  unfold step, pop. rewrite R. cbn [bindr rcls].
  replace (ITEM_ID <? Z.abs cls) with true by (unfold ITEM_ID; lia).
  replace (cls <? 0) with false by lia. rewrite H.
  unfold val_deserialize, pop. cbn [drows bindr rblob].
  change (zget [w] 0) with (Some w). cbn [orUB bindr].
  unfold return_obj, alloc. cbn [drows drow_no ddone dheap].
  replace (drow_no d + 1 + 1) with (drow_no d + 2) by lia. easy.
Qed.

Lemma to_scalar_word : forall sg b v g, 0 < b <= 64 ->
  (if sg : bool then inS b v else inU b v) -> 0 <= g -> 2 ^ b * (g + 1) <= 2 ^ 64 ->
  to_scalar (sg, b) (wrapU 64 (v mod 2 ^ b + 2 ^ b * g)) = v.
Proof.
  intros sg b v g Hb Hv Hg Hr.
  assert (P : 0 < 2 ^ b) by (apply Z.pow_pos_nonneg; lia).
  pose proof (Z.mod_pos_bound v (2 ^ b) P).
  assert (W : wrapU 64 (v mod 2 ^ b + 2 ^ b * g) = v mod 2 ^ b + 2 ^ b * g).
  { unfold wrapU. apply Z.mod_small. nia. }
  rewrite W. unfold to_scalar. cbn [fst snd].
  assert (E : (v mod 2 ^ b + 2 ^ b * g) mod 2 ^ b = v mod 2 ^ b).
  { rewrite (Z.mul_comm (2 ^ b) g), Z.mod_add by lia. apply Z.mod_mod; lia. }
  destruct sg.
  - rewrite (wrapS_mod b _ v) by (try lia; exact E).
    rewrite <- (wrapSU b v) at 2 by (try lia; auto).
    apply wrapS_mod; [lia|]. unfold wrapU. rewrite Z.mod_mod; lia.
  - unfold wrapU. rewrite E. apply Z.mod_small. exact Hv.
Qed.

(** ** Items and cells. *)
Inductive kind_ok : item -> kind -> Prop :=
| ko_step : forall r, kind_ok (IStep r) KStep
| ko_box : forall c v, kind_ok (IBox c v) KBox
| ko_raw : forall c w sz, kind_ok (IRaw c w) (KRaw c sz).

Inductive cell_ok (M : corr) : item -> kind -> cell -> Prop :=
| co_step : forall r r', same_ref M r r' -> cell_ok M (IStep r) KStep (CRef r')
| co_box : forall c v, cell_ok M (IBox c v) KBox (CNum v)
| co_raw : forall c w sz, cell_ok M (IRaw c w) (KRaw c sz) (CNum (w mod 2 ^ (8 * sz))).

Inductive cells_ok (M : corr) : list item -> list kind -> list cell -> Prop :=
| cs_nil : cells_ok M [] [] []
| cs_cons : forall i k c is ks cs, cell_ok M i k c -> cells_ok M is ks cs ->
    cells_ok M (i :: is) (k :: ks) (c :: cs).

Definition mrel (M : list (addr * addr)) : corr := fun a a' => In (a, a') M.

Lemma same_ref_mono : forall M M' r r', incl M M' -> same_ref (mrel M) r r' -> same_ref (mrel M') r r'.
Proof. intros M M' r r' I H. destruct H; constructor. now apply I. Qed.

Lemma same_obj_mono : forall M M' o o', incl M M' -> same_obj (mrel M) o o' -> same_obj (mrel M') o o'.
Proof.
  intros M M' o o' I H.
  assert (R : forall r r', same_ref (mrel M) r r' -> same_ref (mrel M') r r')
    by (intros; now apply (same_ref_mono M)).
  assert (F : forall A B (P Q : A -> B -> Prop), (forall x y, P x y -> Q x y) ->
            forall l l', Forall2 P l l' -> Forall2 Q l l').
  { intros A B P Q PQ l l' X. induction X; constructor; auto. }
  destruct H; econstructor; eapply F; try eassumption.
  - intros x y (E & A & B). unfold same_entry. auto.
  - intros x y (E & A). unfold same_slot. auto.
  - intros x y []; constructor; auto.
Qed.

Lemma cell_ok_mono : forall M M' i k c, incl M M' -> cell_ok (mrel M) i k c -> cell_ok (mrel M') i k c.
Proof. intros M M' i k c I H. destruct H; constructor. now apply (same_ref_mono M). Qed.

(** Items an object passes on. *)
Definition items_of (o : obj) : list item :=
  match o with
  | OList l | OTuple l => map IStep l
  | ODict _ (Some t) => dict_items (dt_entries t)
  | OSet _ _ _ _ es => set_items es
  | OUser _ fs => map field_item fs
  | _ => []
  end.

Definition item_refs (l : list item) : list ref :=
  flat_map (fun i => match i with IStep r => [r] | _ => [] end) l.

Lemma item_refs_app : forall a b, item_refs (a ++ b) = item_refs a ++ item_refs b.
Proof. intros. apply flat_map_app. Qed.

Lemma items_refs_of : forall o, item_refs (items_of o) = refs_of o.
Proof.
  assert (L : forall l, item_refs (map IStep l) = l).
  { induction l; [easy|]. cbn. now rewrite <- IHl at 2. }
  destruct o; try easy; cbn [items_of refs_of]; try apply L.
  - destruct t as [t|]; [|easy]. induction (dt_entries t) as [|e es IH]; [easy|].
    unfold dict_items in *. cbn [flat_map]. rewrite item_refs_app, IH. easy.
  - induction table as [|e es IH]; [easy|].
    unfold set_items in *. cbn [flat_map map]. rewrite item_refs_app, IH. easy.
  - induction fields as [|f fs IH]; [easy|]. cbn [map flat_map].
    change (item_refs ([field_item f] ++ map field_item fs) =
            match f with FRef r => [r] | FRaw _ _ _ _ => [] end ++
            flat_map (fun f => match f with FRef r => [r] | FRaw _ _ _ _ => [] end) fs).
    rewrite item_refs_app, IH. destruct f; easy.
Qed.

(** ** Counting references still to be followed. *)
Section Count.
  Variable h : heap.

  Definition missing (V : list addr) : list addr :=
    filter (fun p => negb (existsb (Nat.eqb p) V)) (seq 0 (length h)).
  Definition refs_at (p : addr) : list ref :=
    match nth_error h p with Some o => refs_of o | None => [] end.
  Definition rest (V : list addr) : list ref := flat_map refs_at (missing V).
  Definition cnt_of (l : list ref) (a : addr) : nat := count_occ ref_eq_dec l (RPtr a).
  Definition seen (V : list addr) (a : addr) : nat := if in_dec Nat.eq_dec a V then 1%nat else 0%nat.

  Definition cnt (V : list addr) (l : list item) : Prop :=
    forall a o, nth_error h a = Some o -> fragile o ->
      (seen V a + cnt_of (item_refs l) a + cnt_of (rest V) a <= 1)%nat.

  Lemma existsb_in : forall p V, existsb (Nat.eqb p) V = true <-> In p V.
  Proof.
    intros. rewrite existsb_exists. split.
    - intros (x & I & E). apply Nat.eqb_eq in E. now subst.
    - intros. exists p. split; auto. apply Nat.eqb_refl.
  Qed.

  Lemma in_missing : forall p V, In p (missing V) <-> (p < length h)%nat /\ ~ In p V.
  Proof.
    intros. unfold missing. rewrite filter_In, in_seq, negb_true_iff.
    rewrite <- (existsb_in p V). destruct (existsb (Nat.eqb p) V); intuition (try lia; try congruence).
  Qed.

  Lemma nodup_missing : forall V, NoDup (missing V).
  Proof. intros. apply NoDup_filter, seq_NoDup. Qed.

  Lemma missing_cons : forall p V, (p < length h)%nat -> ~ In p V ->
    Permutation (missing V) (p :: missing (p :: V)).
  Proof.
    intros p V L N. apply NoDup_Permutation.
    - apply nodup_missing.
    - constructor; [|apply nodup_missing]. rewrite in_missing. intros [_ X]. apply X. now left.
    - intros x. cbn [In]. rewrite !in_missing. cbn [In].
      destruct (Nat.eq_dec x p); [subst|]; intuition congruence.
  Qed.

  Lemma missing_same : forall p V, In p V -> missing (p :: V) = missing V.
  Proof.
    intros. unfold missing. apply filter_ext. intros x. cbn [existsb].
    destruct (Nat.eqb_spec x p); [|easy]. subst. cbn [orb negb].
    symmetry. apply negb_false_iff. now apply existsb_in.
  Qed.

  Lemma cnt_of_app : forall a b x, cnt_of (a ++ b) x = (cnt_of a x + cnt_of b x)%nat.
  Proof. intros. apply count_occ_app. Qed.

  Lemma rest_cons : forall p V a, (p < length h)%nat -> ~ In p V ->
    cnt_of (rest V) a = (cnt_of (refs_at p) a + cnt_of (rest (p :: V)) a)%nat.
  Proof.
    intros p V a L N. unfold rest.
    assert (P := Permutation_flat_map refs_at (missing_cons p V L N)).
    cbn [flat_map] in P. rewrite <- cnt_of_app. unfold cnt_of.
    now apply (Permutation_count_occ ref_eq_dec).
  Qed.

  Lemma seen_cons_neq : forall a p V, a <> p -> seen (p :: V) a = seen V a.
  Proof.
    intros. unfold seen. destruct (in_dec Nat.eq_dec a (p :: V)) as [[]|]; 
    destruct (in_dec Nat.eq_dec a V); try easy; try congruence.
    exfalso. apply n. now right.
  Qed.
  Lemma seen_in : forall a V, In a V -> seen V a = 1%nat.
  Proof. intros. unfold seen. now destruct (in_dec Nat.eq_dec a V). Qed.
  Lemma seen_out : forall a V, ~ In a V -> seen V a = 0%nat.
  Proof. intros. unfold seen. now destruct (in_dec Nat.eq_dec a V). Qed.

  Lemma cnt_ptr_eq : forall a l, cnt_of (RPtr a :: l) a = S (cnt_of l a).
  Proof. intros. unfold cnt_of. now rewrite count_occ_cons_eq. Qed.
  Lemma cnt_ptr_neq : forall a b l, a <> b -> cnt_of (RPtr b :: l) a = cnt_of l a.
  Proof. intros. unfold cnt_of. rewrite count_occ_cons_neq; congruence. Qed.

  Lemma fragile_leaf : forall o, fragile o -> items_of o = [].
  Proof. now destruct o. Qed.

  Lemma cnt_fresh : forall V p o K, nth_error h p = Some o -> fragile o ->
    cnt V (IStep (RPtr p) :: K) -> ~ In p V.
  Proof.
    intros V p o K H F C I. specialize (C p o H F).
    cbn [item_refs flat_map app] in C. change (flat_map _ K) with (item_refs K) in C.
    rewrite cnt_ptr_eq, seen_in in C by auto. lia.
  Qed.

  Lemma cnt_visit : forall V p o K, nth_error h p = Some o -> ~ In p V ->
    cnt V (IStep (RPtr p) :: K) -> cnt (p :: V) (items_of o ++ K).
  Proof.
    intros V p o K H N C a oa Ha Fa.
    assert (L : (p < length h)%nat) by (apply nth_error_Some; congruence).
    specialize (C a oa Ha Fa).
    cbn [item_refs flat_map app] in C. change (flat_map _ K) with (item_refs K) in C.
    rewrite (rest_cons p V a L N) in C.
    unfold refs_at in C. rewrite H in C.
    rewrite item_refs_app, cnt_of_app, items_refs_of.
    destruct (Nat.eq_dec a p).
    - subst. assert (oa = o) by congruence. subst. rewrite cnt_ptr_eq in C.
      rewrite (seen_in p) by now left. rewrite (seen_out p V) in C by auto.
      rewrite <- items_refs_of in *. rewrite (fragile_leaf o Fa) in *. cbn in *. lia.
    - rewrite cnt_ptr_neq in C by auto. rewrite seen_cons_neq by auto. lia.
  Qed.

  Lemma cnt_leaf : forall V p o K, nth_error h p = Some o -> items_of o = [] ->
    cnt V (IStep (RPtr p) :: K) -> cnt (p :: V) K.
  Proof.
    intros V p o K H E C.
    destruct (in_dec Nat.eq_dec p V) as [I|N].
    - intros a oa Ha Fa. pose proof (C a oa Ha Fa) as Q.
      cbn [item_refs flat_map app] in Q. change (flat_map _ K) with (item_refs K) in Q.
      unfold rest. rewrite missing_same by auto. fold (rest V).
      destruct (Nat.eq_dec a p).
      + subst. rewrite cnt_ptr_eq, seen_in in Q by auto. lia.
      + rewrite cnt_ptr_neq in Q by auto. rewrite seen_cons_neq by auto. lia.
    - pose proof (cnt_visit V p o K H N C) as Q. now rewrite E in Q.
  Qed.

  Lemma cnt_drop : forall V i K, cnt V (i :: K) -> cnt V K.
  Proof.
    intros V i K C a o Ha Fa. specialize (C a o Ha Fa).
    change (item_refs (i :: K)) with (item_refs ([i] ++ K)) in C.
    rewrite item_refs_app, cnt_of_app in C. lia.
  Qed.
End Count.

Lemma flat_map_seq_nth : forall (h : heap) pre,
  flat_map (fun p => match nth_error (pre ++ h) p with Some o => refs_of o | None => [] end)
    (seq (length pre) (length h)) = flat_map refs_of h.
Proof.
  induction h as [|o h IH]; intros pre; [easy|].
  cbn [length seq flat_map]. rewrite nth_error_app2, Nat.sub_diag by lia. cbn [nth_error].
  f_equal. specialize (IH (pre ++ [o])). rewrite app_length, Nat.add_1_r, <- app_assoc in IH. exact IH.
Qed.

Lemma cnt_init : forall h root, 
  (forall a o, nth_error h a = Some o -> fragile o -> (num_refs h root a <= 1)%nat) ->
  cnt h [] [IStep root].
Proof.
  intros h root H a o Ha Fa. specialize (H a o Ha Fa). unfold num_refs in H.
  assert (E : rest h [] = flat_map refs_of h).
  { unfold rest, missing, refs_at.
    replace (filter _ _) with (seq 0 (length h)).
    - apply (flat_map_seq_nth h []).
    - symmetry. generalize (seq 0 (length h)). induction l as [|x l IHl]; [easy|]. cbn [filter existsb negb]. f_equal. exact IHl. }
  rewrite E, seen_out by easy. cbn [item_refs flat_map app Nat.add].
  rewrite <- cnt_of_app. exact H.
Qed.

(** ** Rows are only appended. *)
Lemma ser_rows_mono : forall h n it s s', ser h n it s = Ok s' ->
  exists new, srows s' = srows s ++ new /\ srow_no s' = srow_no s + zlen new.
Proof.
  intros h. induction n as [|n IH]; intros it s s' H; [discriminate|].
  assert (IL : forall l s s', ser_list (ser h n) l s = Ok s' ->
             exists new, srows s' = srows s ++ new /\ srow_no s' = srow_no s + zlen new).
  { clear it s s' H. induction l as [|x l IHl]; intros s s' H.
    - injection H as <-. exists []. rewrite app_nil_r. split; [easy|change (zlen []) with 0; lia].
    - cbn [ser_list] in H. destruct (ser h n x s) as [s1| | |] eqn:E; try discriminate.
      cbn [bindr] in H. apply IH in E. destruct E as (n1 & A & B).
      apply IHl in H. destruct H as (n2 & C & D). exists (n1 ++ n2).
      rewrite C, A, app_assoc, D, B, zlen_app'. split; [easy|lia]. }
  assert (E1 : forall s r, exists new, srows (emit s r) = srows s ++ new /\ srow_no (emit s r) = srow_no s + zlen new).
  { intros. exists [r]. easy. }
  assert (E2 : forall s c w, exists new, srows (box_rows c w s) = srows s ++ new /\ srow_no (box_rows c w s) = srow_no s + zlen new).
  { intros. exists [Row c []; Row (val_cls c) [wrapU 64 w]]. unfold box_rows, emit. cbn [srows srow_no].
    rewrite <- app_assoc. split; [easy|]. change (zlen [_; _]) with 2. lia. }
  assert (ES : forall c a s k, (forall s, k s = Ok s' -> exists new, srows s' = srows s ++ new /\ srow_no s' = srow_no s + zlen new) ->
     shared c a s k = Ok s' -> exists new, srows s' = srows s ++ new /\ srow_no s' = srow_no s + zlen new).
  { intros c a s0 k K Q. unfold shared in Q. destruct (sdone s0 a).
    - injection Q as <-. apply E1.
    - apply K in Q. exact Q. }
  assert (EL : forall l s r, ser_list (ser h n) l (emit s r) = Ok s' ->
     exists new, srows s' = srows s ++ new /\ srow_no s' = srow_no s + zlen new).
  { intros l s0 r Q. apply IL in Q. destruct Q as (nw & A & B). exists (r :: nw).
    unfold emit in *. cbn [srows srow_no] in *. rewrite <- app_assoc in A. split; [exact A|].
    rewrite B. unfold zlen. cbn [length]. lia. }
  cbn [ser] in H. destruct it as [[|a|]|c v|c w]; try discriminate.
  - injection H as <-. apply E1.
  - destruct (nth_error h a) as [o|]; [|discriminate].
    destruct o; try discriminate; try (injection H as <-; apply E1);
      try (apply (IL _ _ _ H));
      apply ES in H; auto; intros s0 Q; try (apply EL in Q; exact Q).
    + injection Q as <-. apply E2.
    + injection Q as <-.
      exists [Row BIGINT_ID []; Row BIGINT_ID (wrapU 64 size :: n0)]. unfold emit; cbn [srows srow_no].
      rewrite <- app_assoc. split; [easy|]. change (zlen [_; _]) with 2. lia.
    + destruct t; [|discriminate]. apply EL in Q; exact Q.
  - injection H as <-. apply E2.
  - injection H as <-. apply E1.
Qed.

Lemma ser_list_mono : forall h n l s s', ser_list (ser h n) l s = Ok s' ->
  exists new, srows s' = srows s ++ new /\ srow_no s' = srow_no s + zlen new.
Proof.
  intros h n. induction l as [|x l IHl]; intros s s' H.
  - injection H as <-. exists []. rewrite app_nil_r. split; [easy|change (zlen []) with 0; lia].
  - cbn [ser_list] in H. destruct (ser h n x s) as [s1| | |] eqn:E; try discriminate.
    cbn [bindr] in H. apply ser_rows_mono in E. destruct E as (n1 & A & B).
    apply IHl in H. destruct H as (n2 & C & D). exists (n1 ++ n2).
    rewrite C, A, app_assoc, D, B, zlen_app'. split; [easy|lia].
Qed.

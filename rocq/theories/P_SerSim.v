(** Simulation between serializer and deserializer (C32). *)
From Verif Require Import Base M_Serialize S_Serialize P_SerBytes P_Serialize.
From Coq Require Import Permutation.

Definition is_scalar (o : obj) : Prop := match o with OScalar _ _ _ => True | _ => False end.
(** Objects entered into the serializer's done table. *)
Definition tracked (o : obj) : Prop :=
  match o with
  | OScalar _ _ _ | OBig _ _ | OList _ | OTuple _ | ODict _ _ | OSet _ _ _ _ _ | OUser _ _ => True
  | _ => False
  end.

Definition item_good (h : heap) (it : item) : Prop :=
  match it with
  | IStep r => valid_ref h r
  | IBox cls v => (cls = I64_ID /\ inS 64 v) \/ (cls = U64_ID /\ inU 64 v)
  | IRaw cid w => inS 32 cid /\ word w
  end.

Lemma field_word : forall sz w g, 0 <= sz <= 8 -> 0 <= w < 2 ^ (8 * sz) ->
  wrapU 64 (w + 2 ^ (8 * sz) * g) mod 2 ^ (8 * sz) = w.
Proof.
  intros sz w g S W. unfold wrapU.
  assert (P : 0 < 2 ^ (8 * sz)) by (apply Z.pow_pos_nonneg; lia).
  replace (2 ^ 64) with (2 ^ (8 * sz) * 2 ^ (64 - 8 * sz)).
  2:{ rewrite <- Z.pow_add_r by lia. f_equal. lia. }
  assert (Q : 0 < 2 ^ (64 - 8 * sz)) by (apply Z.pow_pos_nonneg; lia).
  rewrite Z.rem_mul_r by lia.
  rewrite (Z.mul_comm _ (_ mod 2 ^ (64 - 8 * sz))).
  rewrite Z.mod_add by lia. rewrite Z.mod_mod by lia.
  rewrite (Z.mul_comm _ g), Z.mod_add by lia. now apply Z.mod_small.
Qed.

Lemma kinds_list : forall l, Forall2 kind_ok (map IStep l) (repeat KStep (length l)).
Proof. induction l; cbn; constructor; auto. constructor. Qed.
Lemma kinds_dict : forall es,
  Forall2 kind_ok (dict_items es) (concat (repeat [KBox; KStep; KStep] (length es))).
Proof.
  induction es as [|e es IH]; [constructor|]. cbn [length repeat concat dict_items flat_map app].
  repeat constructor. exact IH.
Qed.
Lemma kinds_set : forall es,
  Forall2 kind_ok (set_items es) (concat (repeat [KBox; KStep] (length es))).
Proof.
  induction es as [|e es IH]; [constructor|]. cbn [length repeat concat set_items flat_map app].
  repeat constructor. exact IH.
Qed.
Lemma kinds_user : forall fs, Forall2 kind_ok (map field_item fs) (map field_kind fs).
Proof. induction fs as [|[]]; cbn; constructor; auto; constructor. Qed.

Lemma cells_list : forall M l ks cs, cells_ok M (map IStep l) ks cs ->
  Forall2 (same_ref M) l (map cell_ref cs).
Proof.
  intros M. induction l; intros ks cs H; inversion H; subst; cbn; constructor.
  - inversion H2; subst. easy.
  - eapply IHl. eassumption.
Qed.
Lemma cells_dict : forall M es ks cs, cells_ok M (dict_items es) ks cs ->
  Forall2 (same_entry M) es (cells_entries cs).
Proof.
  intros M. induction es as [|[[hh k] v] es IH]; intros ks cs H.
  - inversion H; subst; constructor.
  - cbn [dict_items flat_map app fst snd] in H.
    inversion H as [|? ? ? ? ? ? C1 R1]; subst. inversion R1 as [|? ? ? ? ? ? C2 R2]; subst.
    inversion R2 as [|? ? ? ? ? ? C3 R3]; subst.
    inversion C1; subst. inversion C2; subst. inversion C3; subst.
    cbn [cells_entries cell_num cell_ref]. constructor.
    + unfold same_entry. cbn. auto.
    + eapply IH. exact R3.
Qed.
Lemma cells_set : forall M es ks cs, cells_ok M (set_items es) ks cs ->
  Forall (fun e => fst e <> -1) es -> Forall2 (same_slot M) es (cells_slots cs).
Proof.
  intros M. induction es as [|[hh k] es IH]; intros ks cs H N.
  - inversion H; subst; constructor.
  - cbn [set_items flat_map app fst snd] in H. apply Forall_cons_iff in N. destruct N as [N1 N].
    cbn [fst] in N1.
    inversion H as [|? ? ? ? ? ? C1 R1]; subst. inversion R1 as [|? ? ? ? ? ? C2 R2]; subst.
    inversion C1; subst. inversion C2; subst.
    cbn [cells_slots cell_num cell_ref].
    replace (hh =? -1) with false by lia. constructor.
    + unfold same_slot. cbn. auto.
    + eapply IH; eauto.
Qed.
Lemma cells_user : forall M fs cs, cells_ok M (map field_item fs) (map field_kind fs) cs ->
  Forall (fun f => match f with FRef _ => True | FRaw cid sz w g => 0 <= sz <= 8 /\ 0 <= w < 2 ^ (8 * sz) /\ inS 32 cid end) fs ->
  Forall2 (same_field M) fs (cells_fields (map field_kind fs) cs).
Proof.
  intros M. induction fs as [|f fs IH]; intros cs H N.
  - inversion H; subst; constructor.
  - apply Forall_cons_iff in N. destruct N as [N1 N].
    cbn [map] in *. inversion H as [|? ? ? ? ? ? C1 R1]; subst.
    destruct f as [r|cid sz w g]; cbn [field_kind field_item cells_fields] in *.
    + inversion C1; subst. constructor; [constructor; auto|auto].
    + inversion C1; subst. cbn [cell_num]. destruct N1 as (Q1 & Q2 & Q3). change (match sz with 0 => 0 | Z.pos p => Z.pos p~0~0~0 | Z.neg q => Z.neg q~0~0~0 end) with (8 * sz); rewrite field_word by auto.
      constructor; [constructor|auto].
Qed.

Section Sim.
  Variable layout : Z -> option (list kind).
  Variable h : heap.
  Hypothesis Hok : forall o, In o h -> obj_ok layout o /\ Forall (valid_ref h) (refs_of o).

  Lemma items_good : forall a o, nth_error h a = Some o -> Forall (item_good h) (items_of o).
  Proof.
    intros a o H. apply nth_error_In in H. destruct (Hok o H) as [O R].
    assert (L : forall l, Forall (valid_ref h) l -> Forall (item_good h) (map IStep l)).
    { induction 1; cbn; constructor; auto. }
    destruct o; cbn [items_of]; auto.
    - destruct t as [t|]; [|auto]. cbn [obj_ok refs_of] in *.
      destruct O as (_ & _ & _ & _ & _ & O & _). clear H. induction (dt_entries t) as [|e es IH]; [constructor|].
      cbn [flat_map app] in R. apply Forall_cons_iff in R. destruct R as [R1 R].
      apply Forall_cons_iff in R. destruct R as [R2 R]. apply Forall_cons_iff in O. destruct O as [O1 O].
      cbn [dict_items flat_map app]. constructor; [right; auto|constructor; [auto|constructor; [auto|auto]]].
    - cbn [obj_ok refs_of] in *. destruct O as (_ & _ & _ & _ & _ & O).
      clear H. induction table as [|e es IH]; [constructor|].
      cbn [map] in R. apply Forall_cons_iff in R. destruct R as [R1 R].
      apply Forall_cons_iff in O. destruct O as [[O1 _] O].
      cbn [set_items flat_map app]. constructor; [left; auto|constructor; [auto|auto]].
    - cbn [refs_of obj_ok] in *. destruct O as (_ & _ & _ & _ & O). clear H.
      induction fields as [|f fs IH]; [constructor|].
      cbn [flat_map] in R. apply Forall_app in R. destruct R as [R1 R].
      apply Forall_cons_iff in O. destruct O as [O1 O].
      cbn [map]. constructor; auto. destruct f; cbn [field_item item_good].
      + apply Forall_cons_iff in R1. easy.
      + split; [easy|]. unfold word, wrapU. apply Z.mod_pos_bound. lia.
  Qed.

  Record Inv (V : list addr) (M : list (addr * addr)) (s : sst) (d : dst) : Prop := mkInv {
    i_row : srow_no s = drow_no d;
    i_nn : 0 <= srow_no s;
    i_done : forall a k, sdone s a = Some k ->
      0 <= k < srow_no s /\ In a V /\
      exists o, nth_error h a = Some o /\
                (is_scalar o \/ exists a', ddone d k = Some a' /\ In (a, a') M);
    i_undone : forall a o, In a V -> nth_error h a = Some o -> tracked o -> sdone s a <> None;
    i_M : forall a a', In (a, a') M -> In a V /\ (a' < length (dheap d))%nat;
    i_inj : forall a b a', In (a, a') M -> In (b, a') M -> a = b;
    i_fun : forall a a' b' o, In (a, a') M -> In (a, b') M -> nth_error h a = Some o ->
      ~ is_value o -> a' = b' }.

  Lemma inv_same : forall V M s d s' d',
    Inv V M s d -> srow_no s <= srow_no s' -> srow_no s' = drow_no d' -> sdone s' = sdone s ->
    (forall k, k < srow_no s -> ddone d' k = ddone d k) ->
    (length (dheap d) <= length (dheap d'))%nat -> Inv V M s' d'.
  Proof. clear Hok layout.
    intros V M s d s' d' I L E D K H. destruct I. constructor; auto; try lia.
    - intros a k Q. rewrite D in Q. destruct (i_done0 a k Q) as (A & B & o & O & C).
      split; [lia|]. split; auto. exists o. split; auto. destruct C as [C|(a' & C1 & C2)]; auto.
      right. exists a'. split; auto. rewrite K; auto. lia.
    - intros a o. rewrite D. eauto.
    - intros a a' Q. destruct (i_M0 a a' Q). split; auto. lia.
  Qed.

  Lemma inv_step : forall V M s d s' d' a a' o,
    Inv V M s d -> srow_no s <= srow_no s' -> srow_no s' = drow_no d' ->
    nth_error h a = Some o ->
    (forall b, b <> a -> sdone s' b = sdone s b) ->
    (sdone s' a = sdone s a \/
     exists k, sdone s' a = Some k /\ 0 <= k < srow_no s' /\ (is_scalar o \/ ddone d' k = Some a')) ->
    (tracked o -> sdone s' a <> None) ->
    (forall k, k < srow_no s -> ddone d' k = ddone d k) ->
    a' = length (dheap d) -> (length (dheap d) < length (dheap d'))%nat ->
    (~ is_value o -> forall b', ~ In (a, b') M) ->
    Inv (a :: V) ((a, a') :: M) s' d'.
  Proof. clear Hok layout.
    intros V M s d s' d' a a' o I L E Ha Db Da T K Ea H N. destruct I. constructor; auto; try lia.
    - intros b k Q.
      assert (X : sdone s b = Some k \/
                  (b = a /\ 0 <= k < srow_no s' /\ (is_scalar o \/ ddone d' k = Some a'))).
      { destruct (Nat.eq_dec b a); [subst b|left; now rewrite <- Db].
        destruct Da as [Da|(k0 & D1 & D2 & D3)]; [left; congruence|right]. 
        assert (k0 = k) by congruence. subst. auto. }
      destruct X as [X|(X1 & X2 & X3)].
      + destruct (i_done0 b k X) as (A & B & ob & O & C).
        split; [lia|]. split; [now right|]. exists ob. split; auto.
        destruct C as [C|(b' & C1 & C2)]; auto. right. exists b'. split; [rewrite K; auto; lia|now right].
      + subst b. split; [lia|]. split; [now left|]. exists o. split; auto.
        destruct X3; auto. right. exists a'. split; auto. now left.
    - intros b ob [->|B] O TT.
      + assert (ob = o) by congruence. subst. auto.
      + destruct (Nat.eq_dec b a).
        * subst. assert (ob = o) by congruence. subst. auto.
        * rewrite Db by auto. eauto.
    - intros b b' [Q|Q].
      + injection Q as <- <-. split; [now left|lia].
      + destruct (i_M0 b b' Q). split; [now right|lia].
    - intros b c b' [Q|Q] [R|R].
      + congruence.
      + injection Q as <- <-. destruct (i_M0 _ _ R). lia.
      + injection R as <- <-. destruct (i_M0 _ _ Q). lia.
      + eauto.
    - intros b b' c' ob [Q|Q] [R|R] O NV.
      + congruence.
      + injection Q as <- <-. assert (ob = o) by congruence. subst. exfalso. eapply N; eauto.
      + injection R as <- <-. assert (ob = o) by congruence. subst. exfalso. eapply N; eauto.
      + eauto.
  Qed.

  Definition ext (h1 h2 : heap) : Prop :=
    (length h1 <= length h2)%nat /\ forall a, (a < length h1)%nat -> nth_error h2 a = nth_error h1 a.

  Lemma ext_refl : forall x, ext x x.
  Proof. split; auto. Qed.
  Lemma ext_trans : forall x y z, ext x y -> ext y z -> ext x z.
  Proof. intros x y z [A B] [C D]. split; [lia|]. intros. rewrite D, B by lia. easy. Qed.
  Lemma ext_app : forall x l, ext x (x ++ l).
  Proof. intros. split; [rewrite app_length; lia|]. intros. now apply nth_error_app1. Qed.

  (** Pairs [N] are complete in heap [h'] under [M]. *)
  Definition complete (N : list (addr * addr)) (M : list (addr * addr)) (h' : heap) : Prop :=
    forall a a', In (a, a') N -> exists o o',
      nth_error h a = Some o /\ nth_error h' a' = Some o' /\ same_obj (mrel M) o o'.

  Lemma complete_mono : forall N M M' h1 h2, complete N M h1 -> incl M M' -> ext h1 h2 ->
    complete N M' h2.
  Proof.
    intros N M M' h1 h2 C I [E1 E2] a a' Q. destruct (C a a' Q) as (o & o' & A & B & D).
    exists o, o'. split; auto. split.
    - rewrite E2; auto. apply nth_error_Some. congruence.
    - now apply (same_obj_mono M).
  Qed.

  (** Outcome of reading back what was written between [s] and [s']. *)
  Definition good_step (n : nat) : Prop := forall it k s s' V M d new tail K m,
    ser h n it s = Ok s' -> srows s' = srows s ++ new -> srow_no s' < 2 ^ 63 ->
    item_good h it -> kind_ok it k -> Inv V M s d -> cnt h V (it :: K) ->
    drows d = new ++ tail -> (length new < m)%nat ->
    exists c d' V' N, des layout m k d = Ok (c, d') /\ drows d' = tail /\
      Inv V' (N ++ M) s' d' /\ cnt h V' K /\ cell_ok (mrel (N ++ M)) it k c /\
      ext (dheap d) (dheap d') /\ complete N (N ++ M) (dheap d') /\
      (forall b b', In (b, b') N -> (length (dheap d) <= b')%nat).

  Lemma good_list : forall n, good_step n -> forall l ks s s' V M d new tail K m,
    ser_list (ser h n) l s = Ok s' -> srows s' = srows s ++ new -> srow_no s' < 2 ^ 63 ->
    Forall (item_good h) l -> Forall2 kind_ok l ks -> Inv V M s d -> cnt h V (l ++ K) ->
    drows d = new ++ tail -> (length new < m)%nat ->
    exists cs d' V' N, des_list (des layout m) ks d = Ok (cs, d') /\ drows d' = tail /\
      Inv V' (N ++ M) s' d' /\ cnt h V' K /\ cells_ok (mrel (N ++ M)) l ks cs /\
      ext (dheap d) (dheap d') /\ complete N (N ++ M) (dheap d') /\
      (forall b b', In (b, b') N -> (length (dheap d) <= b')%nat).
  Proof.
    intros n G. induction l as [|x l IH]; intros ks s s' V M d new tail K m HS HR HB HG HK HI HC HD HM.
    - inversion HK; subst. injection HS as <-.
      assert (new = []) by (apply (app_inv_head (srows s)); rewrite app_nil_r; auto). subst.
      exists [], d, V, []. cbn [app] in *. split; [easy|]. split; [easy|]. split; [easy|]. split; [easy|].
      split; [constructor|]. split; [apply ext_refl|]. split; [intros ? ? []|intros ? ? []].
    - inversion HK as [|? k ? ks' K1 K2]; subst. apply Forall_cons_iff in HG. destruct HG as [G1 G2].
      cbn [ser_list] in HS. destruct (ser h n x s) as [s1| | |] eqn:E1; try discriminate.
      cbn [bindr] in HS.
      destruct (ser_rows_mono _ _ _ _ _ E1) as (n1 & A1 & B1).
      destruct (ser_list_mono _ _ _ _ _ HS) as (n2 & A2 & B2).
      assert (new = n1 ++ n2).
      { apply (app_inv_head (srows s)). rewrite <- HR, A2, A1. now rewrite app_assoc. }
      subst new. pose proof (zlen_nn _ n2). rewrite app_length in HM.
      rewrite <- app_assoc in HD.
      destruct (G x k s s1 V M d n1 (n2 ++ tail) (l ++ K) m) as
        (c & d1 & V1 & N1 & R1 & R2 & R3 & R4 & R5 & R6 & R7 & R8); auto; try lia.
      destruct (IH ks' s1 s' V1 (N1 ++ M) d1 n2 tail K m) as
        (cs & d2 & V2 & N2 & T1 & T2 & T3 & T4 & T5 & T6 & T7 & T8); auto; try lia.
      exists (c :: cs), d2, V2, (N2 ++ N1).
      assert (I1 : incl (N1 ++ M) ((N2 ++ N1) ++ M)).
      { rewrite <- app_assoc. apply incl_appr, incl_refl. }
      rewrite <- app_assoc in *.
      cbn [des_list]. rewrite R1. cbn [bindr]. rewrite T1. cbn [bindr].
      split; [easy|]. split; [easy|]. split; [easy|]. split; [easy|].
      split; [constructor; [now apply (cell_ok_mono (N1 ++ M))|easy]|].
      split; [eapply ext_trans; eauto|]. split.
      + intros a a' Q. apply in_app_or in Q. destruct Q as [Q|Q].
        * apply T7; auto.
        * apply (complete_mono N1 (N1 ++ M) _ (dheap d1)); auto.
      + intros b b' Q. apply in_app_or in Q. destruct Q as [Q|Q]; eauto.
        specialize (T8 b b' Q). destruct R6. lia.
  Qed.

  Lemma write_nth : forall (x : heap) a o, (a < length x)%nat ->
    length (write_obj x a o) = length x /\ nth_error (write_obj x a o) a = Some o /\
    forall b, b <> a -> nth_error (write_obj x a o) b = nth_error x b.
  Proof.
    intros x a o L. unfold write_obj.
    assert (F : length (firstn a x) = a) by (rewrite firstn_length; lia).
    split; [rewrite app_length; cbn [length]; rewrite F, skipn_length; lia|]. split.
    - rewrite nth_error_app2 by lia. rewrite F, Nat.sub_diag. easy.
    - intros b N. rewrite <- (firstn_skipn a x) at 3.
      destruct (lt_dec b a).
      + rewrite !nth_error_app1 by lia. easy.
      + rewrite !nth_error_app2 by lia. rewrite F.
        destruct (b - a)%nat as [|q] eqn:Q; [lia|].
        cbn [nth_error]. 
        assert (S1 : skipn a x = nth a x OHole :: skipn (S a) x).
        { clear - L. revert x L. induction a; intros [|y x] L; cbn in *; try lia; [easy|].
          apply IHa. lia. }
        rewrite S1. easy.
  Qed.

  (** Containers: the object is registered, its parts are read, it is filled in. *)
  Lemma good_build : forall n, good_step n -> forall a o cls blob ks mk s s' V M d new tail K m,
    nth_error h a = Some o -> ~ is_value o -> ~ is_scalar o -> tracked o -> sdone s a = None ->
    ser_list (ser h n) (items_of o) (emit (register s a) (Row cls blob)) = Ok s' ->
    srows s' = srows s ++ new -> srow_no s' < 2 ^ 63 ->
    Forall2 kind_ok (items_of o) ks -> Inv V M s d -> cnt h V (IStep (RPtr a) :: K) ->
    drows d = new ++ tail -> (length new <= m)%nat ->
    (forall M' cs, cells_ok M' (items_of o) ks cs -> same_obj M' o (mk cs)) ->
    exists r d' V' N,
      (exists rows', drows d = Row cls blob :: rows' /\
         build (des layout m) (DSt rows' (drow_no d + 1) (ddone d) (dheap d)) ks mk = Ok (r, d')) /\
      drows d' = tail /\
      Inv V' (N ++ M) s' d' /\ cnt h V' K /\ same_ref (mrel (N ++ M)) (RPtr a) r /\
      ext (dheap d) (dheap d') /\ complete N (N ++ M) (dheap d') /\
      (forall b b', In (b, b') N -> (length (dheap d) <= b')%nat).
  Proof.
    intros n G a o cls blob ks mk s s' V M d new tail K m Ha NV NS TR ND HS HR HB HK HI HC HD HM MK.
    destruct (ser_list_mono _ _ _ _ _ HS) as (n2 & A2 & B2).
    unfold emit, register in A2, B2. cbn [srows srow_no] in A2, B2.
    assert (E : new = Row cls blob :: n2).
    { apply (app_inv_head (srows s)). rewrite <- HR, A2, <- app_assoc. easy. }
    subst new. cbn [app length] in HD, HM.
    set (a' := length (dheap d)).
    set (d1 := remember (DSt (n2 ++ tail) (drow_no d + 1) (ddone d) (dheap d ++ [OHole])) a').
    assert (AV : ~ In a V).
    { intros Q. exact (i_undone _ _ _ _ HI a o Q Ha TR ND). }
    assert (I1 : Inv (a :: V) ((a, a') :: M) (emit (register s a) (Row cls blob)) d1).
    { pose proof (i_row _ _ _ _ HI). pose proof (i_nn _ _ _ _ HI).
      apply (inv_step V M s d _ d1 a a' o); auto.
      - unfold emit, register; cbn [srow_no]; lia.
      - unfold emit, register, d1, remember; cbn [srow_no drow_no]; lia.
      - intros b Nb. unfold emit, register, upd; cbn [sdone].
        now replace (Nat.eqb b a) with false by (symmetry; now apply Nat.eqb_neq).
      - right. exists (srow_no s). unfold emit, register, upd; cbn [sdone srow_no].
        rewrite Nat.eqb_refl. split; [easy|]. split; [lia|]. right.
        unfold d1, remember; cbn [ddone drow_no]. now replace (srow_no s =? drow_no d + 1 - 1) with true by lia.
      - intros _. unfold emit, register, upd; cbn [sdone]. now rewrite Nat.eqb_refl.
      - intros k Q. unfold d1, remember; cbn [ddone drow_no].
        now replace (k =? drow_no d + 1 - 1) with false by lia.
      - unfold d1, remember; cbn [dheap]. rewrite app_length; cbn [length]; lia.
      - intros _ b' Q. destruct (i_M _ _ _ _ HI a b' Q). contradiction. }
    destruct (good_list n G (items_of o) ks (emit (register s a) (Row cls blob)) s' (a :: V)
                ((a, a') :: M) d1 n2 tail K m) as
      (cs & d2 & V2 & N2 & T1 & T2 & T3 & T4 & T5 & T6 & T7 & T8); auto; try lia.
    { now apply items_good with (a := a). }
    { now apply cnt_visit. }
    exists (RPtr a'), (store d2 a' (mk cs)), V2, (N2 ++ [(a, a')]).
    assert (La : (a' < length (dheap d2))%nat).
    { destruct T6 as [T6 _]. unfold d1, remember in T6; cbn [dheap] in T6. rewrite app_length in T6; cbn [length] in T6.
      unfold a'. lia. }
    destruct (write_nth (dheap d2) a' (mk cs) La) as (W1 & W2 & W3).
    replace ((N2 ++ [(a, a')]) ++ M) with (N2 ++ (a, a') :: M) by now rewrite <- app_assoc.
    split.
    { exists (n2 ++ tail). split; [easy|]. unfold build, alloc. cbn [drows drow_no ddone dheap].
      fold a'. fold d1. rewrite T1. cbn [bindr]. easy. }
    split; [easy|]. split.
    { apply (inv_same _ _ s' d2 s' (store d2 a' (mk cs)) T3); auto; try lia; [exact (i_row _ _ _ _ T3)|].
      unfold store; cbn [dheap]. lia. }
    split; [easy|]. split.
    { constructor. unfold mrel. apply in_or_app. right. now left. }
    split.
    { split; [unfold store; cbn [dheap]; lia|]. intros b Lb. unfold store; cbn [dheap].
      rewrite W3 by (unfold a'; lia). destruct T6 as [_ T6]. rewrite T6.
      - unfold d1, remember; cbn [dheap]. now apply nth_error_app1.
      - unfold d1, remember; cbn [dheap]. rewrite app_length; lia. }
    split.
    - intros b b' Q. unfold store; cbn [dheap]. apply in_app_or in Q. destruct Q as [Q|[Q|[]]].
      + destruct (T7 b b' Q) as (x & x' & X1 & X2 & X3). exists x, x'. split; auto. split; auto.
        rewrite W3; auto. specialize (T8 b b' Q). unfold d1, remember in T8; cbn [dheap] in T8.
        rewrite app_length in T8; cbn [length] in T8. unfold a'. lia.
      + injection Q as <- <-. exists o, (mk cs). split; [easy|]. split; [easy|]. apply MK. exact T5.
    - intros b b' Q. apply in_app_or in Q. destruct Q as [Q|[Q|[]]].
      + specialize (T8 b b' Q). unfold d1, remember in T8; cbn [dheap] in T8.
        rewrite app_length in T8; cbn [length] in T8. lia.
      + injection Q as <- <-. unfold a'. lia.
  Qed.
End Sim.

Section Sim2.
  Variable layout : Z -> option (list kind).
  Variable h : heap.
  Hypothesis Hok : forall o, In o h -> obj_ok layout o /\ Forall (valid_ref h) (refs_of o).

  Lemma app_one : forall A (l new : list A) x, l ++ [x] = l ++ new -> new = [x].
  Proof. intros A l new x H. now apply app_inv_head in H. Qed.

  Lemma good_leaf : forall a o r0 s s' V M d new tail K rec,
    nth_error h a = Some o -> items_of o = [] -> ~ tracked o -> (is_value o \/ fragile o) ->
    s' = emit s r0 -> srows s' = srows s ++ new -> Inv h V M s d ->
    cnt h V (IStep (RPtr a) :: K) -> drows d = new ++ tail ->
    (drows d = r0 :: tail ->
     step layout rec d = Ok (RPtr (length (dheap d)), DSt tail (drow_no d + 1) (ddone d) (dheap d ++ [o]))) ->
    same_obj (mrel []) o o ->
    exists r d' V' N, step layout rec d = Ok (r, d') /\ drows d' = tail /\
      Inv h V' (N ++ M) s' d' /\ cnt h V' K /\ same_ref (mrel (N ++ M)) (RPtr a) r /\
      ext (dheap d) (dheap d') /\ complete h N (N ++ M) (dheap d') /\
      (forall b b', In (b, b') N -> (length (dheap d) <= b')%nat).
  Proof.
    intros a o r0 s s' V M d new tail K rec Ha HI0 NT VF ES HR HI HC HD ST SO. subst s'.
    unfold emit in HR. cbn [srows] in HR. apply app_one in HR. subst new. cbn [app] in HD.
    rewrite (ST HD).
    set (a' := length (dheap d)).
    exists (RPtr a'), (DSt tail (drow_no d + 1) (ddone d) (dheap d ++ [o])), (a :: V), [(a, a')].
    pose proof (i_row _ _ _ _ _ HI). pose proof (i_nn _ _ _ _ _ HI).
    split; [easy|]. split; [easy|]. split.
    { cbn [app]. apply (inv_step h V M s d _ _ a a' o); auto.
      - cbn [emit srow_no]. lia.
      - cbn [emit srow_no drow_no]. lia.
      - cbn [dheap]. rewrite app_length. cbn [length]. lia.
      - intros NV b' Q. destruct VF as [VF|VF]; [contradiction|].
        destruct (i_M _ _ _ _ _ HI a b' Q) as [X _]. exact (cnt_fresh h V a o K Ha VF HC X). }
    split; [now apply (cnt_leaf h V a o K)|].
    split; [constructor; now left|]. split; [apply ext_app|]. split.
    - intros b b' [Q|[]]. injection Q as <- <-. exists o, o. split; auto. split.
      + cbn [dheap]. unfold a'. rewrite nth_error_app2, Nat.sub_diag by lia. easy.
      + apply (same_obj_mono []); auto. intros x [].
    - intros b b' [Q|[]]. injection Q as <- <-. unfold a'. lia.
  Qed.

  Lemma wrapSU64 : forall k, 0 <= k < 2 ^ 63 -> wrapS 64 (wrapU 64 k) = k.
  Proof.
    intros. apply wrapSU; [lia|]. unfold inS. change (64 - 1) with 63. lia.
  Qed.

  Lemma good_back : forall a o cls k s V M d new tail K rec,
    nth_error h a = Some o -> ~ is_scalar o -> sdone s a = Some k -> srow_no s < 2 ^ 63 ->
    srows (emit s (Row (- cls) [wrapU 64 k])) = srows s ++ new -> Inv h V M s d ->
    cnt h V (IStep (RPtr a) :: K) -> drows d = new ++ tail ->
    (forall rows', drows d = Row (- cls) [wrapU 64 k] :: rows' -> 
       step layout rec d = Ok (lookup d (wrapS 64 (wrapU 64 k)), DSt rows' (drow_no d + 1) (ddone d) (dheap d))) ->
    exists r d' V' N, step layout rec d = Ok (r, d') /\ drows d' = tail /\
      Inv h V' (N ++ M) (emit s (Row (- cls) [wrapU 64 k])) d' /\ cnt h V' K /\ same_ref (mrel (N ++ M)) (RPtr a) r /\
      ext (dheap d) (dheap d') /\ complete h N (N ++ M) (dheap d') /\
      (forall b b', In (b, b') N -> (length (dheap d) <= b')%nat).
  Proof.
    intros a o cls k s V M d new tail K rec Ha NS SD HB HR HI HC HD ST.
    unfold emit in HR. cbn [srows] in HR. apply app_one in HR. subst new. cbn [app] in HD.
    destruct (i_done _ _ _ _ _ HI a k SD) as (K1 & K2 & o2 & O2 & K3).
    assert (o2 = o) by congruence. subst o2. destruct K3 as [K3|(a' & K3 & K4)]; [contradiction|].
    rewrite (ST tail HD). rewrite wrapSU64 by lia. unfold lookup. rewrite K3.
    pose proof (i_row _ _ _ _ _ HI).
    exists (RPtr a'), (DSt tail (drow_no d + 1) (ddone d) (dheap d)), V, [].
    split; [easy|]. split; [easy|]. split.
    { cbn [app]. apply (inv_same h V M s d); auto; cbn [emit srow_no drow_no dheap]; lia. }
    split; [now apply cnt_drop in HC|].
    split; [now constructor|]. split; [apply ext_refl|]. split; [intros ? ? []|intros ? ? []].
  Qed.

  (** One step of the deserializer on each kind of row. *)
  Lemma step_back_user : forall rec d cls k rows', ITEM_ID < cls < 2 ^ 31 -> 0 <= k < 2 ^ 63 ->
    drows d = Row (- cls) [wrapU 64 k] :: rows' ->
    step layout rec d = Ok (lookup d (wrapS 64 (wrapU 64 k)), DSt rows' (drow_no d + 1) (ddone d) (dheap d)).
  Proof.
    intros rec d cls k rows' Hc Hk E. unfold step, pop. rewrite E. cbn [bindr rcls].
    unfold ITEM_ID in *. replace (14 <? Z.abs (- cls)) with true by lia.
    replace (- cls <? 0) with true by lia. cbn [rblob].
    change (zget [wrapU 64 k] 0) with (Some (wrapU 64 k)). cbn [orUB bindr].
    replace (wrapS 64 (wrapU 64 k) <? 0) with false by (rewrite wrapSU64 by auto; lia).
    unfold back_ref. cbn [rblob]. change (zget [wrapU 64 k] 0) with (Some (wrapU 64 k)). cbn [orUB bindr].
    unfold lookup. cbn [ddone]. easy.
  Qed.

  Lemma step_user : forall rec d cls blob rows' ks, ITEM_ID < cls < 2 ^ 31 ->
    scalar_type cls = None -> cls <> BIGINT_ID -> layout cls = Some ks ->
    drows d = Row cls blob :: rows' ->
    step layout rec d = build rec (DSt rows' (drow_no d + 1) (ddone d) (dheap d)) ks
                          (fun cs => OUser cls (cells_fields ks cs)).
  Proof.
    intros rec d cls blob rows' ks Hc Hs Hb Hl E. unfold step, pop. rewrite E. cbn [bindr rcls].
    unfold ITEM_ID in *. replace (14 <? Z.abs cls) with true by lia.
    replace (cls <? 0) with false by lia. rewrite Hs. replace (cls =? BIGINT_ID) with false by lia.
    now rewrite Hl.
  Qed.

  Lemma step_list : forall rec d n rows', 0 <= n < 2 ^ 31 -> drows d = Row LIST_ID [n] :: rows' ->
    step layout rec d = build rec (DSt rows' (drow_no d + 1) (ddone d) (dheap d))
      (repeat KStep (Z.to_nat n)) (fun cs => OList (map cell_ref cs)).
  Proof.
    intros rec d n rows' Hn E. unfold step, pop. rewrite E.
    change (build rec (DSt rows' (drow_no d + 1) (ddone d) (dheap d))
      (repeat KStep (Z.to_nat (wrapS 32 n))) (fun cs => OList (map cell_ref cs)) =
      build rec (DSt rows' (drow_no d + 1) (ddone d) (dheap d))
      (repeat KStep (Z.to_nat n)) (fun cs => OList (map cell_ref cs))).
    replace (wrapS 32 n) with n; [easy|]. unfold wrapS. change (32 - 1) with 31.
    change (2 ^ 32) with (2 ^ 31 + 2 ^ 31). rewrite Z.mod_small; lia.
  Qed.
  Lemma step_tuple : forall rec d n rows', 0 <= n < 2 ^ 31 -> drows d = Row TUPLE_ID [n] :: rows' ->
    step layout rec d = build rec (DSt rows' (drow_no d + 1) (ddone d) (dheap d))
      (repeat KStep (Z.to_nat n)) (fun cs => OTuple (map cell_ref cs)).
  Proof.
    intros rec d n rows' Hn E. unfold step, pop. rewrite E.
    change (build rec (DSt rows' (drow_no d + 1) (ddone d) (dheap d))
      (repeat KStep (Z.to_nat (wrapS 32 n))) (fun cs => OTuple (map cell_ref cs)) =
      build rec (DSt rows' (drow_no d + 1) (ddone d) (dheap d))
      (repeat KStep (Z.to_nat n)) (fun cs => OTuple (map cell_ref cs))).
    replace (wrapS 32 n) with n; [easy|]. unfold wrapS. change (32 - 1) with 31.
    change (2 ^ 32) with (2 ^ 31 + 2 ^ 31). rewrite Z.mod_small; lia.
  Qed.
  Lemma step_dict : forall rec d num size usable n idx rows',
    inS 64 num -> 0 <= size < 2 ^ 31 -> inS 64 usable -> 0 <= n < 2 ^ 31 -> n <= 2 * size / 3 ->
    zlen idx = (size + 1) * 4 / 8 ->
    drows d = Row DICT_ID (wrapU 64 num :: size :: wrapU 64 usable :: n :: idx) :: rows' ->
    step layout rec d = build rec (DSt rows' (drow_no d + 1) (ddone d) (dheap d))
      (concat (repeat [KBox; KStep; KStep] (Z.to_nat n)))
      (fun cs => ODict num (Some (DTab size usable idx (cells_entries cs)))).
  Proof.
    intros rec d num size usable n idx rows' H1 H2 H3 H4 H5 H6 E. unfold step, pop. rewrite E.
    cbn [bindr rcls]. 
    change (ITEM_ID <? Z.abs DICT_ID) with false.
    change (DICT_ID <? 0) with false.
    change (Z.abs DICT_ID) with 8.
    change (8 =? NONE_ID) with false. change (8 =? INT_ID) with false. change (8 =? FLOAT_ID) with false.
    change (8 =? BOOL_ID) with false. change (8 =? STR_ID) with false. change (8 =? BYTES_ID) with false.
    change (8 =? BYTEARRAY_ID) with false. change (8 =? LIST_ID) with false.
    change (8 =? TUPLE_ID) with false. change (8 =? DICT_ID) with true. cbn iota. cbn [rblob]. cbv zeta.
    change (2 ^ 31) with 2147483648 in *.
    rewrite (wrapSU 64 num), (wrapSU 64 usable) by (auto; lia).
    rewrite (wrapS64_id size), (wrapS64_id n) by lia.
    replace ((0 <=? size) && ((size + 1) * 4 / 8 <=? zlen idx) && (n <=? 2 * size / 3)) with true by lia.
    rewrite <- H6. replace (Z.to_nat (zlen idx)) with (length idx) by (unfold zlen; lia).
    rewrite firstn_all. easy.
  Qed.
  Lemma step_set : forall rec d num fill mask finger rows',
    inS 64 num -> inS 64 fill -> 0 <= mask < 2 ^ 31 -> inS 64 finger ->
    drows d = Row SET_ID [wrapU 64 num; wrapU 64 fill; wrapU 64 mask; wrapU 64 finger] :: rows' ->
    step layout rec d = build rec (DSt rows' (drow_no d + 1) (ddone d) (dheap d))
      (concat (repeat [KBox; KStep] (Z.to_nat (mask + 1))))
      (fun cs => OSet num fill mask finger (cells_slots cs)).
  Proof.
    intros rec d num fill mask finger rows' H1 H2 H3 H4 E. unfold step, pop. rewrite E.
    cbn [bindr rcls]. 
    change (ITEM_ID <? Z.abs SET_ID) with false.
    change (SET_ID <? 0) with false.
    change (Z.abs SET_ID) with 9.
    change (9 =? NONE_ID) with false. change (9 =? INT_ID) with false. change (9 =? FLOAT_ID) with false.
    change (9 =? BOOL_ID) with false. change (9 =? STR_ID) with false. change (9 =? BYTES_ID) with false.
    change (9 =? BYTEARRAY_ID) with false. change (9 =? LIST_ID) with false.
    change (9 =? TUPLE_ID) with false. change (9 =? DICT_ID) with false. change (9 =? SET_ID) with true.
    cbn iota. cbn [rblob]. change (2 ^ 31) with 2147483648 in *.
    rewrite (wrapSU 64 num), (wrapSU 64 fill), (wrapSU 64 finger) by (auto; lia).
    rewrite (wrapSU 64 mask) by (unfold inS; lia). easy.
  Qed.

  Lemma good_ptr : forall n, good_step layout h n -> forall a s s' V M d new tail K m,
    ser h (S n) (IStep (RPtr a)) s = Ok s' -> srows s' = srows s ++ new -> srow_no s' < 2 ^ 63 ->
    valid_ref h (RPtr a) -> Inv h V M s d -> cnt h V (IStep (RPtr a) :: K) ->
    drows d = new ++ tail -> (length new <= m)%nat ->
    exists r d' V' N, step layout (des layout m) d = Ok (r, d') /\ drows d' = tail /\
      Inv h V' (N ++ M) s' d' /\ cnt h V' K /\ same_ref (mrel (N ++ M)) (RPtr a) r /\
      ext (dheap d) (dheap d') /\ complete h N (N ++ M) (dheap d') /\
      (forall b b', In (b, b') N -> (length (dheap d) <= b')%nat).
  Proof.
    intros n G a s s' V M d new tail K m HS HR HB HV HI HC HD HM.
    cbn [ser] in HS. destruct (nth_error h a) as [o|] eqn:Ha; [|discriminate].
    destruct (Hok o (nth_error_In _ _ Ha)) as [OK _].
    pose proof (i_nn _ _ _ _ _ HI) as NN. pose proof (i_row _ _ _ _ _ HI) as RO.
    assert (DK : forall k, sdone s a = Some k -> 0 <= k < srow_no s).
    { intros k Q. now destruct (i_done _ _ _ _ _ HI a k Q). }
    destruct o as [cls v g|bits|b|nchars bytes|bytes|bytes|size nn|nxt st rem|l|l|num t|num fill mask finger tab|cls fs| | |];
      try discriminate; cbn [obj_ok] in OK; try contradiction.
    - (* boxed integer *)
      destruct OK as (sg & b & T & R1 & R2 & R3 & R4).
      destruct (scalar_type_props _ _ _ T) as (P1 & P2 & P3).
      assert (AV : ~ In a V) by (eapply cnt_fresh; eauto; exact I).
      unfold shared in HS. destruct (sdone s a) as [k|] eqn:SD.
      { exfalso. destruct (i_done _ _ _ _ _ HI a k SD) as (_ & X & _). contradiction. }
      injection HS as <-. unfold scalar_bits in *. rewrite T in *.
      unfold box_rows, emit, register in HR. cbn [srows] in HR. rewrite <- app_assoc in HR.
      apply app_inv_head in HR. cbn [app] in HR. subst new. cbn [app] in HD.
      rewrite (step_box layout _ d sg b cls _ _ tail T HD).
      rewrite to_scalar_word by auto.
      set (a' := length (dheap d)).
      eexists (RPtr a'), _, (a :: V), [(a, a')].
      split; [reflexivity|]. split; [easy|]. split.
      { cbn [app]. apply (inv_step h V M s d _ _ a a' (OScalar cls v g)); auto.
        - unfold box_rows, emit, register. cbn [srow_no]. lia.
        - unfold box_rows, emit, register. cbn [srow_no drow_no]. lia.
        - intros c Nc. unfold box_rows, emit, register, upd. cbn [sdone].
          now replace (Nat.eqb c a) with false by (symmetry; now apply Nat.eqb_neq).
        - right. exists (srow_no s). unfold box_rows, emit, register, upd. cbn [sdone srow_no].
          rewrite Nat.eqb_refl. split; [easy|]. split; [lia|]. left. exact I.
        - intros _. unfold box_rows, emit, register, upd. cbn [sdone]. now rewrite Nat.eqb_refl.
        - cbn [dheap]. rewrite app_length. cbn [length]. lia.
        - intros X. exfalso. apply X. exact I. }
      split; [now apply (cnt_leaf h V a (OScalar cls v g) K)|].
      split; [constructor; now left|]. split; [apply ext_app|]. split.
      + intros c c' [Q|[]]. injection Q as <- <-. eexists _, (OScalar cls v 0). split; [exact Ha|]. split.
        * cbn [dheap]. unfold a'. rewrite nth_error_app2, Nat.sub_diag by lia. easy.
        * constructor.
      + intros c c' [Q|[]]. injection Q as <- <-. unfold a'. lia.
    - (* float *)
      injection HS as <-. eapply good_leaf; eauto; try easy; try (left; exact I); try (solve [constructor]).
      intros E. unfold step, pop. rewrite E. reflexivity.
    - (* bool *)
      injection HS as <-. eapply good_leaf; eauto; try easy; try (left; exact I); try (solve [constructor]).
      intros E. unfold step, pop. rewrite E. destruct b; reflexivity.
    - (* str *)
      destruct OK as (B & L & NC). unfold INT_MAX in L.
      injection HS as <-. eapply good_leaf; eauto; try easy; try (left; exact I); try (solve [constructor]).
      intros E. unfold step, pop. rewrite E. cbn [bindr rcls].
      assert (RS : read_string (Row STR_ID (zlen bytes :: nchars :: pack (nwords bytes) bytes)) 2 = Ok bytes).
      { apply (read_string_ok STR_ID bytes [nchars]); auto. change (2 ^ 31) with 2147483648. lia. }
      change ((do l <- read_string (Row STR_ID (zlen bytes :: nchars :: pack (nwords bytes) bytes)) 2;
              return_obj (DSt tail (drow_no d + 1) (ddone d) (dheap d)) (OStr (wrapS 32 nchars) l))
              = Ok (RPtr (length (dheap d)), DSt tail (drow_no d + 1) (ddone d) (dheap d ++ [OStr nchars bytes]))).
      rewrite RS. cbn [bindr]. replace (wrapS 32 nchars) with nchars; [reflexivity|].
      unfold wrapS. change (32 - 1) with 31. change (2 ^ 32) with (2 ^ 31 + 2 ^ 31). rewrite Z.mod_small; lia.
    - (* bytes *)
      destruct OK as (B & L). unfold INT_MAX in L.
      injection HS as <-. eapply good_leaf; eauto; try easy; try (left; exact I); try (solve [constructor]).
      intros E. unfold step, pop. rewrite E. cbn [bindr rcls].
      assert (RS : read_string (Row BYTES_ID (zlen bytes :: pack (nwords bytes) bytes)) 1 = Ok bytes).
      { apply (read_string_ok BYTES_ID bytes []); auto. change (2 ^ 31) with 2147483648. lia. }
      change ((do l <- read_string (Row BYTES_ID (zlen bytes :: pack (nwords bytes) bytes)) 1;
              return_obj (DSt tail (drow_no d + 1) (ddone d) (dheap d)) (OBytes l))
              = Ok (RPtr (length (dheap d)), DSt tail (drow_no d + 1) (ddone d) (dheap d ++ [OBytes bytes]))).
      rewrite RS. reflexivity.
    - (* bytearray *)
      destruct OK as (B & L). unfold INT_MAX in L.
      injection HS as <-. eapply good_leaf; eauto; try easy; try (right; exact I); try (solve [constructor]).
      intros E. unfold step, pop. rewrite E. cbn [bindr rcls].
      assert (RS : read_string (Row BYTEARRAY_ID (zlen bytes :: pack (nwords bytes) bytes)) 1 = Ok bytes).
      { apply (read_string_ok BYTEARRAY_ID bytes []); auto. change (2 ^ 31) with 2147483648. lia. }
      change ((do l <- read_string (Row BYTEARRAY_ID (zlen bytes :: pack (nwords bytes) bytes)) 1;
              return_obj (DSt tail (drow_no d + 1) (ddone d) (dheap d)) (OByteArray l))
              = Ok (RPtr (length (dheap d)), DSt tail (drow_no d + 1) (ddone d) (dheap d ++ [OByteArray bytes]))).
      rewrite RS. reflexivity.
    - (* bigint *)
      destruct OK as (W & L & L2).
      unfold shared in HS. destruct (sdone s a) as [k|] eqn:SD.
      { injection HS as <-. pose proof (DK k eq_refl).
        cbn [emit srow_no] in HB.
        apply (good_back a (OBig size nn) BIGINT_ID k s V M d new tail K); auto; try easy; try lia. intros rows' E. apply (step_back_user _ d BIGINT_ID); auto; [unfold ITEM_ID, BIGINT_ID; lia|lia]. }
      injection HS as <-.
      unfold emit, register in HR. cbn [srows] in HR. rewrite <- app_assoc in HR.
      apply app_inv_head in HR. cbn [app] in HR. subst new. cbn [app] in HD.
      pose proof (zlen_nn _ nn).
      assert (SZ : wrapS 64 (wrapU 64 size) = size).
      { apply wrapSU; [lia|]. unfold inS. change (2 ^ 31) with 2147483648 in L2. change (2 ^ (64 - 1)) with 9223372036854775808. lia. }
      set (a' := length (dheap d)).
      set (d2 := DSt tail (drow_no d + 2) (fun k => if k =? drow_no d + 1 - 1 then Some a' else ddone d k) (dheap d ++ [OBig size nn])).
      assert (ST : step layout (des layout m) d = Ok (RPtr a', d2)).
      { unfold step, pop. rewrite HD. cbn [bindr rcls].
        change (ITEM_ID <? Z.abs BIGINT_ID) with true. change (BIGINT_ID <? 0) with false.
        change (scalar_type BIGINT_ID) with (@None (bool * Z)). change (BIGINT_ID =? BIGINT_ID) with true. cbn iota.
        unfold alloc. cbn [drows drow_no ddone dheap]. unfold remember. cbn [drows drow_no ddone dheap].
        cbn [bindr]. cbn [rblob]. change (zget (wrapU 64 size :: nn) 0) with (Some (wrapU 64 size)). cbn [orUB bindr].
        cbv zeta. rewrite SZ.
        replace (zlen (wrapU 64 size :: nn)) with (1 + zlen nn) by (unfold zlen; cbn [length]; lia).
        replace (Z.abs size + 1 <=? 1 + zlen nn) with true by lia.
        cbn [skipn]. rewrite <- L. replace (Z.to_nat (zlen nn)) with (length nn) by (unfold zlen; lia).
        rewrite firstn_all. unfold store. cbn [drows drow_no ddone dheap].
        unfold write_obj, a'. fold a'. rewrite firstn_app_exact by easy.
        rewrite skipn_all2 by (rewrite app_length; cbn [length]; unfold a'; lia).
        replace (drow_no d + 1 + 1) with (drow_no d + 2) by lia. reflexivity. }
      rewrite ST.
      assert (AV : ~ In a V).
      { intros Q. exact (i_undone _ _ _ _ _ HI a _ Q Ha I SD). }
      exists (RPtr a'), d2, (a :: V), [(a, a')].
      split; [reflexivity|]. split; [easy|]. split.
      { cbn [app]. apply (inv_step h V M s d _ _ a a' (OBig size nn)); auto.
        - unfold emit, register. cbn [srow_no]. lia.
        - unfold emit, register, d2. cbn [srow_no drow_no]. lia.
        - intros c Nc. unfold emit, register, upd. cbn [sdone].
          now replace (Nat.eqb c a) with false by (symmetry; now apply Nat.eqb_neq).
        - right. exists (srow_no s). unfold emit, register, upd. cbn [sdone srow_no].
          rewrite Nat.eqb_refl. split; [easy|]. split; [lia|]. right.
          unfold d2. cbn [ddone]. now replace (srow_no s =? drow_no d + 1 - 1) with true by lia.
        - intros _. unfold emit, register, upd. cbn [sdone]. now rewrite Nat.eqb_refl.
        - intros k Q. unfold d2. cbn [ddone]. now replace (k =? drow_no d + 1 - 1) with false by lia.
        - unfold d2. cbn [dheap]. rewrite app_length. cbn [length]. lia.
        - intros _ b' Q. destruct (i_M _ _ _ _ _ HI a b' Q). contradiction. }
      split; [now apply (cnt_leaf h V a (OBig size nn) K)|].
      split; [constructor; now left|]. split; [apply ext_app|]. split.
      + intros c c' [Q|[]]. injection Q as <- <-. eexists _, (OBig size nn). split; [exact Ha|]. split.
        * unfold d2. cbn [dheap]. unfold a'. rewrite nth_error_app2, Nat.sub_diag by lia. easy.
        * constructor.
      + intros c c' [Q|[]]. injection Q as <- <-. unfold a'. lia.
    - (* list *)
      unfold len_ok in OK. unfold shared in HS. destruct (sdone s a) as [k|] eqn:SD.
      { injection HS as <-. pose proof (DK k eq_refl). cbn [emit srow_no] in HB.
        apply (good_back a (OList l) LIST_ID k s V M d new tail K); auto; try easy; try lia. intros rows' E. unfold step, pop. rewrite E. reflexivity. }
      destruct (good_build layout h Hok n G a (OList l) LIST_ID [zlen l] (repeat KStep (length l))
                  (fun cs => OList (map cell_ref cs)) s s' V M d new tail K m) as
        (r & d' & V' & N & (rows' & E1 & E2) & REST); auto; try easy.
      { apply kinds_list. }
      { intros M' cs Q. constructor. eapply cells_list. exact Q. }
      exists r, d', V', N. split; [|exact REST].
      rewrite (step_list _ d (zlen l) rows'); auto; [|split; [apply zlen_nn|auto]].
      replace (Z.to_nat (zlen l)) with (length l) by (unfold zlen; lia). exact E2.
    - (* tuple *)
      unfold len_ok in OK. unfold shared in HS. destruct (sdone s a) as [k|] eqn:SD.
      { injection HS as <-. pose proof (DK k eq_refl). cbn [emit srow_no] in HB.
        apply (good_back a (OTuple l) TUPLE_ID k s V M d new tail K); auto; try easy; try lia. intros rows' E. unfold step, pop. rewrite E. reflexivity. }
      destruct (good_build layout h Hok n G a (OTuple l) TUPLE_ID [zlen l] (repeat KStep (length l))
                  (fun cs => OTuple (map cell_ref cs)) s s' V M d new tail K m) as
        (r & d' & V' & N & (rows' & E1 & E2) & REST); auto; try easy.
      { apply kinds_list. }
      { intros M' cs Q. constructor. eapply cells_list. exact Q. }
      exists r, d', V', N. split; [|exact REST].
      rewrite (step_tuple _ d (zlen l) rows'); auto; [|split; [apply zlen_nn|auto]].
      replace (Z.to_nat (zlen l)) with (length l) by (unfold zlen; lia). exact E2.
    - (* dict *)
      destruct t as [t|]; [|contradiction]. destruct t as [size usable idx es]. cbn [dt_size dt_usable dt_idx dt_entries] in *.
      destruct OK as (O1 & O2 & O3 & O4 & O5 & O6 & O7).
      unfold shared in HS. destruct (sdone s a) as [k|] eqn:SD.
      { injection HS as <-. pose proof (DK k eq_refl). cbn [emit srow_no] in HB.
        apply (good_back a (ODict num (Some (DTab size usable idx es))) DICT_ID k s V M d new tail K); auto; try easy; try lia. intros rows' E. unfold step, pop. rewrite E. reflexivity. }
      destruct (good_build layout h Hok n G a (ODict num (Some (DTab size usable idx es))) DICT_ID
                  (wrapU 64 num :: size :: wrapU 64 usable :: zlen es :: idx)
                  (concat (repeat [KBox; KStep; KStep] (length es)))
                  (fun cs => ODict num (Some (DTab size usable idx (cells_entries cs)))) s s' V M d new tail K m) as
        (r & d' & V' & N & (rows' & E1 & E2) & REST); auto; try easy.
      { apply kinds_dict. }
      { intros M' cs Q. constructor. eapply cells_dict. exact Q. }
      exists r, d', V', N. split; [|exact REST].
      pose proof (zlen_nn _ es).
      rewrite (step_dict _ d num size usable (zlen es) idx rows'); auto.
      + replace (Z.to_nat (zlen es)) with (length es) by (unfold zlen; lia). exact E2.
      + split; [auto|]. assert (2 * size / 3 <= size) by (apply Z.div_le_upper_bound; lia). lia.
    - (* set *)
      destruct OK as (O1 & O2 & O3 & O4 & O5 & O6).
      unfold shared in HS. destruct (sdone s a) as [k|] eqn:SD.
      { injection HS as <-. pose proof (DK k eq_refl). cbn [emit srow_no] in HB.
        apply (good_back a (OSet num fill mask finger tab) SET_ID k s V M d new tail K); auto; try easy; try lia. intros rows' E. unfold step, pop. rewrite E. reflexivity. }
      destruct (good_build layout h Hok n G a (OSet num fill mask finger tab) SET_ID
                  [wrapU 64 num; wrapU 64 fill; wrapU 64 mask; wrapU 64 finger]
                  (concat (repeat [KBox; KStep] (length tab)))
                  (fun cs => OSet num fill mask finger (cells_slots cs)) s s' V M d new tail K m) as
        (r & d' & V' & N & (rows' & E1 & E2) & REST); auto; try easy.
      { apply kinds_set. }
      { intros M' cs Q. constructor. eapply cells_set; [exact Q|].
        eapply Forall_impl; [|exact O6]. cbn. intros ? [? X]. exact X. }
      exists r, d', V', N. split; [|exact REST].
      rewrite (step_set _ d num fill mask finger rows'); auto.
      replace (Z.to_nat (mask + 1)) with (length tab) by (unfold zlen in O5; lia). exact E2.
    - (* instance *)
      destruct OK as (O1 & O2 & O3 & O4 & O5).
      unfold shared in HS. destruct (sdone s a) as [k|] eqn:SD.
      { injection HS as <-. pose proof (DK k eq_refl). cbn [emit srow_no] in HB.
        apply (good_back a (OUser cls fs) cls k s V M d new tail K); auto; try easy; try lia. intros rows' E. apply (step_back_user _ d cls); auto; lia. }
      destruct (good_build layout h Hok n G a (OUser cls fs) cls [] (map field_kind fs)
                  (fun cs => OUser cls (cells_fields (map field_kind fs) cs)) s s' V M d new tail K m) as
        (r & d' & V' & N & (rows' & E1 & E2) & REST); auto; try easy.
      { apply kinds_user. }
      { intros M' cs Q. constructor. now apply cells_user. }
      exists r, d', V', N. split; [|exact REST].
      rewrite (step_user _ d cls [] rows' (map field_kind fs)); auto.
  Qed.

  Lemma good_all : forall n, good_step layout h n.
  Proof.
    induction n as [|n G]; intros it k s s' V M d new tail K m HS HR HB HG HK HI HC HD HM; [discriminate|].
    destruct m as [|m]; [lia|].
    pose proof (i_nn _ _ _ _ _ HI) as NN. pose proof (i_row _ _ _ _ _ HI) as RO.
    destruct it as [r|cls v|cid w].
    - inversion HK; subst. cbn [des].
      destruct r as [|a|].
      + cbn [ser] in HS. injection HS as <-. unfold emit in HR. cbn [srows] in HR. apply app_one in HR. subst new.
        cbn [app] in HD.
        exists (CRef RNull), (DSt tail (drow_no d + 1) (ddone d) (dheap d)), V, [].
        split; [unfold step, pop; rewrite HD; reflexivity|].
        split; [easy|]. split.
        { cbn [app]. apply (inv_same h V M s d); auto; cbn [emit srow_no drow_no dheap]; lia. }
        split; [now apply cnt_drop in HC|]. split; [constructor; constructor|].
        split; [apply ext_refl|]. split; [intros ? ? []|intros ? ? []].
      + destruct (good_ptr n G a s s' V M d new tail K m) as
          (r & d' & V' & N & R1 & R2 & R3 & R4 & R5 & R6 & R7 & R8); auto; [lia|].
        exists (CRef r), d', V', N. rewrite R1. cbn [bindr].
        split; [easy|]. split; [easy|]. split; [easy|]. split; [easy|]. split; [now constructor|].
        auto.
      + discriminate.
    - inversion HK; subst. cbn [des]. cbn [ser] in HS. injection HS as <-.
      unfold box_rows, emit in HR. cbn [srows] in HR. rewrite <- app_assoc in HR. apply app_inv_head in HR.
      cbn [app] in HR. subst new. cbn [app] in HD.
      assert (T : exists sg, scalar_type cls = Some (sg, 64) /\ to_scalar (sg, 64) (wrapU 64 v) = v).
      { destruct HG as [[-> Q]|[-> Q]].
        - exists true. split; [easy|]. unfold to_scalar. cbn [fst snd]. apply wrapSU; auto. lia.
        - exists false. split; [easy|]. unfold to_scalar. cbn [fst snd]. unfold wrapU.
          rewrite Z.mod_mod by lia. apply Z.mod_small. exact Q. }
      destruct T as (sg & T1 & T2).
      rewrite (step_box layout _ d sg 64 cls _ _ tail T1 HD). cbn [bindr]. rewrite T2.
      exists (CNum v), (DSt tail (drow_no d + 2) (ddone d) (dheap d ++ [OScalar cls v 0])), V, [].
      split.
      { unfold unbox. cbn [dheap]. rewrite nth_error_app2, Nat.sub_diag by lia. easy. }
      split; [easy|]. split.
      { cbn [app]. apply (inv_same h V M s d); auto; cbn [box_rows emit srow_no drow_no dheap]; try lia.
        rewrite app_length. lia. }
      split; [now apply cnt_drop in HC|]. split; [constructor|].
      split; [apply ext_app|]. split; [intros ? ? []|intros ? ? []].
    - inversion HK; subst. cbn [des]. cbn [ser] in HS. injection HS as <-.
      unfold emit in HR. cbn [srows] in HR. apply app_one in HR. subst new. cbn [app] in HD.
      exists (CNum (w mod 2 ^ (8 * sz))), (DSt tail (drow_no d + 1) (ddone d) (dheap d)), V, [].
      split; [unfold val_deserialize, pop; rewrite HD; reflexivity|].
      split; [easy|]. split.
      { cbn [app]. apply (inv_same h V M s d); auto; cbn [emit srow_no drow_no dheap]; lia. }
      split; [now apply cnt_drop in HC|]. split; [constructor|].
      split; [apply ext_refl|]. split; [intros ? ? []|intros ? ? []].
  Qed.
End Sim2.

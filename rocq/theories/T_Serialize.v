(** Theorems about serialization: C31 (rows and bytes), C32 (object graphs),
    C33 (rows in database cells). *)
From Verif Require Import Base M_Serialize S_Serialize P_SerBytes P_Serialize P_SerSim P_SerTotal.

(** ** C31: rows to bytes and back.  [row_ok]: class id and blob size are C ints, the
    blob consists of 64-bit words. *)

Theorem C31_round_trip : forall rows data,
  rows <> [] ->
  (forall r, In r rows -> inS 32 (rcls r) /\ zlen (rblob r) < 2 ^ 31
                          /\ forall w, In w (rblob r) -> 0 <= w < 2 ^ 64) ->
  rows_to_bytes rows = Ok data -> bytes_to_rows data = Ok rows.
Proof.
  intros rows data N H E. unfold rows_to_bytes in E.
  destruct (INT_MAX <? rows_size rows); [discriminate|]. injection E as <-.
  apply bytes_to_rows_ok; auto. apply Forall_forall. intros r I. destruct (H r I) as (A & B & C).
  split; auto. split; auto. apply Forall_forall. exact C.
Qed.
Print Assumptions C31_round_trip.

(** Writing fails only when the result would be longer than INT_MAX bytes. *)
Theorem C31_too_large : forall rows,
  rows_to_bytes rows = Exn ValueError <->
  INT_MAX < fold_right (fun r n => 8 + 8 * zlen (rblob r) + n) 0 rows.
Proof.
  intros rows. unfold rows_to_bytes. rewrite rows_size_ok.
  assert (E : zlen (flat_map row_bytes rows) = fold_right (fun r n => 8 + 8 * zlen (rblob r) + n) 0 rows).
  { induction rows; [easy|]. cbn [flat_map fold_right]. rewrite zlen_app', row_bytes_length, IHrows. easy. }
  rewrite E. destruct (INT_MAX <? _) eqn:Q; split; intros; try lia; try discriminate. easy.
Qed.
Print Assumptions C31_too_large.

(** Every byte string is either rejected with ValueError or decodes to rows whose byte
    form is that very string; nothing outside the input is read ([UB] is excluded). *)
Theorem C31_any_input : forall data,
  (forall b, In b data -> 0 <= b < 256) -> zlen data <= INT_MAX ->
  bytes_to_rows data = Exn ValueError
  \/ exists rows, bytes_to_rows data = Ok rows /\ rows <> [] /\ rows_to_bytes rows = Ok data.
Proof.
  intros data B L. 
  destruct (bytes_loop_total (S (length data)) data 0 []) as [(rs & E & N & R & F)|E].
  - apply Forall_forall. exact B.
  - pose proof (zlen_nn _ data). lia.
  - unfold zlen. lia.
  - constructor.
  - easy.
  - right. exists rs. unfold bytes_to_rows. rewrite Z.sub_0_r in E. split; [exact E|]. split; auto.
    unfold rows_to_bytes. rewrite rows_size_ok, F.
    now replace (INT_MAX <? zlen data) with false by lia.
  - left. unfold bytes_to_rows. rewrite Z.sub_0_r in E. exact E.
Qed.
Print Assumptions C31_any_input.

Example C31_case :
  rows_to_bytes [Row 7 [2]; Row (-7) [0]; Row 0 []]
  = Ok [7;0;0;0; 1;0;0;0; 2;0;0;0;0;0;0;0; 249;255;255;255; 1;0;0;0; 0;0;0;0;0;0;0;0; 0;0;0;0;0;0;0;0]
  /\ bytes_to_rows [7;0;0;0; 1;0;0;0; 2;0;0] = Exn ValueError
  /\ bytes_to_rows [7;0;0;0; 255;255;255;255] = Exn ValueError
  /\ bytes_to_rows [] = Exn ValueError.
Proof. vm_compute. auto. Qed.

(** ** C32: object graphs. *)

Lemma serialize_ok : forall layout h root,
  valid_ref h root ->
  (forall o, In o h -> obj_ok layout o /\ Forall (valid_ref h) (refs_of o)) ->
  exists s, ser h (S (S (length h))) (IStep root) (SSt [] 0 (fun _ => None)) = Ok s
            /\ serialize h root = Ok (srows s) /\ Forall row_ok (srows s)
            /\ srow_no s = zlen (srows s) /\ srows s <> [].
Proof.
  intros layout h root V O.
  destruct (ser_total layout h O (S (S (length h))) (IStep root) (SSt [] 0 (fun _ => None))) as (s & E & _ & R); auto.
  { unfold todo. assert (FT : forall l : list nat, filter (fun _ => true) l = l) by (induction l; cbn; congruence).
    change (undone (SSt [] 0 (fun _ => None))) with (fun _ : nat => true). rewrite FT, seq_length. lia. }
  exists s. split; auto. split; [unfold serialize; now rewrite E|]. split; [apply R; constructor|].
  destruct (ser_rows_mono _ _ _ _ _ E) as (new & A & B). cbn [srows srow_no app] in A, B.
  split; [rewrite A; lia|].
  intros X. rewrite X in A. subst new.
  (* at least one row is written *)
  cbn [ser] in E. destruct root as [|a|]; try discriminate.
  - injection E as <-. discriminate.
  - destruct (nth_error h a) as [o|] eqn:Ha; [|discriminate].
    unfold shared in E. cbn [sdone] in E.
    assert (EL : forall l r st, ser_list (ser h (S (length h))) l (emit st r) = Ok s -> srows s <> []).
    { intros l r st Q. apply ser_list_mono in Q. destruct Q as (nw & Q & _). rewrite Q.
      cbn [emit srows]. destruct (srows st); discriminate. }
    destruct (O o (nth_error_In _ _ Ha)) as [OK _].
    destruct o; cbn [obj_ok] in OK; try contradiction; try discriminate;
      try (injection E as <-; discriminate); try (apply (EL _ _ _ E); exact X).
    destruct t; [|contradiction]. apply (EL _ _ _ E). exact X.
Qed.

(** serialize never fails on such a graph, whatever its sharing and cycles. *)
Theorem C32_serializes_partial : forall layout h root,
  graph_ok layout h root -> exists rows, serialize h root = Ok rows.
Proof.
  intros layout h root (V & O & _).
  destruct (serialize_ok layout h root V O) as (s & _ & E & _). eauto.
Qed.
Print Assumptions C32_serializes_partial.

Lemma round_trip_rows : forall layout h root rows,
  graph_ok layout h root -> serialize h root = Ok rows -> zlen rows < 2 ^ 63 ->
  exists h' root', deserialize layout rows = Ok (h', root') /\ is_copy h root h' root'.
Proof.
  intros layout h root rows (V & O & F) E L.
  destruct (serialize_ok layout h root V O) as (s & ES & E2 & RO & RN & _).
  assert (rows = srows s) by congruence. subst rows.
  set (d0 := DSt (srows s) 0 (fun _ => None) []).
  destruct (good_all layout h O (S (S (length h))) (IStep root) KStep (SSt [] 0 (fun _ => None)) s
              [] [] d0 (srows s) [] [] (S (S (length (srows s))))) as
    (c & d' & V' & N & R1 & R2 & R3 & R4 & R5 & R6 & R7 & R8); auto.
  - lia.
  - constructor.
  - constructor; cbn; try easy; try lia.
  - now apply cnt_init.
  - unfold d0. cbn [drows]. now rewrite app_nil_r.
  - remember (S (length (srows s))) as m eqn:Em in R1. cbn [des] in R1. rewrite Em in R1. clear m Em.
    destruct (step layout (des layout (S (length (srows s)))) d0) as [[r d1]| | |] eqn:ST; try discriminate.
    cbn [bindr] in R1. injection R1 as <- <-.
    inversion R5 as [? ? SR| |]; subst.
    exists (dheap d1), r. split.
    + unfold deserialize. fold d0. rewrite ST. easy.
    + rewrite app_nil_r in *. exists (mrel N). split; auto. split; [exact R7|].
      destruct R3. split; [exact i_inj|exact i_fun].
Qed.

(** deserialize(serialize(x)) is a copy of x, with the same sharing and cycles, for
    graphs [graph_ok]: see S_Serialize.v; what is missing is in [C32_refuted] below. *)
Theorem C32_round_trip_partial : forall layout h root,
  graph_ok layout h root ->
  B_serialize h root = Exn ValueError
  \/ exists data h' root',
       B_serialize h root = Ok data /\ B_deserialize layout data = Ok (h', root')
       /\ is_copy h root h' root'.
Proof.
  intros layout h root G. pose proof G as (V & O & F).
  destruct (serialize_ok layout h root V O) as (s & ES & E2 & RO & RN & NE).
  unfold B_serialize. rewrite E2. cbn [bindr].
  destruct (rows_to_bytes (srows s)) as [data| | |] eqn:EB.
  - right.
    assert (SZ : zlen (flat_map row_bytes (srows s)) <= INT_MAX /\ data = flat_map row_bytes (srows s)).
    { unfold rows_to_bytes in EB. rewrite rows_size_ok in EB.
      destruct (INT_MAX <? zlen _) eqn:Q; [discriminate|]. injection EB as <-. split; [lia|reflexivity]. }
    destruct SZ as [SZ ->].
    destruct (round_trip_rows layout h root (srows s) G E2) as (h' & root' & D & C).
    { pose proof (flat_rows_length (srows s)). unfold zlen, INT_MAX in *. lia. }
    exists (flat_map row_bytes (srows s)), h', root'. split; auto. split; auto.
    unfold B_deserialize. rewrite bytes_to_rows_ok by auto. exact D.
  - left. unfold rows_to_bytes in EB. destruct (INT_MAX <? rows_size (srows s)); [|discriminate]. congruence.
  - unfold rows_to_bytes in EB. destruct (INT_MAX <? rows_size (srows s)); discriminate.
  - unfold rows_to_bytes in EB. destruct (INT_MAX <? rows_size (srows s)); discriminate.
Qed.
Print Assumptions C32_round_trip_partial.

(** A cyclic graph with sharing: an instance whose attribute is a list holding the
    instance, a tuple twice, a string twice, an integer, and a dict. *)
Definition ex_layout (cls : Z) : option (list kind) :=
  if cls =? 80 then Some [KStep; KRaw INT_ID 8; KRaw BOOL_ID 1] else None.
Definition ex_heap : heap :=
  [ OUser 80 [FRef (RPtr 1%nat); FRaw INT_ID 8 (2 ^ 64 - 5) 0; FRaw BOOL_ID 1 1 77];
    OList [RPtr 0%nat; RPtr 2%nat; RPtr 2%nat; RPtr 3%nat; RPtr 3%nat; RPtr 4%nat; RNull; RPtr 5%nat];
    OTuple [];
    OStr 2 [104; 195; 169];
    OScalar I64_ID (-7) 0;
    ODict 1 (Some (DTab 8 4 [2 ^ 64 - 1; 2 ^ 64 - 2 ^ 32; 2 ^ 64 - 1; 2 ^ 64 - 1] [(99, RPtr 3%nat, RPtr 1%nat)])) ].

Example C32_case : graph_ok ex_layout ex_heap (RPtr 0%nat) /\ 
  exists data h' root', B_serialize ex_heap (RPtr 0%nat) = Ok data
    /\ B_deserialize ex_layout data = Ok (h', root') /\ root' = RPtr 0%nat
    /\ nth_error h' 1 = Some (OList [RPtr 0%nat; RPtr 2%nat; RPtr 2%nat; RPtr 3%nat; RPtr 4%nat; RPtr 5%nat; RNull; RPtr 6%nat]).
Proof.
  split.
  - split; [cbn; lia|]. split.
    + intros o I.
      repeat (destruct I as [<-|I]; [split; [|cbn [refs_of map flat_map app]; repeat constructor; cbn; lia]|]); try destruct I.
      5: exists true, 64; split; [reflexivity|].
      all: cbn [obj_ok]; repeat (apply conj || apply Forall_cons || apply Forall_nil);
           first [exact I | reflexivity | vm_compute; intro; discriminate | vm_compute; intro; reflexivity].
    + intros a o Ha Fa. destruct a as [|[|[|[|[|[|a]]]]]]; cbn in Ha; try (injection Ha as <-; try contradiction).
      * vm_compute. lia.
      * destruct a; discriminate.
  - eexists _, _, _. split; [vm_compute; reflexivity|]. split; [vm_compute; reflexivity|]. split; reflexivity.
Qed.

(** The full property fails.  (1) A list holding the same boxed integer twice comes back
    with None as second element: integers are entered into the serializer's done table
    but not into the deserializer's.  (2) A range comes back as an integer, and what
    follows it in the list is lost: range rows have no header.  (3) A bytearray
    referenced twice comes back as two bytearrays.  (4)-(6) Serializing a dict from
    which an entry was deleted, a set from which an element was removed, or a dict that
    never had an element is an invalid memory access. *)
Theorem C32_refuted : forall layout,
  (* l = [n, n] *)
  (let h := [OList [RPtr 1%nat; RPtr 1%nat]; OScalar I64_ID 5 0] in
   exists data h', B_serialize h (RPtr 0%nat) = Ok data
     /\ B_deserialize layout data = Ok (h', RPtr 0%nat)
     /\ nth_error h' 0 = Some (OList [RPtr 1%nat; RNull])
     /\ ~ is_copy h (RPtr 0%nat) h' (RPtr 0%nat))
  /\ (* l = [range(3), "ab"] *)
  (let h := [OList [RPtr 1%nat; RPtr 2%nat]; ORange 0 1 3; OStr 2 [97; 98]] in
   exists data h', B_serialize h (RPtr 0%nat) = Ok data
     /\ B_deserialize layout data = Ok (h', RPtr 0%nat)
     /\ h' = [OList [RPtr 1%nat; RPtr 2%nat]; OScalar I64_ID 0 0; OScalar I64_ID 1 0]
     /\ ~ is_copy h (RPtr 0%nat) h' (RPtr 0%nat))
  /\ (* l = [b, b] with a bytearray b *)
  (let h := [OList [RPtr 1%nat; RPtr 1%nat]; OByteArray [120]] in
   exists data h', B_serialize h (RPtr 0%nat) = Ok data
     /\ B_deserialize layout data = Ok (h', RPtr 0%nat)
     /\ h' = [OList [RPtr 1%nat; RPtr 2%nat]; OByteArray [120]; OByteArray [120]]
     /\ ~ is_copy h (RPtr 0%nat) h' (RPtr 0%nat))
  /\ (* d = {"a": "a"}; del d["a"] *)
  B_serialize [ODict 0 (Some (DTab 8 4 [2 ^ 64 - 1; 2 ^ 64 - 2 ^ 32 + 2 ^ 32 - 2; 2 ^ 64 - 1; 2 ^ 64 - 1] [(99, RPtr 1%nat, RBad)])); OStr 1 [97]]
    (RPtr 0%nat) = UB
  /\ (* s = {..}; s.discard(..) *)
  B_serialize [OSet 0 1 0 0 [(-1, RBad)]] (RPtr 0%nat) = UB
  /\ (* {} *)
  B_serialize [ODict 0 None] (RPtr 0%nat) = UB.
Proof.
  intros layout. split; [|split; [|split; [|split; [|split]]]]; try reflexivity.
  - eexists _, _. split; [vm_compute; reflexivity|]. split; [vm_compute; reflexivity|]. split; [reflexivity|].
    intros (M & R & O & _). inversion R as [|? ? Q]; subst. destruct (O _ _ Q) as (o & o' & A & B & C).
    cbn in A, B. injection A as <-. injection B as <-. inversion C as [| | | | | | | |? ? FF| | | | |]; subst.
    inversion FF as [|? ? ? ? _ F2]; subst. inversion F2 as [|? ? ? ? F3 _]; subst. inversion F3.
  - eexists _, _. split; [vm_compute; reflexivity|]. split; [vm_compute; reflexivity|]. split; [reflexivity|].
    intros (M & R & O & _). inversion R as [|? ? Q]; subst. destruct (O _ _ Q) as (o & o' & A & B & C).
    cbn in A, B. injection A as <-. injection B as <-. inversion C as [| | | | | | | |? ? FF| | | | |]; subst.
    inversion FF as [|? ? ? ? F1 _]; subst. inversion F1 as [|? ? Q1]; subst.
    destruct (O _ _ Q1) as (o & o' & A & B & D). cbn in A, B. injection A as <-. injection B as <-. inversion D.
  - eexists _, _. split; [vm_compute; reflexivity|]. split; [vm_compute; reflexivity|]. split; [reflexivity|].
    intros (M & R & O & _ & Fn). inversion R as [|? ? Q]; subst. destruct (O _ _ Q) as (o & o' & A & B & C).
    cbn in A, B. injection A as <-. injection B as <-. inversion C as [| | | | | | | |? ? FF| | | | |]; subst.
    inversion FF as [|? ? ? ? F1 F2]; subst. inversion F1 as [|? ? Q1]; subst.
    inversion F2 as [|? ? ? ? F3 _]; subst. inversion F3 as [|? ? Q2]; subst.
    assert (X : 1%nat = 2%nat) by (eapply (Fn 1%nat 1%nat 2%nat); eauto; [reflexivity|intros []]).
    discriminate.
Qed.
Print Assumptions C32_refuted.

(** ** C33: rows in database cells. *)

(** If the debug text fits its buffer, unpacking the stored cell gives the rows back. *)
Theorem C33_round_trip_partial : forall rows blob,
  (forall r, In r rows -> inS 32 (rcls r) /\ zlen (rblob r) < 2 ^ 31
                          /\ forall w, In w (rblob r) -> 0 <= w < 2 ^ 64) ->
  store_rows rows = Ok blob -> zlen blob < 2 ^ 31 -> extract_row blob = Ok rows.
Proof.
  intros rows blob H E L. unfold store_rows in E.
  destruct (print_rows rows); try discriminate. cbn [bindr] in E. unfold insert_row in E.
  rewrite total_ok, Z.leb_refl in E.
  destruct (debug_text _ _); try discriminate. cbn [bindr] in E. injection E as <-.
  assert (RO : Forall row_ok rows).
  { apply Forall_forall. intros r I. destruct (H r I) as (A & B & C). split; auto. split; auto.
    apply Forall_forall. exact C. }
  unfold extract_row.
  set (bl := flat_map (fun r => head_word r :: rblob r) rows) in *.
  assert (W : wrapS 32 (zlen bl) = zlen bl).
  { pose proof (zlen_nn _ bl). unfold wrapS. change (32 - 1) with 31.
    change (2 ^ 32) with (2 ^ 31 + 2 ^ 31). rewrite Z.mod_small; lia. }
  rewrite W. destruct rows as [|r rs]; [reflexivity|].
  replace (zlen bl =? 0) with false by (unfold bl; cbn [flat_map app]; unfold zlen; cbn [length]; lia).
  unfold bl. apply (extract_ok (r :: rs) _ []); auto; [discriminate|].
  clear. induction (r :: rs) as [|x l IH]; [cbn; lia|]. cbn [flat_map app length]. rewrite app_length. lia.
Qed.
Print Assumptions C33_round_trip_partial.

(** When the rows are small the text fits: 44 words in all are always safe. *)
Lemma dec_len_le : forall f w, dec_len f w <= Z.of_nat f + 1.
Proof. induction f; intros; cbn [dec_len]; [lia|]. destruct (w <? 10); [lia|]. specialize (IHf (w / 10)). lia. Qed.

Lemma debug_fits : forall width ws, (forall w, width w <= 22) -> zlen ws <= 44 ->
  debug_text width ws = Ok tt.
Proof.
  intros width ws W L. unfold debug_text.
  assert (G : forall n, fold_left (fun len w => len + (width w + 1)) ws n <= n + 23 * zlen ws).
  { clear L. induction ws; intros; cbn [fold_left]; [change (zlen []) with 0; lia|].
    specialize (IHws (n + (width a + 1))). specialize (W a).
    replace (zlen (a :: ws)) with (1 + zlen ws) by (unfold zlen; cbn [length]; lia). lia. }
  specialize (G 0). now replace (_ <=? 1024) with true by lia.
Qed.

Theorem C33_small_rows_partial : forall rows,
  (forall r, In r rows -> inS 32 (rcls r) /\ zlen (rblob r) < 2 ^ 31
                          /\ forall w, In w (rblob r) -> 0 <= w < 2 ^ 64) ->
  fold_right (fun r n => 1 + zlen (rblob r) + n) 0 rows <= 44 ->
  exists blob, store_rows rows = Ok blob /\ extract_row blob = Ok rows.
Proof.
  intros rows H L.
  assert (E : zlen (flat_map (fun r => head_word r :: rblob r) rows)
              = fold_right (fun r n => 1 + zlen (rblob r) + n) 0 rows).
  { clear. induction rows; [easy|]. cbn [flat_map fold_right]. rewrite zlen_app', IHrows.
    unfold zlen. cbn [length]. lia. }
  assert (LU : forall w, width_lu w <= 22).
  { intros. unfold width_lu. pose proof (dec_len_le 20 w). lia. }
  assert (LD : forall w, width_ld w <= 22).
  { intros. unfold width_ld. pose proof (dec_len_le 20 w). pose proof (dec_len_le 20 (- wrapS 64 w)).
    destruct (wrapS 64 w <? 0); lia. }
  assert (PR : print_rows rows = Ok tt).
  { clear E H. induction rows as [|r rs IH]; [easy|]. cbn [fold_right print_rows] in *.
    assert (0 <= fold_right (fun r n => 1 + zlen (rblob r) + n) 0 rs).
    { clear. induction rs; cbn [fold_right]; [lia|]. pose proof (zlen_nn _ (rblob a)). lia. }
    pose proof (zlen_nn _ (rblob r)).
    rewrite (debug_fits width_ld) by (auto; lia). cbn [bindr]. apply IH. lia. }
  assert (ST : store_rows rows = Ok (flat_map (fun r => head_word r :: rblob r) rows)).
  { unfold store_rows. rewrite PR. cbn [bindr]. unfold insert_row. rewrite total_ok, Z.leb_refl.
    rewrite (debug_fits width_lu) by (auto; lia). easy. }
  eexists. split; [exact ST|]. eapply C33_round_trip_partial; eauto. rewrite E.
  change (2 ^ 31) with 2147483648. lia.
Qed.
Print Assumptions C33_small_rows_partial.

(** Larger states overrun the 1024-byte stack buffer of the debug text: e.g. a row with
    a string of 500 bytes. *)
Theorem C33_refuted :
  let r := Row STR_ID (500 :: 500 :: repeat 7016996765293437281 63) in
  inS 32 (rcls r) /\ zlen (rblob r) < 2 ^ 31 /\ (forall w, In w (rblob r) -> 0 <= w < 2 ^ 64)
  /\ store_rows [r] = UB.
Proof.
  cbn [rcls rblob]. split; [unfold inS, STR_ID; lia|]. split; [reflexivity|]. split; [|reflexivity].
  intros w [<-|[<-|I]]; try lia. apply repeat_spec in I. subst. lia.
Qed.
Print Assumptions C33_refuted.

Example C33_case : exists blob,
  store_rows [Row 80 []; Row 7 [2]; Row 0 []; Row (-7) [1]] = Ok blob
  /\ extract_row blob = Ok [Row 80 []; Row 7 [2]; Row 0 []; Row (-7) [1]].
Proof. eexists. split; [vm_compute; reflexivity|]. vm_compute. reflexivity. Qed.

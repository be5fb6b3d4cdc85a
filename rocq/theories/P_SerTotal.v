(** The serializer terminates on every finite graph and writes well-formed rows. *)
From Verif Require Import Base M_Serialize S_Serialize P_SerBytes P_Serialize P_SerSim.

Lemma filter_le : forall A (f g : A -> bool) l, (forall x, f x = true -> g x = true) ->
  (length (filter f l) <= length (filter g l))%nat.
Proof.
  intros A f g l H. induction l as [|x l IH]; [easy|]. cbn.
  specialize (H x). destruct (f x), (g x); cbn; try lia; discriminate (H eq_refl).
Qed.
Lemma filter_lt : forall A (f g : A -> bool) l x, (forall x, f x = true -> g x = true) ->
  In x l -> f x = false -> g x = true -> (length (filter f l) < length (filter g l))%nat.
Proof.
  intros A f g l x H I F G. induction l as [|y l IH]; [destruct I|].
  pose proof (filter_le A f g l H) as L. cbn. destruct I as [->|I].
  - rewrite F, G. cbn. lia.
  - specialize (IH I). specialize (H y). destruct (f y), (g y); cbn; try lia; discriminate (H eq_refl).
Qed.

Section Total.
  Variable layout : Z -> option (list kind).
  Variable h : heap.
  Hypothesis Hok : forall o, In o h -> obj_ok layout o /\ Forall (valid_ref h) (refs_of o).

  Definition undone (s : sst) (p : addr) : bool := match sdone s p with None => true | Some _ => false end.
  Definition todo (s : sst) : nat := length (filter (undone s) (seq 0 (length h))).
  Definition sext (s s' : sst) : Prop := forall p, undone s' p = true -> undone s p = true.

  Lemma todo_ext : forall s s', sext s s' -> (todo s' <= todo s)%nat.
  Proof. intros. apply filter_le. exact H. Qed.

  Lemma todo_reg : forall s a r, (a < length h)%nat -> sdone s a = None ->
    (todo (emit (register s a) r) < todo s)%nat /\ sext s (emit (register s a) r).
  Proof.
    intros s a r L D.
    assert (X : sext s (emit (register s a) r)).
    { intros p. unfold undone, emit, register, upd; cbn [sdone]. destruct (Nat.eqb p a); auto. discriminate. }
    split; auto. apply filter_lt with (x := a); auto.
    - apply in_seq. lia.
    - unfold undone, emit, register, upd; cbn [sdone]. now rewrite Nat.eqb_refl.
    - unfold undone. now rewrite D.
  Qed.

  Lemma sext_emit : forall s r, sext s (emit s r).
  Proof. intros s r p H. exact H. Qed.
  Lemma sext_trans : forall a b c, sext a b -> sext b c -> sext a c.
  Proof. intros a b c H1 H2 p Q. auto. Qed.

  Lemma word_wrapU : forall z, word (wrapU 64 z).
  Proof. intros. unfold word, wrapU. apply Z.mod_pos_bound. lia. Qed.

  Lemma row_ok1 : forall c w, inS 32 c -> word w -> row_ok (Row c [w]).
  Proof.
    intros. unfold row_ok; cbn [rcls rblob]. split; auto. split; [reflexivity|]. constructor; auto.
  Qed.
  Lemma row_ok0 : forall c, inS 32 c -> row_ok (Row c []).
  Proof. intros. unfold row_ok; cbn [rcls rblob]. split; auto. split; [reflexivity|constructor]. Qed.

  Definition good_out (s s' : sst) : Prop :=
    sext s s' /\ (Forall row_ok (srows s) -> Forall row_ok (srows s')).

  Lemma good_emit : forall s r, row_ok r -> good_out s (emit s r).
  Proof.
    intros s r R. split; [apply sext_emit|]. intros F. cbn [emit srows]. apply Forall_app. auto.
  Qed.
  Lemma good_trans : forall a b c, good_out a b -> good_out b c -> good_out a c.
  Proof. intros a b c [A1 A2] [B1 B2]. split; [eapply sext_trans; eauto|auto]. Qed.

  Lemma good_box : forall cls w s, inS 32 cls -> good_out s (box_rows cls w s).
  Proof.
    intros cls w s H. unfold box_rows. eapply good_trans; apply good_emit; [now apply row_ok0|].
    apply row_ok1; [|apply word_wrapU]. unfold val_cls. destruct (cls =? I64_ID); auto. unfold inS, INT_ID; lia.
  Qed.

  Lemma pack_words : forall n l, Forall byte l -> Forall word (pack n l) /\ length (pack n l) = n.
  Proof.
    induction n; intros l H; [split; [constructor|easy]|]. cbn [pack length].
    destruct (IHn (skipn 8 l)) as [A B]; [now apply Forall_skipn'|]. rewrite B. split; [|easy].
    constructor; auto. unfold word.
    pose proof (num_of_range (firstn 8 l) (Forall_firstn' _ _ _ _ H)) as R.
    assert (zlen (firstn 8 l) <= 8) by (unfold zlen; rewrite firstn_length; lia).
    assert (256 ^ zlen (firstn 8 l) <= 256 ^ 8) by (apply Z.pow_le_mono_r; lia).
    change (256 ^ 8) with (2 ^ 64) in *. lia.
  Qed.

  Lemma list_total : forall n,
    (forall it s, item_good h it -> (todo s < n)%nat -> exists s', ser h n it s = Ok s' /\ good_out s s') ->
    forall l s, Forall (item_good h) l -> (todo s < n)%nat ->
    exists s', ser_list (ser h n) l s = Ok s' /\ good_out s s'.
  Proof.
    intros n IH. induction l as [|x l IHl]; intros s G T.
    - exists s. split; [easy|]. split; [intros p; auto|auto].
    - apply Forall_cons_iff in G. destruct G as [G1 G].
      destruct (IH x s G1 T) as (s1 & E1 & O1).
      destruct (IHl s1 G) as (s2 & E2 & O2).
      { destruct O1 as [O1 _]. pose proof (todo_ext _ _ O1). lia. }
      exists s2. cbn [ser_list]. rewrite E1. cbn [bindr]. split; auto. eapply good_trans; eauto.
  Qed.

  Lemma reg_good : forall s a r, row_ok r -> good_out s (emit (register s a) r).
  Proof.
    intros s a r R. split.
    - intros p. unfold undone, emit, register, upd; cbn [sdone]. destruct (Nat.eqb p a); auto. discriminate.
    - intros F. cbn [emit register srows]. apply Forall_app. auto.
  Qed.

  Lemma strlen_words : forall l, zlen l < INT_MAX - 64 ->
    0 <= zlen l /\ 0 <= Z.of_nat (nwords l) <= zlen l + 1.
  Proof.
    intros l L. pose proof (zlen_nn _ l). split; auto. unfold nwords.
    assert (0 <= zlen l / 8 <= zlen l).
    { split; [apply Z.div_pos; lia|apply Z.div_le_upper_bound; lia]. }
    lia.
  Qed.

  Lemma ser_total : forall n it s, item_good h it -> (todo s < n)%nat ->
    exists s', ser h n it s = Ok s' /\ good_out s s'.
  Proof.
    induction n as [|n IH]; intros it s G T; [lia|].
    assert (C1 : forall c, 0 <= c <= 63 -> inS 32 c /\ inS 32 (- c)).
    { intros c Hc. unfold inS. change (2 ^ (32 - 1)) with 2147483648. lia. }
    cbn [ser]. destruct it as [r|cls v|cid w].
    2:{ eexists. split; [reflexivity|]. apply good_box. destruct G as [[-> _]|[-> _]]; apply C1; unfold I64_ID, U64_ID; lia. }
    2:{ eexists. split; [reflexivity|]. apply good_emit. destruct G. now apply row_ok1. }
    destruct r as [|a|]; cbn [item_good valid_ref] in G; [| |contradiction].
    { eexists. split; [reflexivity|]. apply good_emit, row_ok0. apply C1. unfold NONE_ID; lia. }
    destruct (nth_error h a) as [o|] eqn:Ha; [|apply nth_error_None in Ha; lia].
    pose proof (items_good layout h Hok a o Ha) as IG.
    destruct (Hok o (nth_error_In _ _ Ha)) as [OK _].
    assert (SH : forall cls blob l, inS 32 cls -> inS 32 (- cls) -> row_ok (Row cls blob) ->
              Forall (item_good h) l ->
              exists s', shared cls a s (fun s => ser_list (ser h n) l (emit s (Row cls blob))) = Ok s' /\ good_out s s').
    { intros cls blob l Q1 Q2 RO F. unfold shared. destruct (sdone s a) as [k|] eqn:SD.
      - eexists. split; [reflexivity|]. apply good_emit, row_ok1; auto. apply word_wrapU.
      - destruct (todo_reg s a (Row cls blob) G SD) as [T1 T2].
        destruct (list_total n IH l (emit (register s a) (Row cls blob)) F) as (s' & E & O); [lia|].
        exists s'. split; auto. eapply good_trans; [|exact O]. now apply reg_good. }
    destruct o as [cls v g|bits|b|nchars bytes|bytes|bytes|size nn|nxt st rem|l|l|num t|num fill mask finger tab|cls fs| | |];
      cbn [obj_ok items_of] in *; try contradiction.
    - destruct OK as (sg & b & Q & _). destruct (scalar_type_props _ _ _ Q) as (P1 & _).
      unfold ITEM_ID in P1. change (2 ^ 31) with 2147483648 in P1.
      unfold shared. destruct (sdone s a).
      + eexists. split; [reflexivity|]. apply good_emit, row_ok1; [unfold inS; change (2 ^ (32 - 1)) with 2147483648; lia|apply word_wrapU].
      + eexists. split; [reflexivity|].
        assert (Z1 : good_out s (register s a)).
        { split; [|auto]. intros p. unfold undone, register, upd; cbn [sdone]. destruct (Nat.eqb p a); auto. discriminate. }
        eapply good_trans; [exact Z1|]. apply good_box. unfold inS; change (2 ^ (32 - 1)) with 2147483648; lia.
    - eexists. split; [reflexivity|]. apply good_emit, row_ok1; auto. apply C1. unfold FLOAT_ID; lia.
    - eexists. split; [reflexivity|]. apply good_emit, row_ok1; [apply C1; unfold BOOL_ID; lia|]. unfold word. destruct b; lia.
    - destruct OK as (B & L & NC). destruct (strlen_words bytes L) as [W1 W2]. unfold INT_MAX in L.
      change (2 ^ 31) with 2147483648 in *.
      destruct (pack_words (nwords bytes) bytes B) as [PW PL].
      eexists. split; [reflexivity|]. apply good_emit. unfold row_ok; cbn [rcls rblob].
      split; [apply C1; unfold STR_ID; lia|]. split.
      + unfold zlen in *. cbn [length]. rewrite PL. change (2 ^ 31) with 2147483648. lia.
      + constructor; [unfold word; lia|]. constructor; [unfold word; lia|auto].
    - destruct OK as (B & L). destruct (strlen_words bytes L) as [W1 W2]. unfold INT_MAX in L.
      destruct (pack_words (nwords bytes) bytes B) as [PW PL].
      eexists. split; [reflexivity|]. apply good_emit. unfold row_ok; cbn [rcls rblob].
      split; [apply C1; unfold BYTES_ID; lia|]. split.
      + unfold zlen in *. cbn [length]. rewrite PL. change (2 ^ 31) with 2147483648. lia.
      + constructor; [unfold word; lia|auto].
    - destruct OK as (B & L). destruct (strlen_words bytes L) as [W1 W2]. unfold INT_MAX in L.
      destruct (pack_words (nwords bytes) bytes B) as [PW PL].
      eexists. split; [reflexivity|]. apply good_emit. unfold row_ok; cbn [rcls rblob].
      split; [apply C1; unfold BYTEARRAY_ID; lia|]. split.
      + unfold zlen in *. cbn [length]. rewrite PL. change (2 ^ 31) with 2147483648. lia.
      + constructor; [unfold word; lia|auto].
    - destruct OK as (W & L & L2). 
      assert (BI : inS 32 BIGINT_ID /\ inS 32 (- BIGINT_ID)) by (apply C1; unfold BIGINT_ID; lia).
      unfold shared. destruct (sdone s a).
      + eexists. split; [reflexivity|]. apply good_emit, row_ok1; [apply BI|apply word_wrapU].
      + eexists. split; [reflexivity|].
        eapply good_trans; [apply reg_good, row_ok0, (proj1 BI)|]. apply good_emit.
        unfold row_ok; cbn [rcls rblob]. split; [apply BI|]. split.
        * unfold zlen in *. cbn [length]. change (2 ^ 31) with 2147483648 in *. lia.
        * constructor; [apply word_wrapU|auto].
    - unfold len_ok in OK. apply SH; auto; try (apply C1; unfold LIST_ID; lia).
      apply row_ok1; [apply C1; unfold LIST_ID; lia|]. unfold word. pose proof (zlen_nn _ l).
      change (2 ^ 31) with 2147483648 in OK. lia.
    - unfold len_ok in OK. apply SH; auto; try (apply C1; unfold TUPLE_ID; lia).
      apply row_ok1; [apply C1; unfold TUPLE_ID; lia|]. unfold word. pose proof (zlen_nn _ l).
      change (2 ^ 31) with 2147483648 in OK. lia.
    - destruct t as [t|]; [|contradiction]. destruct t as [size usable idx es]. cbn [dt_size dt_usable dt_idx dt_entries] in *.
      destruct OK as (O1 & O2 & O3 & O4 & O5 & O6 & O7).
      change (2 ^ 31) with 2147483648 in *. pose proof (zlen_nn _ es).
      assert (2 * size / 3 <= size) by (apply Z.div_le_upper_bound; lia).
      assert ((size + 1) * 4 / 8 <= 1073741824) by (apply Z.div_le_upper_bound; lia).
      apply SH; auto; try (apply C1; unfold DICT_ID; lia).
      unfold row_ok; cbn [rcls rblob]. split; [apply C1; unfold DICT_ID; lia|]. split.
      + unfold zlen in *. cbn [length]. change (2 ^ 31) with 2147483648. lia.
      + constructor; [apply word_wrapU|]. constructor; [unfold word; lia|].
        constructor; [apply word_wrapU|]. constructor; [unfold word; lia|auto].
    - apply SH; auto; try (apply C1; unfold SET_ID; lia).
      unfold row_ok; cbn [rcls rblob]. split; [apply C1; unfold SET_ID; lia|]. split; [reflexivity|].
      repeat (constructor; [apply word_wrapU|]). constructor.
    - destruct OK as (O1 & _). unfold ITEM_ID in O1. change (2 ^ 31) with 2147483648 in O1.
      assert (CI : inS 32 cls /\ inS 32 (- cls)) by (unfold inS; change (2 ^ (32 - 1)) with 2147483648; lia).
      apply SH; try apply CI; auto. apply row_ok0, CI.
  Qed.
End Total.

(** Correctness of the two searches bmh and rbmh. *)
From Verif Require Import Base M_Slice S_Slice M_Str S_Str P_Base.
From Coq Require Import ZifyBool ZifyNat.

Lemma zlen_nil : forall A, zlen (@nil A) = 0. Proof. reflexivity. Qed.
Lemma zlen_cons {A} (x : A) l : zlen (x :: l) = 1 + zlen l. Proof. unfold zlen. cbn [length]. lia. Qed.
Lemma zlen_nn {A} (l : list A) : 0 <= zlen l. Proof. unfold zlen. lia. Qed.

Lemma zget_l {A} (a b : list A) i : i < zlen a -> zget (a ++ b) i = zget a i.
Proof.
  intros H. unfold zget. destruct (i <? 0) eqn:E; [reflexivity|].
  rewrite nth_error_app1; [reflexivity|unfold zlen in H; lia].
Qed.
Lemma zget_r {A} (a b : list A) i : zlen a <= i -> zget (a ++ b) i = zget b (i - zlen a).
Proof.
  intros H. pose proof (zlen_nn a). unfold zget. destruct (i <? 0) eqn:E; [lia|].
  destruct (i - zlen a <? 0) eqn:E2; [lia|].
  unfold zlen in *. rewrite nth_error_app2 by lia. f_equal. lia.
Qed.
Lemma zget_ok {A} (l : list A) i : 0 <= i < zlen l -> exists x, zget l i = Some x.
Proof.
  intros H. unfold zget. destruct (i <? 0) eqn:E; [lia|]. apply ne_some. unfold zlen in H. lia.
Qed.
Lemma zget_mid3 {A} (a m b : list A) i : 0 <= i < zlen m -> zget (a ++ m ++ b) (zlen a + i) = zget m i.
Proof. intros H. rewrite zget_r by lia. replace (zlen a + i - zlen a) with i by lia. apply zget_l. lia. Qed.

(** ** Occurrences by positions. *)
Definition mat {A} (X P : list A) (n : Z) : Prop :=
  0 <= n /\ n + zlen P <= zlen X /\ forall j, 0 <= j < zlen P -> zget X (n + j) = zget P j.

Lemma occurs_mat {A} (X P : list A) n : occurs X P n <-> mat X P n.
Proof.
  split.
  - intros (a & b & -> & <-). split; [apply zlen_nn|]. split; [rewrite !zlen_app; pose proof (zlen_nn b); lia|].
    intros j H. apply zget_mid3. assumption.
  - intros (H0 & H1 & H2). exists (firstn (Z.to_nat n) X), (skipn (Z.to_nat n + length P) X).
    assert (HX : X = firstn (Z.to_nat n) X ++ skipn (Z.to_nat n) X) by (symmetry; apply firstn_skipn).
    unfold zlen in *. split; [|rewrite firstn_length; lia].
    rewrite HX at 1. f_equal.
    rewrite <- (firstn_skipn (length P) (skipn (Z.to_nat n) X)) at 1. f_equal.
    + apply list_ext. intros i. rewrite ne_firstn. destruct (i <? length P)%nat eqn:E.
      * rewrite ne_skipn. specialize (H2 (Z.of_nat i) ltac:(lia)).
        rewrite !zget_nat in H2 by lia. rewrite Nat2Z.id in H2. rewrite <- H2. f_equal. lia.
      * symmetry. apply ne_none. lia.
    + apply list_ext. intros i. rewrite !ne_skipn. f_equal. lia.
Qed.

Section Bmh.
  Context (A X B P Q : list Z).
  Let t := A ++ X ++ B.
  Let pt := P ++ Q.
  Let p := zlen A.
  Let pb := zlen P.

  Lemma rd_t i : 0 <= i < zlen X -> exists x, rd t (p + i) = Ok x /\ zget X i = Some x.
  Proof.
    intros H. destruct (zget_ok X i H) as (x & Hx). exists x. split; [|assumption].
    unfold rd, t, p. rewrite zget_mid3, Hx by assumption. reflexivity.
  Qed.
  Lemma rd_pt i : 0 <= i < pb -> exists x, rd pt i = Ok x /\ zget P i = Some x.
  Proof.
    intros H. destruct (zget_ok P i H) as (x & Hx). exists x. split; [|assumption].
    unfold rd, pt. rewrite zget_l, Hx by (fold pb; lia). reflexivity.
  Qed.

  Lemma cmp_back_ok n : forall i j, Z.of_nat n = j + 1 -> j < pb -> 0 <= i - j -> i < zlen X ->
    exists i' j', cmp_back n t p pt i j = Ok (i', j') /\ -1 <= j' <= j /\ i' - j' = i - j /\
      (forall m, j' < m <= j -> zget X (i - j + m) = zget P m) /\
      (0 <= j' -> zget X (i - j + j') <> zget P j').
  Proof.
    induction n as [|n IH]; intros i j Hn Hj Hi Hx.
    - exists i, j. split; [reflexivity|]. split; [lia|]. split; [lia|]. split; intros; lia.
    - cbn [cmp_back]. destruct (rd_t i ltac:(lia)) as (x & -> & Hxg). destruct (rd_pt j ltac:(lia)) as (y & Hy & Hyg).
      cbn [bindr]. rewrite Hy. cbn [bindr]. destruct (x =? y) eqn:E.
      + destruct (IH (i - 1) (j - 1)) as (i' & j' & -> & H1 & H2 & H3 & H4); [lia..|].
        exists i', j'. split; [reflexivity|]. split; [lia|]. split; [lia|].
        replace (i - 1 - (j - 1)) with (i - j) in * by lia. split.
        * intros m Hm. destruct (Z.eq_dec m j) as [->|].
          -- replace (i - j + j) with i by lia. rewrite Hxg, Hyg. f_equal. lia.
          -- apply H3. lia.
        * assumption.
      + exists i, j. split; [reflexivity|]. split; [lia|]. split; [lia|]. split; [intros; lia|].
        intros _. replace (i - j + j) with i by lia. rewrite Hxg, Hyg. intros [= ->]. lia.
  Qed.

  Lemma fill_skip_ok n : forall i sk, 0 <= i -> (n > 0)%nat \/ i <= pb - 1 -> i + Z.of_nat n = pb - 1 ->
    (forall c, 1 <= sk c <= pb) ->
    (forall c m, 0 <= m < i -> zget P m = Some c -> sk c <= pb - m - 1) ->
    exists sk', fill_skip n pt pb i sk = Ok sk' /\ (forall c, 1 <= sk' c <= pb) /\
      (forall c m, 0 <= m < pb - 1 -> zget P m = Some c -> sk' c <= pb - m - 1).
  Proof.
    induction n as [|n IH]; intros i sk Hi Hor Hn H1 H2.
    - exists sk. split; [reflexivity|]. split; [assumption|]. intros c m Hm. apply H2. lia.
    - cbn [fill_skip]. destruct (rd_pt i ltac:(lia)) as (x & -> & Hx). cbn [bindr].
      apply IH; [lia|right; lia|lia| |].
      + intros c. unfold upd. destruct (c =? x); [lia|apply H1].
      + intros c m Hm Hc. unfold upd. destruct (c =? x) eqn:E; [lia|].
        apply H2; [|assumption]. destruct (Z.eq_dec m i) as [->|]; [|lia].
        rewrite Hx in Hc. injection Hc as ->. lia.
  Qed.

  Lemma bmh_loop_ok sk fuel : forall k, 0 < pb ->
    (forall c, 1 <= sk c <= pb) ->
    (forall c m, 0 <= m < pb - 1 -> zget P m = Some c -> sk c <= pb - m - 1) ->
    pb - 1 <= k -> zlen X - k <= Z.of_nat fuel -> (forall m, mat X P m -> k - (pb - 1) <= m) ->
    exists n, bmh_loop fuel t p pt (zlen X) pb k sk = Ok n /\
      ((n = -1 /\ forall m, ~ mat X P m) \/ (mat X P n /\ forall m, mat X P m -> n <= m)).
  Proof.
    induction fuel as [|fuel IH]; intros k Hp Hs Hs2 Hk Hf Hm; cbn [bmh_loop].
    - destruct (k <? zlen X) eqn:E; [lia|]. exists (-1). split; [reflexivity|]. left. split; [reflexivity|].
      intros m HH. pose proof (Hm m HH). destruct HH as (? & ? & _). unfold pb in *; lia.
    - destruct (k <? zlen X) eqn:E.
      2: { exists (-1). split; [reflexivity|]. left. split; [reflexivity|].
           intros m HH. pose proof (Hm m HH). destruct HH as (? & ? & _). unfold pb in *; lia. }
      destruct (cmp_back_ok (Z.to_nat pb) k (pb - 1)) as (i' & j' & -> & H1 & H2 & H3 & H4); [lia..|].
      cbn [bindr]. destruct (j' =? -1) eqn:Ej.
      + exists (i' + 1). split; [reflexivity|]. right. split.
        * split; [lia|]. split; [fold pb; lia|]. intros j Hj. fold pb in Hj.
          replace (i' + 1 + j) with (k - (pb - 1) + j) by lia. apply H3. lia.
        * intros m HH. specialize (Hm m HH). lia.
      + destruct (rd_t k ltac:(lia)) as (x & -> & Hx). cbn [bindr].
        apply IH; try assumption; [specialize (Hs x); lia|specialize (Hs x); lia|].
        intros m HH. pose proof (Hm m HH) as Hge. destruct HH as (M1 & M2 & M3). fold pb in M2, M3.
        destruct (Z.eq_dec m (k - (pb - 1))) as [->|Hne].
        * exfalso. specialize (H4 ltac:(lia)). apply H4. apply M3. lia.
        * destruct (Z_le_gt_dec m k) as [Hle|Hgt]; [|specialize (Hs x); lia].
          specialize (M3 (k - m) ltac:(lia)). replace (m + (k - m)) with k in M3 by lia.
          rewrite Hx in M3. specialize (Hs2 x (k - m) ltac:(lia) (eq_sym M3)). lia.
  Qed.

  Lemma bmh_mat : exists n, bmh t p pt (zlen X) pb = Ok n /\
    ((n = -1 /\ forall m, ~ mat X P m) \/ (mat X P n /\ forall m, mat X P m -> n <= m)).
  Proof.
    unfold bmh. destruct (zlen X <? pb) eqn:E.
    - exists (-1). split; [reflexivity|]. left. split; [reflexivity|]. intros m (? & ? & _). unfold pb in *; lia.
    - destruct (Z.eq_dec pb 0) as [E0|E0].
      + rewrite E0. cbn [Z.to_nat Z.sub Z.opp Z.add Z.pos_sub fill_skip bindr bmh_loop].
        pose proof (zlen_nn X). destruct (-1 <? zlen X) eqn:E1; [|lia].
        cbn [cmp_back bindr Z.eqb Z.add Z.pos_sub]. exists 0. split; [reflexivity|]. right. split.
        * split; [lia|]. split; [fold pb; lia|]. fold pb. intros; lia.
        * intros m (? & _). lia.
      + assert (0 < pb) by (pose proof (zlen_nn P); unfold pb in *; lia).
        destruct (fill_skip_ok (Z.to_nat (pb - 1)) 0 (fun _ => pb)) as (sk & -> & H1 & H2); [lia|right; lia|lia|intros; lia|intros; lia|].
        cbn [bindr]. apply bmh_loop_ok; try assumption; [lia|pose proof (zlen_nn X); lia|].
        intros m (? & _). lia.
  Qed.

  Lemma bmh_ok : exists n, bmh t p pt (zlen X) pb = Ok n /\ ((n = -1 /\ absent X P) \/ first_occ X P n).
  Proof.
    destruct bmh_mat as (n & -> & H). exists n. split; [reflexivity|]. destruct H as [[-> H]|[H1 H2]].
    - left. split; [reflexivity|]. intros m Hm. apply (H m). apply occurs_mat. assumption.
    - right. split; [apply occurs_mat; assumption|]. intros m Hm. apply H2, occurs_mat. assumption.
  Qed.

  (** ** From the right. *)
  Lemma cmp_fwd_ok n : forall i j, Z.of_nat n = pb - j -> 0 <= j -> 0 <= i - j -> i + (pb - j) <= zlen X ->
    exists i' j', cmp_fwd n t p pt i j = Ok (i', j') /\ j <= j' <= pb /\ i' - j' = i - j /\
      (forall m, j <= m < j' -> zget X (i - j + m) = zget P m) /\
      (j' < pb -> zget X (i - j + j') <> zget P j').
  Proof.
    induction n as [|n IH]; intros i j Hn Hj Hi Hx.
    - exists i, j. split; [reflexivity|]. split; [lia|]. split; [lia|]. split; intros; lia.
    - cbn [cmp_fwd]. destruct (rd_t i ltac:(lia)) as (x & -> & Hxg). destruct (rd_pt j ltac:(lia)) as (y & Hy & Hyg).
      cbn [bindr]. rewrite Hy. cbn [bindr]. destruct (x =? y) eqn:E.
      + destruct (IH (i + 1) (j + 1)) as (i' & j' & -> & H1 & H2 & H3 & H4); [lia..|].
        exists i', j'. split; [reflexivity|]. split; [lia|]. split; [lia|].
        replace (i + 1 - (j + 1)) with (i - j) in * by lia. split.
        * intros m Hm. destruct (Z.eq_dec m j) as [->|].
          -- replace (i - j + j) with i by lia. rewrite Hxg, Hyg. f_equal. lia.
          -- apply H3. lia.
        * assumption.
      + exists i, j. split; [reflexivity|]. split; [lia|]. split; [lia|]. split; [intros; lia|].
        intros _. replace (i - j + j) with i by lia. rewrite Hxg, Hyg. intros [= ->]. lia.
  Qed.

  Lemma fill_rskip_ok n : forall i sk, i < pb -> Z.of_nat n = i ->
    (forall c, 1 <= sk c <= pb) ->
    (forall c m, i < m < pb -> zget P m = Some c -> sk c <= m) ->
    exists sk', fill_rskip n pt i sk = Ok sk' /\ (forall c, 1 <= sk' c <= pb) /\
      (forall c m, 0 < m < pb -> zget P m = Some c -> sk' c <= m).
  Proof.
    induction n as [|n IH]; intros i sk Hi Hn H1 H2.
    - exists sk. split; [reflexivity|]. split; [assumption|]. intros c m Hm. apply H2. lia.
    - cbn [fill_rskip]. destruct (rd_pt i ltac:(lia)) as (x & -> & Hx). cbn [bindr].
      apply IH; [lia|lia| |].
      + intros c. unfold upd. destruct (c =? x); [lia|apply H1].
      + intros c m Hm Hc. unfold upd. destruct (c =? x) eqn:E; [lia|].
        apply H2; [|assumption]. destruct (Z.eq_dec m i) as [->|]; [|lia].
        rewrite Hx in Hc. injection Hc as ->. lia.
  Qed.

  Lemma rbmh_loop_ok sk fuel : forall k, 0 < pb ->
    (forall c, 1 <= sk c <= pb) ->
    (forall c m, 0 < m < pb -> zget P m = Some c -> sk c <= m) ->
    k <= zlen X - pb -> k < Z.of_nat fuel -> (forall m, mat X P m -> m <= k) ->
    exists n, rbmh_loop fuel t p pt pb k sk = Ok n /\
      ((n = -1 /\ forall m, ~ mat X P m) \/ (mat X P n /\ forall m, mat X P m -> m <= n)).
  Proof.
    induction fuel as [|fuel IH]; intros k Hp Hs Hs2 Hk Hf Hm; cbn [rbmh_loop].
    - destruct (0 <=? k) eqn:E; [lia|]. exists (-1). split; [reflexivity|]. left. split; [reflexivity|].
      intros m HH. pose proof (Hm m HH). destruct HH as (? & ? & _). lia.
    - destruct (0 <=? k) eqn:E.
      2: { exists (-1). split; [reflexivity|]. left. split; [reflexivity|].
           intros m HH. pose proof (Hm m HH). destruct HH as (? & ? & _). lia. }
      destruct (cmp_fwd_ok (Z.to_nat pb) k 0) as (i' & j' & -> & H1 & H2 & H3 & H4); [lia..|].
      cbn [bindr]. destruct (j' =? pb) eqn:Ej.
      + exists (i' - pb). split; [reflexivity|]. right. split.
        * split; [lia|]. split; [fold pb; lia|]. intros j Hj. fold pb in Hj.
          replace (i' - pb + j) with (k - 0 + j) by lia. apply H3. lia.
        * intros m HH. specialize (Hm m HH). lia.
      + destruct (rd_t k ltac:(lia)) as (x & -> & Hx). cbn [bindr].
        apply IH; try assumption; [specialize (Hs x); lia|specialize (Hs x); lia|].
        intros m HH. pose proof (Hm m HH) as Hge. destruct HH as (M1 & M2 & M3). fold pb in M2, M3.
        destruct (Z.eq_dec m k) as [->|Hne].
        * exfalso. specialize (H4 ltac:(lia)). apply H4. replace (k - 0 + j') with (k + j') by lia. apply M3. lia.
        * destruct (Z_lt_ge_dec (k - m) pb) as [Hle|Hgt]; [|specialize (Hs x); lia].
          specialize (M3 (k - m) ltac:(lia)). replace (m + (k - m)) with k in M3 by lia.
          rewrite Hx in M3. specialize (Hs2 x (k - m) ltac:(lia) (eq_sym M3)). lia.
  Qed.

  Lemma rbmh_mat : exists n, rbmh t p pt (zlen X) pb = Ok n /\
    ((n = -1 /\ forall m, ~ mat X P m) \/ (mat X P n /\ forall m, mat X P m -> m <= n)).
  Proof.
    unfold rbmh. destruct (zlen X <? pb) eqn:E.
    - exists (-1). split; [reflexivity|]. left. split; [reflexivity|]. intros m (? & ? & _). unfold pb in *; lia.
    - destruct (Z.eq_dec pb 0) as [E0|E0].
      + rewrite E0. replace (Z.to_nat (0 - 1)) with O by lia. cbn [fill_rskip bindr rbmh_loop].
        pose proof (zlen_nn X). destruct (0 <=? zlen X - 0) eqn:E1; [|lia].
        cbn [Z.to_nat cmp_fwd bindr]. exists (zlen X). split; [cbn; f_equal; lia|]. right. split.
        * split; [lia|]. split; [fold pb; lia|]. fold pb. intros; lia.
        * intros m (? & ? & _). unfold pb in *; lia.
      + assert (0 < pb) by (pose proof (zlen_nn P); unfold pb in *; lia).
        destruct (fill_rskip_ok (Z.to_nat (pb - 1)) (pb - 1) (fun _ => pb)) as (sk & -> & H1 & H2); [lia|lia|intros; lia|intros; lia|].
        cbn [bindr]. apply rbmh_loop_ok; try assumption; [lia|lia|].
        intros m (? & ? & _). unfold pb in *; lia.
  Qed.

  Lemma rbmh_ok : exists n, rbmh t p pt (zlen X) pb = Ok n /\ ((n = -1 /\ absent X P) \/ last_occ X P n).
  Proof.
    destruct rbmh_mat as (n & -> & H). exists n. split; [reflexivity|]. destruct H as [[-> H]|[H1 H2]].
    - left. split; [reflexivity|]. intros m Hm. apply (H m). apply occurs_mat. assumption.
    - right. split; [apply occurs_mat; assumption|]. intros m Hm. apply H2, occurs_mat. assumption.
  Qed.
End Bmh.

(** A negative text length: nothing is found. *)
Lemma bmh_neg t p pt tb pb : tb < 0 -> 0 <= pb -> bmh t p pt tb pb = Ok (-1).
Proof. intros. unfold bmh. destruct (tb <? pb) eqn:E; [reflexivity|lia]. Qed.
Lemma rbmh_neg t p pt tb pb : tb < 0 -> 0 <= pb -> rbmh t p pt tb pb = Ok (-1).
Proof. intros. unfold rbmh. destruct (tb <? pb) eqn:E; [reflexivity|lia]. Qed.

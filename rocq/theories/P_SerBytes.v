(** Bytes of rows: proofs for C31 and C33. *)
From Verif Require Import Base M_Serialize S_Serialize.

Lemma bytes_of_length : forall n w, length (bytes_of n w) = n.
Proof. induction n; intros; cbn; [easy|now rewrite IHn]. Qed.

Lemma pow256_S : forall n, 256 ^ Z.of_nat (S n) = 256 * 256 ^ Z.of_nat n.
Proof. intros. rewrite Nat2Z.inj_succ, Z.pow_succ_r; lia. Qed.

Lemma num_of_bytes : forall n w, num_of (bytes_of n w) = w mod 256 ^ Z.of_nat n.
Proof.
  induction n; intros.
  - cbn [bytes_of num_of]. change (256 ^ Z.of_nat 0) with 1. now rewrite Z.mod_1_r.
  - cbn [bytes_of num_of]. rewrite IHn, pow256_S.
    rewrite Z.rem_mul_r by lia. lia.
Qed.

Lemma num_of_bytes_id : forall n w, 0 <= w < 256 ^ Z.of_nat n -> num_of (bytes_of n w) = w.
Proof. intros. rewrite num_of_bytes. now apply Z.mod_small. Qed.

Lemma bytes_of_num : forall l, Forall byte l -> bytes_of (length l) (num_of l) = l.
Proof.
  induction 1 as [|b l H _ IH]; [easy|].
  cbn [length bytes_of num_of]. unfold byte in H.
  replace (b + 256 * num_of l) with (num_of l * 256 + b) by lia.
  rewrite Z.add_comm, Z.mod_add by lia. rewrite Z.mod_small by lia.
  rewrite Z.div_add by lia. rewrite Z.div_small by lia. cbn [Z.add].
  now rewrite IH.
Qed.

Lemma bytes_of_byte : forall n w, Forall byte (bytes_of n w).
Proof.
  induction n; intros; cbn; constructor; auto. unfold byte.
  apply Z.mod_pos_bound; lia.
Qed.

Lemma num_of_range : forall l, Forall byte l -> 0 <= num_of l < 256 ^ zlen l.
Proof.
  induction 1 as [|b l H _ IH]; [cbn; lia|].
  cbn [num_of]. unfold zlen in *. cbn [length]. rewrite pow256_S. unfold byte in H. lia.
Qed.

Lemma unpack_length : forall ws, length (unpack ws) = (8 * length ws)%nat.
Proof.
  induction ws; [easy|]. unfold unpack in *. cbn [flat_map].
  rewrite app_length, bytes_of_length, IHws. cbn [length]. lia.
Qed.

Lemma firstn_app_exact : forall A (l r : list A) n, length l = n -> firstn n (l ++ r) = l.
Proof.
  intros. subst. rewrite firstn_app, Nat.sub_diag, firstn_all. cbn. apply app_nil_r.
Qed.
Lemma skipn_app_exact : forall A (l r : list A) n, length l = n -> skipn n (l ++ r) = r.
Proof.
  intros. subst. now rewrite skipn_app, Nat.sub_diag, skipn_all.
Qed.

Lemma unpack_cons : forall w ws, unpack (w :: ws) = bytes_of 8 w ++ unpack ws.
Proof. easy. Qed.

Lemma words_of_unpack : forall ws, Forall word ws -> words_of (length ws) (unpack ws) = ws.
Proof.
  induction 1 as [|w ws H _ IH]; [easy|].
  cbn [length words_of]. rewrite unpack_cons.
  rewrite firstn_app_exact by apply bytes_of_length.
  rewrite skipn_app_exact by apply bytes_of_length.
  rewrite IH, num_of_bytes_id; [easy|].
  unfold word in H. change (256 ^ Z.of_nat 8) with (2 ^ 64). exact H.
Qed.

Lemma words_of_length : forall n l, length (words_of n l) = n.
Proof. induction n; intros; cbn [words_of length]; [easy|now rewrite IHn]. Qed.

Lemma Forall_firstn' : forall A (P : A -> Prop) n l, Forall P l -> Forall P (firstn n l).
Proof. intros A P n l H. revert n. induction H; intros [|n]; cbn; auto. Qed.
Lemma Forall_skipn' : forall A (P : A -> Prop) n l, Forall P l -> Forall P (skipn n l).
Proof. intros A P n l H. revert n. induction H; intros [|n]; cbn; auto. Qed.

Lemma unpack_words_of : forall n l, Forall byte l -> length l = (8 * n)%nat ->
  unpack (words_of n l) = l /\ Forall word (words_of n l).
Proof.
  induction n; intros l H L.
  - destruct l; [split; [easy|constructor]|cbn in L; lia].
  - cbn [words_of]. rewrite unpack_cons.
    assert (L1 : length (firstn 8 l) = 8%nat) by (rewrite firstn_length; lia).
    destruct (IHn (skipn 8 l)) as [E F].
    { now apply Forall_skipn'. } { rewrite skipn_length; lia. }
    split.
    + rewrite E. rewrite <- L1 at 1. rewrite bytes_of_num by now apply Forall_firstn'.
      apply firstn_skipn.
    + constructor; auto. unfold word.
      assert (R := num_of_range (firstn 8 l) (Forall_firstn' _ _ _ _ H)).
      unfold zlen in R. rewrite L1 in R. exact R.
Qed.

(** Rows the C types can hold. *)
Definition row_ok (r : row) : Prop :=
  inS 32 (rcls r) /\ zlen (rblob r) < 2 ^ 31 /\ Forall word (rblob r).

Lemma row_bytes_length : forall r, zlen (row_bytes r) = 8 + 8 * zlen (rblob r).
Proof.
  intros. unfold row_bytes, zlen. rewrite !app_length, !bytes_of_length, unpack_length. lia.
Qed.

Lemma wrapS_wrapU32 : forall z, inS 32 z -> wrapS 32 (wrapU 32 z) = z.
Proof.
  unfold inS, wrapS, wrapU. intros z H. change (2 ^ (32 - 1)) with 2147483648 in *.
  change (2 ^ 32) with 4294967296 in *.
  destruct (Z_lt_ge_dec z 0).
  - assert (E : z mod 4294967296 = z + 4294967296).
    { replace z with (z + 4294967296 + (-1) * 4294967296) at 1 by lia.
      rewrite Z.mod_add by lia. apply Z.mod_small; lia. }
    rewrite E. replace (z + 4294967296 + 2147483648) with (z + 2147483648 + 1 * 4294967296) by lia.
    rewrite Z.mod_add by lia. rewrite Z.mod_small; lia.
  - rewrite (Z.mod_small z) by lia. rewrite Z.mod_small; lia.
Qed.

Lemma wrapU32_range : forall z, 0 <= wrapU 32 z < 256 ^ Z.of_nat 4.
Proof. intros. unfold wrapU. change (256 ^ Z.of_nat 4) with (2 ^ 32). apply Z.mod_pos_bound; lia. Qed.

Lemma zlen_nn : forall A (l : list A), 0 <= zlen l.
Proof. unfold zlen; lia. Qed.
Lemma zlen_app' : forall A (l r : list A), zlen (l ++ r) = zlen l + zlen r.
Proof. intros. unfold zlen. rewrite app_length. lia. Qed.

Lemma read_mid : forall pre m post, 
  read_bytes (pre ++ m ++ post) (zlen pre) (zlen m) = Ok m.
Proof.
  intros. unfold read_bytes. rewrite !zlen_app'.
  assert (0 <= zlen pre /\ 0 <= zlen m /\ 0 <= zlen post) by (repeat split; apply zlen_nn).
  replace ((0 <=? zlen pre) && (0 <=? zlen m) && (zlen pre + zlen m <=? zlen pre + (zlen m + zlen post)))
    with true by lia.
  unfold zlen. rewrite !Nat2Z.id. rewrite skipn_app_exact by easy.
  now rewrite firstn_app_exact by easy.
Qed.

Lemma rows_loop_ok : forall rs fuel pre acc,
  Forall row_ok rs -> (length rs < fuel)%nat -> (acc <> [] \/ rs <> []) ->
  bytes_to_rows_loop fuel (pre ++ flat_map row_bytes rs) (zlen pre) (zlen (flat_map row_bytes rs)) acc
  = Ok (acc ++ rs).
Proof.
  induction rs as [|r rs IH]; intros fuel pre acc H F N.
  - destruct fuel; [lia|]. cbn [flat_map bytes_to_rows_loop]. change (zlen []) with 0.
    change (0 <? 0) with false. cbn iota. destruct acc; [destruct N; congruence|now rewrite app_nil_r].
  - destruct fuel; [cbn in F; lia|].
    apply Forall_cons_iff in H. destruct H as [[Hc [Hl Hw]] H].
    cbn [flat_map bytes_to_rows_loop]. rewrite zlen_app', row_bytes_length.
    pose proof (zlen_nn _ (rblob r)). pose proof (zlen_nn _ (flat_map row_bytes rs)).
    replace (0 <? _) with true by lia.
    replace (_ <? 8) with false by lia. cbn iota.
    remember (flat_map row_bytes rs) as tl eqn:Etl.
    unfold row_bytes.
    set (b1 := bytes_of 4 (wrapU 32 (rcls r))). set (b2 := bytes_of 4 (wrapU 32 (zlen (rblob r)))).
    set (b3 := unpack (rblob r)).
    assert (L1 : zlen b1 = 4) by (unfold b1, zlen; now rewrite bytes_of_length).
    assert (L2 : zlen b2 = 4) by (unfold b2, zlen; now rewrite bytes_of_length).
    assert (L3 : zlen b3 = 8 * zlen (rblob r)) by (unfold b3, zlen; rewrite unpack_length; lia).
    assert (R1 : read_bytes (pre ++ (b1 ++ b2 ++ b3) ++ tl) (zlen pre) 4 = Ok b1).
    { rewrite <- L1. rewrite <- !app_assoc. apply read_mid. }
    assert (R2 : read_bytes (pre ++ (b1 ++ b2 ++ b3) ++ tl) (zlen pre + 4) 4 = Ok b2).
    { rewrite <- L1 at 1. rewrite <- L2 at 1. rewrite <- zlen_app'.
      rewrite <- !app_assoc. rewrite (app_assoc pre). apply read_mid. }
    assert (R3 : read_bytes (pre ++ (b1 ++ b2 ++ b3) ++ tl) (zlen pre + 8) (zlen (rblob r) * 8) = Ok b3).
    { replace (zlen pre + 8) with (zlen (pre ++ b1 ++ b2)) by (rewrite !zlen_app'; lia).
      replace (zlen (rblob r) * 8) with (zlen b3) by lia.
      replace (pre ++ (b1 ++ b2 ++ b3) ++ tl) with ((pre ++ b1 ++ b2) ++ b3 ++ tl) by (rewrite <- !app_assoc; easy).
      apply read_mid. }
    rewrite R1. cbn [bindr]. rewrite R2. cbn [bindr].
    assert (E1 : wrapS 32 (num_of b1) = rcls r).
    { unfold b1. rewrite num_of_bytes_id by apply wrapU32_range. now apply wrapS_wrapU32. }
    assert (E2 : wrapS 32 (num_of b2) = zlen (rblob r)).
    { unfold b2. rewrite num_of_bytes_id by apply wrapU32_range. apply wrapS_wrapU32.
      unfold inS. change (2 ^ (32 - 1)) with (2 ^ 31). lia. }
    rewrite E1, E2. cbv zeta.
    replace (zlen (rblob r) <? 0) with false by lia.
    replace (_ <? zlen (rblob r) * 8) with false by lia. cbn iota.
    rewrite R3. cbn [bindr].
    replace (pre ++ (b1 ++ b2 ++ b3) ++ tl) with ((pre ++ b1 ++ b2 ++ b3) ++ tl) by (rewrite <- !app_assoc; easy).
    replace (zlen pre + 8 + zlen (rblob r) * 8) with (zlen (pre ++ b1 ++ b2 ++ b3)) by (rewrite !zlen_app'; lia).
    replace (_ - 8 - zlen (rblob r) * 8) with (zlen tl) by lia.
    subst tl. rewrite IH; auto.
    + replace (Z.to_nat (zlen (rblob r))) with (length (rblob r)) by (unfold zlen; lia).
      unfold b3. rewrite words_of_unpack by auto. rewrite <- app_assoc. destruct r; easy.
    + cbn [length] in F. lia.
    + left. destruct acc; easy.
Qed.

Lemma flat_rows_length : forall rs, (length rs <= length (flat_map row_bytes rs))%nat.
Proof.
  induction rs; [easy|]. cbn [flat_map length]. rewrite app_length.
  pose proof (row_bytes_length a). unfold zlen in H. lia.
Qed.

Lemma bytes_to_rows_ok : forall rs, Forall row_ok rs -> rs <> [] ->
  bytes_to_rows (flat_map row_bytes rs) = Ok rs.
Proof.
  intros. unfold bytes_to_rows.
  apply (rows_loop_ok rs (S (length (flat_map row_bytes rs))) [] []); auto.
  pose proof (flat_rows_length rs). lia.
Qed.

Lemma rows_size_ok : forall rs, rows_size rs = zlen (flat_map row_bytes rs).
Proof.
  intros. unfold rows_size.
  assert (G : forall n, fold_left (fun size r => size + (8 + 8 * zlen (rblob r))) rs n
                        = n + zlen (flat_map row_bytes rs)).
  { induction rs; intros; cbn [fold_left flat_map]; [change (zlen []) with 0; lia|].
    rewrite IHrs, zlen_app', row_bytes_length. lia. }
  rewrite G. lia.
Qed.

(** Decoding arbitrary bytes. *)
Lemma read_ok : forall l p n, 0 <= p -> 0 <= n -> p + n <= zlen l ->
  read_bytes l p n = Ok (firstn (Z.to_nat n) (skipn (Z.to_nat p) l)).
Proof. intros. unfold read_bytes. now replace (_ && _) with true by lia. Qed.

Lemma wrapU32_wrapS : forall z, 0 <= z < 2 ^ 32 -> wrapU 32 (wrapS 32 z) = z.
Proof.
  unfold wrapS, wrapU. intros z H. change (2 ^ (32 - 1)) with 2147483648.
  change (2 ^ 32) with 4294967296 in *.
  destruct (Z_lt_ge_dec z 2147483648).
  - rewrite (Z.mod_small (z + _)) by lia. rewrite Z.mod_small; lia.
  - replace (z + 2147483648) with (z - 2147483648 + 1 * 4294967296) by lia.
    rewrite Z.mod_add by lia. rewrite (Z.mod_small (z - _)) by lia.
    replace (z - 2147483648 - 2147483648) with (z + (-1) * 4294967296) by lia.
    rewrite Z.mod_add by lia. apply Z.mod_small; lia.
Qed.

Lemma wrapS32_range : forall z, inS 32 (wrapS 32 z).
Proof.
  intros. unfold inS, wrapS. pose proof (Z.mod_pos_bound (z + 2 ^ (32 - 1)) (2 ^ 32)).
  change (2 ^ (32 - 1)) with 2147483648 in *. change (2 ^ 32) with 4294967296 in *. lia.
Qed.

Lemma bytes_loop_total : forall fuel data p acc,
  Forall byte data -> 0 <= p <= zlen data -> zlen data - p < Z.of_nat fuel ->
  Forall row_ok acc -> flat_map row_bytes acc = firstn (Z.to_nat p) data ->
  (exists rs, bytes_to_rows_loop fuel data p (zlen data - p) acc = Ok rs
              /\ rs <> [] /\ Forall row_ok rs /\ flat_map row_bytes rs = data)
  \/ bytes_to_rows_loop fuel data p (zlen data - p) acc = Exn ValueError.
Proof.
  induction fuel; intros data p acc B P F R E; [lia|].
  cbn [bytes_to_rows_loop].
  destruct (0 <? zlen data - p) eqn:T1.
  - destruct (zlen data - p <? 8) eqn:T2; [now right|].
    rewrite read_ok by lia. cbn [bindr]. rewrite read_ok by lia. cbn [bindr].
    set (cb := firstn (Z.to_nat 4) (skipn (Z.to_nat p) data)).
    set (sb := firstn (Z.to_nat 4) (skipn (Z.to_nat (p + 4)) data)).
    assert (Lc : length cb = 4%nat).
    { unfold cb. rewrite firstn_length, skipn_length. unfold zlen in *. lia. }
    assert (Ls : length sb = 4%nat).
    { unfold sb. rewrite firstn_length, skipn_length. unfold zlen in *. lia. }
    assert (Bc : Forall byte cb) by (apply Forall_firstn', Forall_skipn'; auto).
    assert (Bs : Forall byte sb) by (apply Forall_firstn', Forall_skipn'; auto).
    cbv zeta.
    destruct (wrapS 32 (num_of sb) <? 0) eqn:T3; [now right|].
    set (n := wrapS 32 (num_of sb)) in *.
    destruct (zlen data - p - 8 <? n * 8) eqn:T4; [now right|].
    rewrite read_ok by lia. cbn [bindr].
    set (bb := firstn (Z.to_nat (n * 8)) (skipn (Z.to_nat (p + 8)) data)).
    assert (Lb : length bb = (8 * Z.to_nat n)%nat).
    { unfold bb. rewrite firstn_length, skipn_length. unfold zlen in *. lia. }
    assert (Bb : Forall byte bb) by (apply Forall_firstn', Forall_skipn'; auto).
    destruct (unpack_words_of (Z.to_nat n) bb Bb Lb) as [U W].
    replace (zlen data - p - 8 - n * 8) with (zlen data - (p + 8 + n * 8)) by lia.
    apply IHfuel; auto; try lia.
    + apply Forall_app. split; auto. constructor; [|constructor].
      unfold row_ok. cbn [rcls rblob]. split; [apply wrapS32_range|]. split; auto.
      unfold zlen. rewrite words_of_length.
      pose proof (wrapS32_range (num_of sb)) as Q. fold n in Q. unfold inS in Q.
      change (2 ^ (32 - 1)) with (2 ^ 31) in Q. lia.
    + rewrite flat_map_app, E. cbn [flat_map]. rewrite app_nil_r.
      assert (N1 := num_of_range cb Bc). assert (N2 := num_of_range sb Bs).
      unfold zlen in N1, N2. rewrite Lc in N1. rewrite Ls in N2.
      change (256 ^ Z.of_nat 4) with (2 ^ 32) in *.
      unfold row_bytes. cbn [rcls rblob]. rewrite U.
      rewrite wrapU32_wrapS by auto.
      unfold zlen at 1. rewrite words_of_length.
      replace (Z.of_nat (Z.to_nat n)) with n by lia.
      unfold n at 1. rewrite wrapU32_wrapS by auto.
      rewrite <- Lc at 1. rewrite bytes_of_num by auto.
      rewrite <- Ls at 1. rewrite bytes_of_num by auto.
      unfold cb, sb, bb.
      replace (Z.to_nat (p + 8 + n * 8)) with (Z.to_nat p + (4 + (4 + Z.to_nat (n * 8))))%nat by lia.
      replace (Z.to_nat (p + 4)) with (4 + Z.to_nat p)%nat by lia.
      replace (Z.to_nat (p + 8)) with (4 + (4 + Z.to_nat p))%nat by lia.
      assert (S0 : forall (A : Type) (a b : nat) (l : list A), firstn (a + b) l = firstn a l ++ firstn b (skipn a l)).
      { intros A a. induction a; intros; cbn; [easy|]. destruct l; cbn; [now rewrite firstn_nil|]. now rewrite IHa. }
      assert (S1 : forall (A : Type) (a b : nat) (l : list A), skipn (a + b) l = skipn a (skipn b l)).
      { intros A a b. induction b; intros; [now rewrite Nat.add_0_r|].
        rewrite Nat.add_succ_r. destruct l; cbn; [now rewrite skipn_nil|]. apply IHb. }
      rewrite (S0 _ (Z.to_nat p)). rewrite (S0 _ 4%nat). rewrite (S0 _ 4%nat).
      rewrite (S1 _ 4%nat (4 + Z.to_nat p)%nat), (S1 _ 4%nat (Z.to_nat p)).
      reflexivity.
  - destruct acc as [|a acc]; [now right|].
    left. exists (a :: acc). split; [easy|]. split; [easy|]. split; auto.
    rewrite E. apply firstn_all2. unfold zlen in *. lia.
Qed.

(** Database cells. *)
Lemma total_ok : forall rs, total_rowsize rs = zlen (flat_map (fun r => head_word r :: rblob r) rs).
Proof.
  intros. unfold total_rowsize.
  assert (G : forall n, fold_left (fun size r => size + (1 + zlen (rblob r))) rs n
                        = n + zlen (flat_map (fun r => head_word r :: rblob r) rs)).
  { induction rs; intros; cbn [fold_left flat_map]; [change (zlen []) with 0; lia|].
    rewrite IHrs, zlen_app'. unfold zlen. cbn [length]. lia. }
  rewrite G. lia.
Qed.

Lemma head_fields : forall r, row_ok r ->
  wrapS 32 (head_word r) = rcls r /\ wrapS 32 (head_word r / 2 ^ 32) = zlen (rblob r).
Proof.
  intros r [Hc [Hl _]]. unfold head_word.
  pose proof (zlen_nn _ (rblob r)).
  assert (U : wrapU 32 (zlen (rblob r)) = zlen (rblob r)).
  { unfold wrapU. apply Z.mod_small. change (2 ^ 31) with 2147483648 in *. change (2 ^ 32) with 4294967296. lia. }
  pose proof (wrapU32_range (rcls r)) as R. change (256 ^ Z.of_nat 4) with (2 ^ 32) in R.
  rewrite U. split.
  - rewrite <- (wrapS_wrapU32 (rcls r) Hc) at 2. unfold wrapS.
    replace (wrapU 32 (rcls r) + 2 ^ 32 * zlen (rblob r) + 2 ^ (32 - 1))
      with (wrapU 32 (rcls r) + 2 ^ (32 - 1) + zlen (rblob r) * 2 ^ 32) by lia.
    now rewrite Z.mod_add by lia.
  - replace (wrapU 32 (rcls r) + 2 ^ 32 * zlen (rblob r))
      with (wrapU 32 (rcls r) + zlen (rblob r) * 2 ^ 32) by lia.
    rewrite Z.div_add by lia. rewrite Z.div_small by lia.
    unfold wrapS. rewrite Z.mod_small; [lia|].
    change (2 ^ 31) with 2147483648 in *. change (2 ^ 32) with 4294967296. change (2 ^ (32 - 1)) with 2147483648. lia.
Qed.

Lemma extract_ok : forall rs fuel acc,
  Forall row_ok rs -> rs <> [] -> (length rs <= fuel)%nat ->
  extract_loop fuel (flat_map (fun r => head_word r :: rblob r) rs)
    (zlen (flat_map (fun r => head_word r :: rblob r) rs)) acc = Ok (acc ++ rs).
Proof.
  induction rs as [|r rs IH]; intros fuel acc H N F; [congruence|].
  destruct fuel; [cbn in F; lia|].
  apply Forall_cons_iff in H. destruct H as [Hr H].
  destruct (head_fields r Hr) as [E1 E2].
  cbn [flat_map app extract_loop]. rewrite E1, E2.
  set (tl := flat_map (fun r0 => head_word r0 :: rblob r0) rs) in *.
  pose proof (zlen_nn _ (rblob r)). pose proof (zlen_nn _ tl).
  rewrite zlen_app'. replace (_ && _) with true by lia.
  replace (Z.to_nat (zlen (rblob r))) with (length (rblob r)) by (unfold zlen; lia).
  rewrite firstn_app_exact, skipn_app_exact by easy.
  replace (zlen (head_word r :: rblob r ++ tl)) with (1 + zlen (rblob r) + zlen tl)
    by (unfold zlen; cbn [length]; rewrite app_length; lia).
  replace (1 + zlen (rblob r) + zlen tl - (1 + zlen (rblob r))) with (zlen tl) by lia.
  cbv zeta. replace {| rcls := rcls r; rblob := rblob r |} with r by now destruct r.
  destruct rs as [|r2 rs].
  - now replace (zlen tl =? 0) with true by (unfold tl; reflexivity).
  - replace (zlen tl =? 0) with false.
    + unfold tl. rewrite IH; auto; [now rewrite <- app_assoc|easy|cbn [length] in *; lia].
    + unfold tl. cbn [flat_map app]. unfold zlen. cbn [length]. lia.
Qed.

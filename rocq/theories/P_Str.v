(** UTF-8 and character positions; searching. *)
From Verif Require Import Base M_Slice S_Slice M_Str S_Str P_Base P_Bmh.
From Coq Require Import ZifyBool ZifyNat.

(** ** Single characters. *)
Local Ltac fin := split; [reflexivity|]; split; [lia|]; split; [lia|]; split; [|split; [|cbn; lia]].
Lemma uchar_cases c : uchar c ->
  exists x t, c = x :: t /\ (x < 128 \/ 192 <= x) /\ 0 <= x < 256 /\ Forall cont t /\ byte_length2 x = zlen c /\ zlen c <= 4.
Proof.
  intros H. destruct c as [|a [|b [|c [|d [|e r]]]]]; cbn in H; try contradiction.
  - exists a, []. fin; [apply Forall_nil|]. unfold byte_length2. destruct (a <? 128) eqn:E; [reflexivity|lia].
  - exists a, [b]. fin; [repeat constructor; apply H|]. unfold byte_length2.
    destruct (a <? 128) eqn:E; [lia|]. destruct (a <? 224) eqn:E2; [reflexivity|lia].
  - exists a, [b; c]. fin; [repeat constructor; apply H|]. unfold byte_length2.
    destruct (a <? 128) eqn:E; [lia|]. destruct (a <? 224) eqn:E2; [lia|]. destruct (a <? 240) eqn:E3; [reflexivity|lia].
  - exists a, [b; c; d]. fin; [repeat constructor; apply H|]. unfold byte_length2.
    destruct (a <? 128) eqn:E; [lia|]. destruct (a <? 224) eqn:E2; [lia|]. destruct (a <? 240) eqn:E3; [lia|reflexivity].
Qed.
Lemma uchar_len c : uchar c -> 1 <= zlen c <= 4.
Proof. intros H. destruct (uchar_cases c H) as (x & t & -> & _ & _ & _ & _ & H4). rewrite zlen_cons in *. pose proof (zlen_nn t). lia. Qed.
Lemma uchar_ne c : uchar c -> c <> [].
Proof. intros H ->. exact H. Qed.
Lemma bl2 c : uchar c -> byte_length2 (hd 0 c) = zlen c.
Proof. intros H. destruct (uchar_cases c H) as (x & t & -> & _ & _ & _ & H5 & _). exact H5. Qed.

Lemma app_len_eq {A} (a b c d : list A) : a ++ b = c ++ d -> zlen a = zlen c -> a = c /\ b = d.
Proof.
  revert c. induction a as [|x a IH]; intros [|y c] H L; rewrite ?zlen_cons, ?zlen_nil in L.
  - split; [reflexivity|exact H].
  - pose proof (zlen_nn c). lia.
  - pose proof (zlen_nn a). lia.
  - injection H as -> H. destruct (IH c H ltac:(lia)) as [-> ->]. auto.
Qed.
Lemma uchar_prefix c d x y : uchar c -> uchar d -> c ++ x = d ++ y -> c = d /\ x = y.
Proof.
  intros Hc Hd H. apply app_len_eq; [assumption|]. rewrite <- (bl2 c Hc), <- (bl2 d Hd).
  destruct c as [|a c]; [destruct (uchar_ne [] Hc eq_refl)|]. destruct d as [|b d]; [destruct (uchar_ne [] Hd eq_refl)|].
  injection H as -> _. reflexivity.
Qed.

(** ** Lists of characters. *)
Lemma text_app a b : text (a ++ b) <-> text a /\ text b. Proof. apply Forall_app. Qed.
Lemma text_cons c b : text (c :: b) <-> uchar c /\ text b. Proof. apply Forall_cons_iff. Qed.
Lemma zlen_concat cs : text cs -> zlen cs <= zlen (concat cs).
Proof.
  induction cs as [|c cs IH]; [cbn; lia|]. intros H. apply text_cons in H. destruct H as [H1 H2].
  cbn [concat]. rewrite zlen_app, zlen_cons. pose proof (uchar_len c H1). specialize (IH H2). lia.
Qed.
Lemma concat_nil cs : text cs -> concat cs = [] -> cs = [].
Proof. intros H E. pose proof (zlen_concat cs H). rewrite E in H0. destruct cs; [reflexivity|]. rewrite zlen_cons, zlen_nil in H0. pose proof (zlen_nn cs). lia. Qed.

Lemma isascii_one cs : text cs -> isascii (ustr cs) = true -> Forall (fun c => zlen c = 1) cs.
Proof.
  unfold isascii, nbytes, ustr. cbn [nchars sbytes]. induction cs as [|c cs IH]; [constructor|].
  intros H E. apply text_cons in H. destruct H as [H1 H2]. cbn [concat] in E. rewrite zlen_app, zlen_cons in E.
  pose proof (uchar_len c H1). pose proof (zlen_concat cs H2). constructor; [lia|]. apply IH; [assumption|]. lia.
Qed.
Lemma ones_concat cs : Forall (fun c : char => zlen c = 1) cs -> zlen (concat cs) = zlen cs.
Proof. induction 1 as [|c cs H _ IH]; [reflexivity|]. cbn [concat]. rewrite zlen_app, zlen_cons. lia. Qed.

Lemma concat_app3 (A M B : list char) : concat (A ++ M ++ B) = concat A ++ concat M ++ concat B.
Proof. rewrite !concat_app. reflexivity. Qed.

(** ** Reading a character. *)
Lemma rd_char A c R : uchar c -> rd (A ++ c ++ R) (zlen A) = Ok (hd 0 c).
Proof.
  intros H. destruct c as [|x t]; [destruct (uchar_ne [] H eq_refl)|]. unfold rd.
  rewrite zget_r by lia. replace (zlen A - zlen A) with 0 by lia. reflexivity.
Qed.
Lemma copy_mid A M R n : n = zlen M -> copy (A ++ M ++ R) (zlen A) n = Ok M.
Proof.
  intros ->. unfold copy. pose proof (zlen_nn A). pose proof (zlen_nn M). rewrite !zlen_app. pose proof (zlen_nn R).
  destruct (_ && _) eqn:E; [|lia]. f_equal. unfold zlen. rewrite !Nat2Z.id.
  rewrite skipn_app, skipn_all, Nat.sub_diag. cbn [app skipn]. rewrite firstn_app, Nat.sub_diag, firstn_all. cbn. apply app_nil_r.
Qed.
Lemma copy_mid' A M R p n : p = zlen A -> n = zlen M -> copy (A ++ M ++ R) p n = Ok M.
Proof. intros -> ->. apply copy_mid. reflexivity. Qed.

Lemma skip_fwd_ok cs : forall A R, text cs -> skip_fwd (length cs) (A ++ concat cs ++ R) (zlen A) = Ok (zlen A + zlen (concat cs)).
Proof.
  induction cs as [|c cs IH]; intros A R H; cbn [length skip_fwd concat].
  - rewrite zlen_nil. f_equal. lia.
  - apply text_cons in H. destruct H as [H1 H2]. rewrite <- app_assoc, rd_char by assumption. cbn [bindr].
    rewrite bl2 by assumption. rewrite app_assoc. rewrite <- zlen_app. rewrite IH by assumption.
    rewrite !zlen_app. f_equal. lia.
Qed.

Lemma cont_shift b : cont b -> Z.shiftr b 6 = 2.
Proof. intros H. rewrite Z.shiftr_div_pow2 by lia. unfold cont in H. change (2 ^ 6) with 64. lia. Qed.
Lemma lead_shift b : b < 128 \/ 192 <= b -> Z.shiftr b 6 <> 2.
Proof. intros H. rewrite Z.shiftr_div_pow2 by lia. change (2 ^ 6) with 64. lia. Qed.

Lemma back_one_ok t : forall fuel A x R, Forall cont t -> x < 128 \/ 192 <= x -> (length t < fuel)%nat ->
  back_one fuel (A ++ (x :: t) ++ R) (zlen A + zlen t) = Ok (zlen A).
Proof.
  induction t as [|y t IH] using rev_ind; intros fuel A x R H Hx Hf; (destruct fuel as [|fuel]; [lia|]); cbn [back_one].
  - rewrite zlen_nil. replace (zlen A + 0) with (zlen A) by lia. unfold rd. rewrite zget_r by lia.
    replace (zlen A - zlen A) with 0 by lia. change (zget ([x] ++ R) 0) with (Some x). cbn [orUB bindr].
    destruct (Z.shiftr x 6 =? 2) eqn:E; [pose proof (lead_shift x Hx); lia|reflexivity].
  - apply Forall_app in H. destruct H as [H Hy]. apply Forall_inv in Hy. rewrite app_length in Hf. cbn in Hf.
    unfold rd. rewrite zlen_app, zlen_cons, zlen_nil. rewrite zget_r by (pose proof (zlen_nn t); lia).
    replace (zlen A + (zlen t + (1 + 0)) - zlen A) with (zlen (x :: t) + 0) by (rewrite zlen_cons; lia).
    replace ((x :: t ++ [y]) ++ R) with ((x :: t) ++ [y] ++ R) by (cbn; rewrite <- app_assoc; reflexivity).
    rewrite zget_mid3 by (cbn; lia). change (zget [y] 0) with (Some y). cbn [orUB bindr].
    rewrite cont_shift by assumption. cbn [Z.eqb Pos.eqb].
    replace (zlen A + (zlen t + (1 + 0)) - 1) with (zlen A + zlen t) by lia.
    apply IH; [assumption..|lia].
Qed.
Lemma skip_back_ok cs : forall A R, text cs -> skip_back (length cs) (A ++ concat cs ++ R) (zlen A + zlen (concat cs)) = Ok (zlen A).
Proof.
  induction cs as [|c cs IH] using rev_ind; intros A R H.
  - cbn. f_equal. lia.
  - apply text_app in H. destruct H as [H Hc]. apply Forall_inv in Hc.
    rewrite app_length. cbn [length]. rewrite Nat.add_1_r. cbn [skip_back].
    destruct (uchar_cases c Hc) as (x & t & -> & Hx & _ & Ht & _ & H4).
    rewrite concat_app. cbn [concat]. rewrite app_nil_r, !zlen_app, zlen_cons.
    rewrite <- app_assoc. replace (A ++ concat cs ++ (x :: t) ++ R) with ((A ++ concat cs) ++ (x :: t) ++ R) by (rewrite <- app_assoc; reflexivity).
    replace (zlen A + (zlen (concat cs) + (1 + zlen t)) - 1) with (zlen (A ++ concat cs) + zlen t) by (rewrite zlen_app; lia).
    rewrite back_one_ok; [|assumption..|rewrite !app_length; cbn [length]; lia]. cbn [bindr].
    rewrite <- app_assoc, zlen_app. apply IH. assumption.
Qed.

Lemma buf3 A M B : buf (ustr (A ++ M ++ B)) = concat A ++ concat M ++ concat B ++ [0].
Proof. unfold buf, ustr. cbn [sbytes]. rewrite concat_app3, <- !app_assoc. reflexivity. Qed.
Lemma buf2 A B : buf (ustr (A ++ B)) = concat A ++ concat B ++ [0].
Proof. unfold buf, ustr. cbn [sbytes]. rewrite concat_app, <- app_assoc. reflexivity. Qed.

Lemma skip_chars_fwd A M B cs n p : cs = A ++ M ++ B -> text cs -> p = zlen (concat A) -> n = zlen M ->
  skip_chars (buf (ustr cs)) p n (isascii (ustr cs)) = Ok (zlen (concat A) + zlen (concat M)).
Proof.
  intros E H -> ->. unfold skip_chars. destruct (isascii (ustr cs)) eqn:Ea.
  - apply isascii_one in Ea; [|assumption]. rewrite E in Ea. apply Forall_app in Ea. destruct Ea as [_ Ea].
    apply Forall_app in Ea. destruct Ea as [Ea _]. rewrite (ones_concat M Ea). reflexivity.
  - pose proof (zlen_nn M). destruct (0 <=? zlen M) eqn:E2; [|lia]. unfold zlen at 1. rewrite Nat2Z.id.
    rewrite E, buf3. apply skip_fwd_ok. rewrite E in H. apply text_app in H. destruct H as [_ H]. apply text_app in H. tauto.
Qed.
Lemma skip_chars_back A M B cs n p : cs = A ++ M ++ B -> text cs -> p = zlen (concat A) + zlen (concat M) -> n = - zlen M ->
  skip_chars (buf (ustr cs)) p n (isascii (ustr cs)) = Ok (zlen (concat A)).
Proof.
  intros E H -> ->. unfold skip_chars. destruct (isascii (ustr cs)) eqn:Ea.
  - apply isascii_one in Ea; [|assumption]. rewrite E in Ea. apply Forall_app in Ea. destruct Ea as [_ Ea].
    apply Forall_app in Ea. destruct Ea as [Ea _]. rewrite (ones_concat M Ea). f_equal. lia.
  - pose proof (zlen_nn M). destruct (0 <=? - zlen M) eqn:E2.
    + assert (M = []) by (destruct M; [reflexivity|rewrite zlen_cons in *; pose proof (zlen_nn M); lia]). subst M.
      cbn. f_equal. lia.
    + rewrite Z.opp_involutive. unfold zlen at 1. rewrite Nat2Z.id. rewrite E, buf3. apply skip_back_ok.
      rewrite E in H. apply text_app in H. destruct H as [_ H]. apply text_app in H. tauto.
Qed.

Lemma cut {A} (l : list A) n : 0 <= n <= zlen l -> exists a b, l = a ++ b /\ zlen a = n.
Proof.
  intros H. exists (firstn (Z.to_nat n) l), (skipn (Z.to_nat n) l). split; [symmetry; apply firstn_skipn|].
  unfold zlen in *. rewrite firstn_length. lia.
Qed.

Lemma char_no_loop_ok cs : forall fuel A R r, text cs -> (length cs <= fuel)%nat ->
  char_no_loop fuel (A ++ concat cs ++ R) (zlen A + zlen (concat cs)) (zlen A) r = Ok (r + zlen cs).
Proof.
  induction cs as [|c cs IH]; intros fuel A R r H Hf.
  - cbn [concat]. rewrite zlen_nil. replace (zlen A + 0) with (zlen A) by lia. destruct fuel; cbn [char_no_loop]; rewrite Z.ltb_irrefl, zlen_nil; f_equal; lia.
  - apply text_cons in H. destruct H as [H1 H2]. cbn [concat length] in *. destruct fuel as [|fuel]; [lia|]. cbn [char_no_loop].
    rewrite zlen_app. pose proof (uchar_len c H1). pose proof (zlen_nn (concat cs)).
    destruct (_ <? _) eqn:E; [|lia]. rewrite <- app_assoc, rd_char by assumption. cbn [bindr]. rewrite bl2 by assumption.
    rewrite (app_assoc A). replace (zlen A + zlen c) with (zlen (A ++ c)) by apply zlen_app. replace (zlen A + (zlen c + zlen (concat cs))) with (zlen (A ++ c) + zlen (concat cs)) by (rewrite zlen_app; lia).
    rewrite IH by (assumption || lia). rewrite zlen_cons. f_equal. lia.
Qed.
Lemma char_no_ok A B cs i : cs = A ++ B -> text cs -> i = zlen (concat A) -> char_no (ustr cs) i = Ok (zlen A).
Proof.
  intros E H ->. unfold char_no. destruct (nbytes (ustr cs) =? nchars (ustr cs)) eqn:Ea.
  - assert (Ha : isascii (ustr cs) = true) by (unfold isascii; lia). apply isascii_one in Ha; [|assumption].
    rewrite E in Ha. apply Forall_app in Ha. destruct Ha as [Ha _]. rewrite (ones_concat A Ha). reflexivity.
  - rewrite E, buf2. rewrite E in H. apply text_app in H. destruct H as [H _].
    pose proof (char_no_loop_ok A (Z.to_nat (zlen (concat A))) [] (concat B ++ [0]) 0 H) as L.
    change (zlen (@nil Z)) with 0 in L. cbn [app] in L. rewrite !Z.add_0_l in L. apply L.
    pose proof (zlen_concat A H). unfold zlen in *. lia.
Qed.

(** ** Byte occurrences and character occurrences. *)
Lemma boundary cs : forall a x r, text cs -> concat cs = a ++ x :: r -> x < 128 \/ 192 <= x ->
  exists A B, cs = A ++ B /\ concat A = a /\ concat B = x :: r.
Proof.
  induction cs as [|c cs IH]; intros a x r H E Hx.
  - destruct a; discriminate.
  - apply text_cons in H. destruct H as [H1 H2]. cbn [concat] in E. apply app_eq_app in E.
    destruct E as (l & [(E1 & E2)|(E1 & E2)]).
    + destruct a as [|a0 a].
      * exists [], (c :: cs). cbn in E1. subst l. cbn [app concat]. rewrite E2. auto.
      * destruct l as [|y l].
        -- rewrite app_nil_r in E1. subst c. exists [a0 :: a], cs. cbn. rewrite app_nil_r. cbn in E2. auto.
        -- injection E2 as <- E2. destruct (uchar_cases c H1) as (z & t & -> & _ & _ & Ht & _ & _).
           injection E1 as -> ->. apply Forall_app in Ht. destruct Ht as [_ Ht]. apply Forall_inv in Ht. unfold cont in Ht. lia.
    + destruct (IH l x r H2 E2 Hx) as (A & B & -> & <- & HB). exists (c :: A), B. cbn. subst a. auto.
Qed.
Lemma prefix_chars ps : forall cs b, text cs -> text ps -> concat cs = concat ps ++ b -> exists B, cs = ps ++ B /\ concat B = b.
Proof.
  induction ps as [|p ps IH]; intros cs b H1 H2 E.
  - exists cs. auto.
  - apply text_cons in H2. destruct H2 as [Hp H2]. cbn [concat] in E. destruct cs as [|c cs].
    + cbn in E. destruct p; [destruct (uchar_ne [] Hp eq_refl)|discriminate].
    + apply text_cons in H1. destruct H1 as [Hc H1]. cbn [concat] in E. rewrite <- app_assoc in E.
      destruct (uchar_prefix _ _ _ _ Hc Hp E) as [-> E2]. destruct (IH cs b H1 H2 E2) as (B & -> & HB).
      exists B. auto.
Qed.
Lemma sync cs ps a b : text cs -> text ps -> ps <> [] -> concat cs = a ++ concat ps ++ b ->
  exists A B, cs = A ++ ps ++ B /\ concat A = a /\ concat B = b.
Proof.
  intros H1 H2 Hne E. destruct ps as [|p ps]; [congruence|].
  assert (Hp : uchar p) by (apply text_cons in H2; tauto).
  destruct (uchar_cases p Hp) as (x & t & -> & Hx & _). cbn [concat app] in E.
  destruct (boundary cs a x ((t ++ concat ps) ++ b) H1 E Hx) as (A & B & -> & HA & HB).
  apply text_app in H1. destruct H1 as [_ H1].
  destruct (prefix_chars ((x :: t) :: ps) B b H1 H2 HB) as (B' & -> & HB'). exists A, B'. auto.
Qed.

Lemma occ_bytes (cs ps A B : list char) : cs = A ++ ps ++ B -> occurs (concat cs) (concat ps) (zlen (concat A)).
Proof. intros ->. exists (concat A), (concat B). split; [apply concat_app3|reflexivity]. Qed.
Lemma absent_chars (cs ps : list char) : absent (concat cs) (concat ps) -> absent cs ps.
Proof. intros H n (A & B & E & _). apply (H (zlen (concat A))). apply (occ_bytes cs ps A B E). Qed.

Lemma app_prefix_le {A} (a b c d : list A) : a ++ b = c ++ d -> zlen a <= zlen c -> exists l, c = a ++ l.
Proof.
  intros E L. apply app_eq_app in E. destruct E as (l & [(E1 & E2)|(E1 & E2)]).
  - exists []. subst a. rewrite zlen_app in L. destruct l; [rewrite !app_nil_r; reflexivity|]. rewrite zlen_cons in L. pose proof (zlen_nn l). lia.
  - exists l. assumption.
Qed.

Lemma first_chars cs ps n : text cs -> text ps -> first_occ (concat cs) (concat ps) n ->
  exists A B, cs = A ++ ps ++ B /\ n = zlen (concat A) /\ first_occ cs ps (zlen A).
Proof.
  intros H1 H2 [(a & b & E & <-) Hmin]. destruct ps as [|p ps].
  - exists [], cs. split; [reflexivity|]. split.
    + assert (Ho : occurs (concat cs) [] 0) by (exists [], (concat cs); auto). specialize (Hmin 0 Ho). pose proof (zlen_nn a). cbn. lia.
    + split; [exists [], cs; auto|]. intros m (A & B & _ & <-). apply zlen_nn.
  - destruct (sync cs (p :: ps) a b H1 H2 ltac:(discriminate) E) as (A & B & EA & HA & HB).
    exists A, B. split; [assumption|]. split; [congruence|]. split; [exists A, B; auto|].
    intros m (A' & B' & E' & <-). specialize (Hmin _ (occ_bytes cs (p :: ps) A' B' E')).
    destruct (Z_le_gt_dec (zlen A) (zlen A')) as [?|Hgt]; [assumption|]. exfalso.
    rewrite E' in EA. destruct (app_prefix_le A' ((p :: ps) ++ B') A ((p :: ps) ++ B) EA ltac:(lia)) as (l & ->).
    rewrite <- HA, concat_app, !zlen_app in *. rewrite E', EA in H1. 
    apply text_app in H1. destruct H1 as [H1 _]. apply text_app in H1. destruct H1 as [_ H1]. pose proof (zlen_concat l H1). lia.
Qed.
Lemma last_chars cs ps n : text cs -> text ps -> last_occ (concat cs) (concat ps) n ->
  exists A B, cs = A ++ ps ++ B /\ n = zlen (concat A) /\ last_occ cs ps (zlen A).
Proof.
  intros H1 H2 [(a & b & E & <-) Hmax]. destruct ps as [|p ps].
  - exists cs, []. split; [rewrite app_nil_r; reflexivity|]. split.
    + assert (Ho : occurs (concat cs) [] (zlen (concat cs))) by (exists (concat cs), []; rewrite app_nil_r; auto). specialize (Hmax _ Ho).
      rewrite E in Hmax. rewrite E. rewrite !zlen_app in *. pose proof (zlen_nn b). cbn [concat] in *. rewrite zlen_nil in *. lia.
    + split; [exists cs, []; rewrite app_nil_r; auto|]. intros m (A & B & -> & <-). rewrite zlen_app. pose proof (zlen_nn ([] ++ B)). lia.
  - destruct (sync cs (p :: ps) a b H1 H2 ltac:(discriminate) E) as (A & B & EA & HA & HB).
    exists A, B. split; [assumption|]. split; [congruence|]. split; [exists A, B; auto|].
    intros m (A' & B' & E' & <-). specialize (Hmax _ (occ_bytes cs (p :: ps) A' B' E')).
    destruct (Z_le_gt_dec (zlen A') (zlen A)) as [?|Hgt]; [assumption|]. exfalso.
    rewrite E' in EA. destruct (app_prefix_le A ((p :: ps) ++ B) A' ((p :: ps) ++ B') (eq_sym EA) ltac:(lia)) as (l & ->).
    rewrite <- HA, concat_app, !zlen_app in *. rewrite E' in H1.
    apply text_app in H1. destruct H1 as [H1 _]. apply text_app in H1. destruct H1 as [_ H1]. pose proof (zlen_concat l H1). lia.
Qed.

(** ** Bounds. *)
Lemma wrap32 x : is_int x -> wrapS 32 x = x.
Proof. intros H. apply wrapS_id; [lia|]. unfold inS, is_int in *. change (32 - 1) with 31. lia. Qed.
Lemma fix_ok n st en : 0 <= n -> pos_bound st -> pos_bound en ->
  fix_start_end n st en = (if n <? py_start n st then None else Some (py_start n st, py_end n en)).
Proof.
  intros Hn Hs He. assert (Hen : fix_end n en = py_end n en).
  { unfold fix_end, py_end, py_from. cbv zeta. destruct en as [e|]; [|lia]. cbn in He. rewrite wrap32 by (unfold is_int; lia).
    destruct (n <? e) eqn:E1; [destruct (e <? 0) eqn:E2; destruct (n <? 0) eqn:E3; lia|]. destruct (e <? 0) eqn:E2; [lia|]. rewrite E2. lia. }
  unfold fix_start_end, py_start, py_from. rewrite Hen. destruct st as [s|].
  - cbn in Hs. rewrite wrap32 by (unfold is_int; lia). destruct (s <? 0) eqn:E; [lia|]. rewrite E. reflexivity.
  - destruct (n <? 0) eqn:E; [lia|]. reflexivity.
Qed.
Lemma py_start_nn n st : 0 <= n -> pos_bound st -> 0 <= py_start n st.
Proof. intros Hn H. unfold py_start, py_from. destruct st as [s|]; [|lia]. cbn in H. destruct (s <? 0); lia. Qed.
Lemma py_end_nn n en : 0 <= n -> pos_bound en -> 0 <= py_end n en <= n.
Proof. intros Hn H. unfold py_end, py_from. destruct en as [s|]; [|lia]. cbn in H. destruct (s <? 0); lia. Qed.

Lemma window_mid {A} (a m b : list A) i j : i = zlen a -> j = zlen a + zlen m -> window (a ++ m ++ b) i j = m.
Proof.
  intros -> ->. unfold window. replace (zlen a + zlen m - zlen a) with (zlen m) by lia. unfold zlen. rewrite !Nat2Z.id.
  rewrite skipn_app, skipn_all, Nat.sub_diag. cbn [app skipn]. rewrite firstn_app, firstn_all, Nat.sub_diag. cbn. apply app_nil_r.
Qed.
Lemma window_cut {A} (l : list A) i j : 0 <= i <= j -> j <= zlen l -> exists a b, l = a ++ window l i j ++ b /\ zlen a = i /\ zlen (window l i j) = j - i.
Proof.
  intros H1 H2. destruct (cut l i ltac:(lia)) as (a & l' & -> & Ha). rewrite zlen_app in H2.
  destruct (cut l' (j - i) ltac:(lia)) as (m & b & -> & Hm). exists a, b. rewrite window_mid by lia. auto.
Qed.

(** The two bounds as offsets. *)
Lemma skips cs a b : text cs -> 0 <= a <= zlen cs -> 0 <= b <= zlen cs ->
  exists p q, skip_chars (buf (ustr cs)) 0 a (isascii (ustr cs)) = Ok p /\
    skip_chars (buf (ustr cs)) p (b - a) (isascii (ustr cs)) = Ok q /\
    (b < a -> q - p < 0) /\
    (a <= b -> exists A B, cs = A ++ window cs a b ++ B /\ zlen A = a /\ p = zlen (concat A) /\ q - p = zlen (concat (window cs a b))).
Proof.
  intros H Ha Hb. destruct (Z_le_gt_dec a b) as [Hle|Hgt].
  - destruct (window_cut cs a b ltac:(lia) ltac:(lia)) as (A & B & E & HA & HW).
    exists (zlen (concat A)), (zlen (concat A) + zlen (concat (window cs a b))).
    split; [rewrite (skip_chars_fwd [] A (window cs a b ++ B) cs) by (assumption || reflexivity || lia); reflexivity|].
    split; [apply (skip_chars_fwd A (window cs a b) B cs); (assumption || reflexivity || lia)|].
    split; [lia|]. intros _. exists A, B. repeat split; (assumption || lia).
  - destruct (window_cut cs b a ltac:(lia) ltac:(lia)) as (A & B & E & HA & HW).
    exists (zlen (concat A) + zlen (concat (window cs b a))), (zlen (concat A)).
    split; [rewrite (skip_chars_fwd [] (A ++ window cs b a) B cs);
            [cbn; rewrite concat_app, zlen_app; reflexivity|rewrite E at 1; rewrite <- !app_assoc; reflexivity|assumption|reflexivity|rewrite zlen_app; lia]|].
    split; [apply (skip_chars_back A (window cs b a) B cs); (assumption || reflexivity || lia)|].
    split; [|lia]. intros _. assert (text (window cs b a)).
    { rewrite E in H. apply text_app in H. destruct H as [_ H]. apply text_app in H. tauto. }
    pose proof (zlen_concat _ H0). lia.
Qed.

Lemma buf_ustr ps : buf (ustr ps) = concat ps ++ [0]. Proof. reflexivity. Qed.
Lemma text_window cs A W B : cs = A ++ W ++ B -> text cs -> text W.
Proof. intros -> H. apply text_app in H. destruct H as [_ H]. apply text_app in H. tauto. Qed.

Lemma find_ok cs ps st en : text cs -> text ps -> pos_bound st -> pos_bound en ->
  exists r, str_find (ustr cs) (ustr ps) st en = Ok r /\ find_spec first_occ cs ps st en r.
Proof.
  intros H1 H2 Hs He. unfold str_find, find_spec. cbn [nchars ustr]. pose proof (zlen_nn cs) as Hn.
  rewrite fix_ok by assumption. pose proof (py_start_nn _ st Hn Hs). pose proof (py_end_nn _ en Hn He).
  set (a := py_start (zlen cs) st) in *. set (b := py_end (zlen cs) en) in *. fold (ustr cs).
  destruct (zlen cs <? a) eqn:E; [exists (-1); split; [reflexivity|]; right; split; [reflexivity|left; lia]|].
  destruct (skips cs a b H1 ltac:(lia) ltac:(lia)) as (p & q & -> & Hq & Hlt & Hge). cbn [bindr]. rewrite Hq. cbn [bindr].
  destruct (Z_le_gt_dec a b) as [Hab|Hab].
  - destruct (Hge Hab) as (A & B & Ec & HA & Hp & Hqp). pose proof (text_window _ _ _ _ Ec H1) as HW.
    destruct (bmh_ok (concat A) (concat (window cs a b)) (concat B ++ [0]) (concat ps) [0]) as (n & Hb & Hr).
    assert (Eb : buf (ustr cs) = concat A ++ concat (window cs a b) ++ concat B ++ [0]) by (rewrite Ec at 1; apply buf3).
    rewrite Eb, Hqp, Hp. change (nbytes (ustr ps)) with (zlen (concat ps)). rewrite buf_ustr, Hb. cbn [bindr].
    destruct Hr as [[-> Hr]|Hr].
    + exists (-1). split; [reflexivity|]. right. split; [reflexivity|]. right. apply absent_chars. assumption.
    + destruct (first_chars _ _ _ HW H2 Hr) as (A' & B' & EW & En & Hf).
      destruct (n <? 0) eqn:E0; [subst n; pose proof (zlen_nn (concat A')); lia|].
      exists (a + zlen A'). split.
      * rewrite (char_no_ok (A ++ A') (ps ++ B' ++ B) cs); [rewrite zlen_app; f_equal; lia| |assumption|rewrite concat_app, zlen_app; lia].
        rewrite Ec at 1. rewrite EW. rewrite <- !app_assoc. reflexivity.
      * left. split; [assumption|]. exists (zlen A'). auto.
  - rewrite bmh_neg; [|apply Hlt; lia|apply zlen_nn]. cbn. exists (-1). split; [reflexivity|]. right. split; [reflexivity|left; lia].
Qed.

Lemma rfind_ok cs ps st en : text cs -> text ps -> pos_bound st -> pos_bound en ->
  exists r, str_rfind (ustr cs) (ustr ps) st en = Ok r /\ find_spec last_occ cs ps st en r.
Proof.
  intros H1 H2 Hs He. unfold str_rfind, find_spec. cbn [nchars ustr]. pose proof (zlen_nn cs) as Hn.
  rewrite fix_ok by assumption. pose proof (py_start_nn _ st Hn Hs). pose proof (py_end_nn _ en Hn He).
  set (a := py_start (zlen cs) st) in *. set (b := py_end (zlen cs) en) in *. fold (ustr cs).
  destruct (zlen cs <? a) eqn:E; [exists (-1); split; [reflexivity|]; right; split; [reflexivity|left; lia]|].
  destruct (skips cs a b H1 ltac:(lia) ltac:(lia)) as (p & q & -> & Hq & Hlt & Hge). cbn [bindr]. rewrite Hq. cbn [bindr].
  destruct (Z_le_gt_dec a b) as [Hab|Hab].
  - destruct (Hge Hab) as (A & B & Ec & HA & Hp & Hqp). pose proof (text_window _ _ _ _ Ec H1) as HW.
    destruct (rbmh_ok (concat A) (concat (window cs a b)) (concat B ++ [0]) (concat ps) [0]) as (n & Hb & Hr).
    assert (Eb : buf (ustr cs) = concat A ++ concat (window cs a b) ++ concat B ++ [0]) by (rewrite Ec at 1; apply buf3).
    rewrite Eb, Hqp, Hp. change (nbytes (ustr ps)) with (zlen (concat ps)). rewrite buf_ustr, Hb. cbn [bindr].
    destruct Hr as [[-> Hr]|Hr].
    + exists (-1). split; [reflexivity|]. right. split; [reflexivity|]. right. apply absent_chars. assumption.
    + destruct (last_chars _ _ _ HW H2 Hr) as (A' & B' & EW & En & Hf).
      destruct (n <? 0) eqn:E0; [subst n; pose proof (zlen_nn (concat A')); lia|].
      exists (a + zlen A'). split.
      * rewrite (char_no_ok (A ++ A') (ps ++ B' ++ B) cs); [rewrite zlen_app; f_equal; lia| |assumption|rewrite concat_app, zlen_app; lia].
        rewrite Ec at 1. rewrite EW. rewrite <- !app_assoc. reflexivity.
      * left. split; [assumption|]. exists (zlen A'). auto.
  - rewrite rbmh_neg; [|apply Hlt; lia|apply zlen_nn]. cbn. exists (-1). split; [reflexivity|]. right. split; [reflexivity|left; lia].
Qed.

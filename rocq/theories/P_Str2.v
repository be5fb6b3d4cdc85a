(** Counting, splitting, joining, replacing. *)
From Verif Require Import Base M_Slice S_Slice M_Str S_Str P_Base P_Bmh P_Str.
From Coq Require Import ZifyBool ZifyNat.

Lemma first_unique {A} (X P : list A) n m : first_occ X P n -> first_occ X P m -> n = m.
Proof. intros [H1 H2] [H3 H4]. specialize (H2 m H3). specialize (H4 n H1). lia. Qed.
Lemma occurs_split {A} (P a b a' b' : list A) : a ++ P ++ b = a' ++ P ++ b' -> zlen a = zlen a' -> a = a' /\ b = b'.
Proof. intros E L. destruct (app_len_eq _ _ _ _ E L) as [-> E2]. split; [reflexivity|]. apply app_inv_head in E2. assumption. Qed.
Lemma absent_nil {A} (P : list A) : P <> [] -> absent [] P.
Proof.
  intros H n (a & b & E & _). symmetry in E. apply app_eq_nil in E. destruct E as [_ E]. apply app_eq_nil in E. tauto.
Qed.

Lemma contains_ok cs ps : text cs -> text ps ->
  exists r, str_contains (ustr cs) (ustr ps) = Ok r /\ (r = true <-> exists n, occurs cs ps n).
Proof.
  intros H1 H2. unfold str_contains. change (nbytes (ustr ps)) with (zlen (concat ps)).
  change (nbytes (ustr cs)) with (zlen (concat cs)).
  destruct (bmh_ok [] (concat cs) [0] (concat ps) [0]) as (n & Hb & Hr). change (zlen (@nil Z)) with 0 in Hb.
  cbn [app] in Hb. rewrite !buf_ustr, Hb. cbn [bindr]. exists (0 <=? n). split; [reflexivity|].
  destruct Hr as [[-> Hr]|Hr].
  - split; [discriminate|]. intros (m & Hm). exfalso. exact (absent_chars cs ps Hr m Hm).
  - destruct (first_chars _ _ _ H1 H2 Hr) as (A & B & E & En & Hf). pose proof (zlen_nn (concat A)).
    split; [intros _; exists (zlen A); apply Hf|lia].
Qed.

(** The search in a part of the buffer. *)
Lemma bmh_chars A W R ps p : text W -> text ps -> p = zlen A ->
  exists n, bmh (A ++ concat W ++ R) p (buf (ustr ps)) (zlen (concat W)) (nbytes (ustr ps)) = Ok n /\
    ((n = -1 /\ absent W ps) \/
     exists a b, W = a ++ ps ++ b /\ first_occ W ps (zlen a) /\ n = zlen (concat a)).
Proof.
  intros H1 H2 ->. destruct (bmh_ok A (concat W) R (concat ps) [0]) as (n & Hb & Hr). exists n. split; [exact Hb|].
  destruct Hr as [[-> Hr]|Hr]; [left; split; [reflexivity|apply absent_chars; assumption]|right].
  destruct (first_chars _ _ _ H1 H2 Hr) as (a & b & E & En & Hf). exists a, b. auto.
Qed.

Lemma count_loop_ok ps (Hps : text ps) (Hne : ps <> []) fuel : forall W A R r, text W -> zlen (concat W) < Z.of_nat fuel ->
  exists l, splits ps None W l /\ count_loop fuel (A ++ concat W ++ R) (zlen A) (zlen A + zlen (concat W)) (ustr ps) r = Ok (r + (zlen l - 1)).
Proof.
  induction fuel as [|fuel IH]; intros W A R r HW Hf; [pose proof (zlen_nn (concat W)); lia|]. cbn [count_loop].
  replace (zlen A + zlen (concat W) - zlen A) with (zlen (concat W)) by lia.
  destruct (bmh_chars A W R ps _ HW Hps eq_refl) as (n & -> & Hr). cbn [bindr].
  destruct Hr as [[-> Hr]|(a & b & E & Ho & ->)].
  - cbn [Z.leb Z.compare]. exists [W]. split; [apply splits_none; assumption|]. rewrite zlen_cons, zlen_nil. f_equal. lia.
  - pose proof (zlen_nn (concat a)). destruct (0 <=? zlen (concat a)) eqn:E0; [|lia].
    assert (Hpl : 1 <= zlen (concat ps)).
    { pose proof (zlen_concat ps Hps). destruct ps; [congruence|]. rewrite zlen_cons in H0. pose proof (zlen_nn ps). lia. }
    change (nbytes (ustr ps)) with (zlen (concat ps)). destruct (0 <? zlen (concat ps)) eqn:E1; [|lia].
    assert (Hb : text b) by (rewrite E in HW; apply text_app in HW; destruct HW as [_ HW]; apply text_app in HW; tauto).
    assert (EW : zlen (concat W) = zlen (concat a) + (zlen (concat ps) + zlen (concat b))).
    { rewrite E, concat_app3, !zlen_app. reflexivity. }
    destruct (IH b (A ++ concat a ++ concat ps) R (r + 1) Hb ltac:(lia)) as (l & Hl & Hc).
    exists (a :: l). split; [eapply splits_cons; [discriminate|exact E|assumption|exact Hl]|].
    rewrite !zlen_app in Hc. rewrite zlen_cons.
    replace (A ++ concat W ++ R) with ((A ++ concat a ++ concat ps) ++ concat b ++ R) by (rewrite E, concat_app3, <- !app_assoc; reflexivity).
    replace (zlen A + (zlen (concat a) + zlen (concat ps))) with (zlen A + (zlen (concat a) + zlen (concat ps))) by lia.
    replace (zlen A + zlen (concat W)) with (zlen A + (zlen (concat a) + zlen (concat ps)) + zlen (concat b)) by lia.
    rewrite Hc. f_equal. lia.
Qed.

Lemma count_ok cs ps st en : text cs -> text ps -> ps <> [] -> pos_bound st -> pos_bound en ->
  let a := py_start (zlen cs) st in let b := py_end (zlen cs) en in
  exists l, (if b <? a then l = [[]] else splits ps None (window cs a b) l) /\
    str_count (ustr cs) (ustr ps) st en = Ok (zlen l - 1).
Proof.
  intros H1 H2 Hne Hs He a b. unfold str_count. cbn [nchars ustr]. pose proof (zlen_nn cs) as Hn.
  rewrite fix_ok by assumption. pose proof (py_start_nn _ st Hn Hs). pose proof (py_end_nn _ en Hn He).
  fold a b in H, H0 |- *. fold (ustr cs).
  destruct (zlen cs <? a) eqn:E.
  { exists [[]]. destruct (b <? a) eqn:E2; [|lia]. split; reflexivity. }
  destruct (skips cs a b H1 ltac:(lia) ltac:(lia)) as (p & q & -> & Hq & Hlt & Hge). cbn [bindr]. rewrite Hq. cbn [bindr].
  destruct (b <? a) eqn:E2.
  - exists [[]]. split; [reflexivity|]. cbn [count_loop]. rewrite bmh_neg; [|apply Hlt; lia|apply zlen_nn]. reflexivity.
  - destruct (Hge ltac:(lia)) as (A & B & Ec & HA & Hp & Hqp). pose proof (text_window _ _ _ _ Ec H1) as HW.
    destruct (count_loop_ok ps H2 Hne (S (S (Z.to_nat (q - p)))) (window cs a b) (concat A) (concat B ++ [0]) 0 HW ltac:(lia)) as (l & Hl & Hc).
    exists l. split; [assumption|].
    assert (Eb : buf (ustr cs) = concat A ++ concat (window cs a b) ++ concat B ++ [0]) by (rewrite Ec at 1; apply buf3).
    rewrite Eb. replace p with (zlen (concat A)) by congruence. replace q with (zlen (concat A) + zlen (concat (window cs a b))) by lia.
    replace p with (zlen (concat A)) in Hc by congruence. replace q with (zlen (concat A) + zlen (concat (window cs a b))) in Hc by lia.
    rewrite Hc. reflexivity.
Qed.

(** Counting the empty string. *)
Lemma count_loop_empty fuel : forall b p q r, 0 <= q - p + 1 < Z.of_nat fuel ->
  count_loop fuel b p q (ustr []) r = Ok (r + (q - p + 1)).
Proof.
  induction fuel as [|fuel IH]; intros b p q r Hf; [lia|]. cbn [count_loop].
  change (nbytes (ustr [])) with 0. change (buf (ustr [])) with [0]. destruct (Z_lt_ge_dec (q - p) 0) as [Hlt|Hge].
  - rewrite bmh_neg by lia. cbn. f_equal. lia.
  - unfold bmh. destruct (q - p <? 0) eqn:E; [lia|]. replace (Z.to_nat (0 - 1)) with O by lia. cbn [fill_skip bindr bmh_loop].
    change (0 - 1) with (-1). destruct (-1 <? q - p) eqn:E2; [|lia]. cbn [Z.to_nat cmp_back bindr Z.eqb Pos.eqb].
    change (-1 + 1) with 0. cbn [Z.leb Z.compare Z.ltb]. rewrite IH by lia. f_equal. lia.
Qed.
Lemma ascii_text cs : ascii cs -> text cs.
Proof. intros H. unfold text. eapply Forall_impl; [|exact H]. cbn beta. intros c (x & -> & Hx). exact Hx. Qed.
Lemma ascii_ones cs : ascii cs -> Forall (fun c : char => zlen c = 1) cs.
Proof. intros H. eapply Forall_impl; [|exact H]. cbn beta. intros c (x & -> & _). reflexivity. Qed.
Lemma ascii_len cs : ascii cs -> zlen (concat cs) = zlen cs.
Proof. intros H. apply ones_concat, ascii_ones, H. Qed.

Lemma fix_none n : 0 <= n -> fix_start_end n None None = Some (0, n).
Proof. reflexivity. Qed.
Lemma count_empty_bytes cs : text cs -> str_count (ustr cs) (ustr []) None None = Ok (zlen (concat cs) + 1).
Proof.
  intros H1. unfold str_count. cbn [nchars ustr]. pose proof (zlen_nn cs) as Hn. rewrite fix_none by assumption. fold (ustr cs).
  rewrite (skip_chars_fwd [] [] cs cs) by (assumption || reflexivity). cbn [bindr concat]. rewrite zlen_nil, Z.add_0_l.
  rewrite (skip_chars_fwd [] cs [] cs); [|rewrite app_nil_r; reflexivity|assumption|reflexivity|lia].
  cbn [bindr concat]. rewrite zlen_nil, Z.add_0_l. pose proof (zlen_nn (concat cs)).
  fold (ustr []). rewrite count_loop_empty by lia. f_equal. lia.
Qed.

(** ** Partition. *)
Lemma window_all {A} (l : list A) : window l 0 (zlen l) = l.
Proof. pose proof (window_mid [] l [] 0 (zlen l) eq_refl eq_refl). cbn in H. rewrite app_nil_r in H. exact H. Qed.
Lemma find_all cs ps : text cs -> text ps -> exists r, str_find (ustr cs) (ustr ps) None None = Ok r /\
  ((r = -1 /\ absent cs ps) \/ first_occ cs ps r).
Proof.
  intros H1 H2. destruct (find_ok cs ps None None H1 H2 I I) as (r & Hf & Hs). exists r. split; [assumption|].
  unfold find_spec in Hs. cbn [py_start py_end py_from] in Hs. unfold py_start, py_end, py_from in Hs.
  rewrite Z.min_id, window_all in Hs. pose proof (zlen_nn cs).
  destruct Hs as [[_ (m & Hm & ->)]|[-> [?|Ha]]]; [right; assumption|lia|left; auto].
Qed.
Lemma rfind_all cs ps : text cs -> text ps -> exists r, str_rfind (ustr cs) (ustr ps) None None = Ok r /\
  ((r = -1 /\ absent cs ps) \/ last_occ cs ps r).
Proof.
  intros H1 H2. destruct (rfind_ok cs ps None None H1 H2 I I) as (r & Hf & Hs). exists r. split; [assumption|].
  unfold find_spec in Hs. cbn [py_start py_end py_from] in Hs. unfold py_start, py_end, py_from in Hs.
  rewrite Z.min_id, window_all in Hs. pose proof (zlen_nn cs).
  destruct Hs as [[_ (m & Hm & ->)]|[-> [?|Ha]]]; [right; assumption|lia|left; auto].
Qed.

Lemma new_ok cs n : text cs -> zlen (concat cs) < 2 ^ 31 -> n = zlen cs -> new_str n (concat cs) = Ok (ustr cs).
Proof. intros H F ->. unfold new_str. pose proof (zlen_concat cs H). destruct (_ && _) eqn:E; [reflexivity|lia]. Qed.
Lemma fits_app A B : fits (A ++ B) -> fits A /\ fits B.
Proof. unfold fits. rewrite concat_app, zlen_app. pose proof (zlen_nn (concat A)). pose proof (zlen_nn (concat B)). lia. Qed.
Lemma occ_nn {A} (X P : list A) n : occurs X P n -> 0 <= n.
Proof. intros (a & b & _ & <-). apply zlen_nn. Qed.

Lemma partition_ok cs ps : text cs -> text ps -> fits cs ->
  (absent cs ps /\ str_partition (ustr cs) (ustr ps) = Ok (ustr cs, ustr [], ustr [])) \/
  exists A B, cs = A ++ ps ++ B /\ first_occ cs ps (zlen A) /\
    str_partition (ustr cs) (ustr ps) = Ok (ustr A, ustr ps, ustr B).
Proof.
  intros H1 H2 F. unfold str_partition. destruct (find_all cs ps H1 H2) as (r & -> & Hr). cbn [bindr].
  destruct Hr as [[-> Ha]|Hf]; [left; split; [assumption|reflexivity]|right].
  pose proof (occ_nn _ _ _ (proj1 Hf)). destruct (r <? 0) eqn:E; [lia|].
  destruct (bmh_chars [] cs [0] ps 0 H1 H2 eq_refl) as (n & Hb & Hn). cbn [app] in Hb. rewrite <- buf_ustr in Hb.
  change (nbytes (ustr cs)) with (zlen (concat cs)). rewrite Hb. cbn [bindr].
  destruct Hn as [[_ Hn]|(A & B & Ec & Ho & ->)]; [destruct (Hn _ (proj1 Hf))|].
  assert (r = zlen A) by (eapply first_unique; eassumption). subst r.
  exists A, B. split; [assumption|]. split; [assumption|].
  assert (HT : text A /\ text B) by (rewrite Ec in H1; apply text_app in H1; destruct H1 as [? H1]; apply text_app in H1; tauto).
  assert (HF : fits A /\ fits B) by (rewrite Ec in F; apply fits_app in F; destruct F as [? F]; apply fits_app in F; tauto).
  assert (Eb : buf (ustr cs) = concat A ++ concat ps ++ concat B ++ [0]) by (rewrite Ec at 1; apply buf3).
  assert (El : zlen (concat cs) = zlen (concat A) + (zlen (concat ps) + zlen (concat B))) by (rewrite Ec, concat_app3, !zlen_app; reflexivity).
  assert (El2 : zlen cs = zlen A + (zlen ps + zlen B)) by (rewrite Ec, !zlen_app; reflexivity).
  rewrite Eb. pose proof (copy_mid' [] (concat A) (concat ps ++ concat B ++ [0]) 0 (zlen (concat A)) eq_refl eq_refl) as C1. cbn [app] in C1. rewrite C1. cbn [bindr]. rewrite new_ok by (tauto || reflexivity). cbn [bindr].
  rewrite app_assoc. change (nbytes (ustr ps)) with (zlen (concat ps)).
  rewrite (copy_mid' (concat A ++ concat ps) (concat B)) by (rewrite ?zlen_app; lia). cbn [bindr].
  rewrite new_ok; [reflexivity|tauto|apply HF|cbn [nchars ustr]; lia].
Qed.

Lemma rbmh_chars A W R ps p : text W -> text ps -> p = zlen A ->
  exists n, rbmh (A ++ concat W ++ R) p (buf (ustr ps)) (zlen (concat W)) (nbytes (ustr ps)) = Ok n /\
    ((n = -1 /\ absent W ps) \/
     exists a b, W = a ++ ps ++ b /\ last_occ W ps (zlen a) /\ n = zlen (concat a)).
Proof.
  intros H1 H2 ->. destruct (rbmh_ok A (concat W) R (concat ps) [0]) as (n & Hb & Hr). exists n. split; [exact Hb|].
  destruct Hr as [[-> Hr]|Hr]; [left; split; [reflexivity|apply absent_chars; assumption]|right].
  destruct (last_chars _ _ _ H1 H2 Hr) as (a & b & E & En & Hf). exists a, b. auto.
Qed.
Lemma last_unique {A} (X P : list A) n m : last_occ X P n -> last_occ X P m -> n = m.
Proof. intros [H1 H2] [H3 H4]. specialize (H2 m H3). specialize (H4 n H1). lia. Qed.
Lemma rpartition_ok cs ps : text cs -> text ps -> fits cs ->
  (absent cs ps /\ str_rpartition (ustr cs) (ustr ps) = Ok (ustr [], ustr [], ustr cs)) \/
  exists A B, cs = A ++ ps ++ B /\ last_occ cs ps (zlen A) /\
    str_rpartition (ustr cs) (ustr ps) = Ok (ustr A, ustr ps, ustr B).
Proof.
  intros H1 H2 F. unfold str_rpartition. destruct (rfind_all cs ps H1 H2) as (r & -> & Hr). cbn [bindr].
  destruct Hr as [[-> Ha]|Hf]; [left; split; [assumption|reflexivity]|right].
  pose proof (occ_nn _ _ _ (proj1 Hf)). destruct (r <? 0) eqn:E; [lia|].
  destruct (rbmh_chars [] cs [0] ps 0 H1 H2 eq_refl) as (n & Hb & Hn). cbn [app] in Hb. rewrite <- buf_ustr in Hb.
  change (nbytes (ustr cs)) with (zlen (concat cs)). rewrite Hb. cbn [bindr].
  destruct Hn as [[_ Hn]|(A & B & Ec & Ho & ->)]; [destruct (Hn _ (proj1 Hf))|].
  assert (r = zlen A) by (eapply last_unique; eassumption). subst r.
  exists A, B. split; [assumption|]. split; [assumption|].
  assert (HT : text A /\ text B) by (rewrite Ec in H1; apply text_app in H1; destruct H1 as [? H1]; apply text_app in H1; tauto).
  assert (HF : fits A /\ fits B) by (rewrite Ec in F; apply fits_app in F; destruct F as [? F]; apply fits_app in F; tauto).
  assert (Eb : buf (ustr cs) = concat A ++ concat ps ++ concat B ++ [0]) by (rewrite Ec at 1; apply buf3).
  assert (El : zlen (concat cs) = zlen (concat A) + (zlen (concat ps) + zlen (concat B))) by (rewrite Ec, concat_app3, !zlen_app; reflexivity).
  assert (El2 : zlen cs = zlen A + (zlen ps + zlen B)) by (rewrite Ec, !zlen_app; reflexivity).
  rewrite Eb. pose proof (copy_mid' [] (concat A) (concat ps ++ concat B ++ [0]) 0 (zlen (concat A)) eq_refl eq_refl) as C1. cbn [app] in C1. rewrite C1. cbn [bindr]. rewrite new_ok by (tauto || reflexivity). cbn [bindr].
  rewrite app_assoc. change (nbytes (ustr ps)) with (zlen (concat ps)).
  rewrite (copy_mid' (concat A ++ concat ps) (concat B)) by (rewrite ?zlen_app; lia). cbn [bindr].
  rewrite new_ok; [reflexivity|tauto|apply HF|cbn [nchars ustr]; lia].
Qed.

(** ** Split. *)
Lemma splits_all {A} (P : list A) k X l : P <> [] -> splits P (Some k) X l -> (length X <= k)%nat -> splits P None X l.
Proof.
  intros Hne H. remember (Some k) as o eqn:Eo. revert k Eo. induction H as [X|o X Ha|o X a b l Ho E Hf H IH]; intros k Eo Hk.
  - injection Eo as <-. destruct X; [|cbn in Hk; lia]. apply splits_none, absent_nil. assumption.
  - apply splits_none. assumption.
  - subst o. destruct k as [|k]; [congruence|]. cbn [option_map pred] in IH.
    eapply splits_cons; [discriminate|exact E|assumption|]. apply (IH k eq_refl).
    subst X. rewrite !app_length in Hk. destruct P; [congruence|]. cbn in Hk. lia.
Qed.
Lemma splits_joined {A} (P : list A) k X l : splits P k X l -> joined P l = X /\ l <> [].
Proof.
  induction 1 as [X|o X Ha|o X a b l Ho E Hf H IH]; [split; [reflexivity|discriminate]..|].
  destruct IH as [IH1 IH2]. split; [|discriminate]. cbn [joined]. destruct l as [|y l]; [congruence|]. rewrite IH1. congruence.
Qed.
Lemma splits_text P k X l : splits P k X l -> text X -> Forall text l.
Proof.
  induction 1 as [X|o X Ha|o X a b l Ho E Hf H IH]; intros HX; [constructor; [assumption|constructor]..|].
  subst X. apply text_app in HX. destruct HX as [H1 HX]. apply text_app in HX. constructor; [assumption|]. apply IH. tauto.
Qed.


Lemma split_loop_ok ps (Hps : text ps) (Hne : ps <> []) fuel : forall X acc ssep maxs, text X -> fits X -> (length X < fuel)%nat ->
  zlen acc <= maxs ->
  (X = [] \/ zlen acc = maxs -> ssep = Some (ustr ps)) ->
  exists l, splits ps (Some (Z.to_nat (maxs - zlen acc))) X l /\
    split_loop fuel (ustr X) (ustr ps) ssep acc maxs = Ok (acc ++ map ustr l).
Proof.
  assert (Hpn : 0 < zlen ps) by (destruct ps; [congruence|rewrite zlen_cons; pose proof (zlen_nn ps); lia]).
  induction fuel as [|fuel IH]; intros X acc ssep maxs HX FX Hf Hm Hs; [lia|].
  cbn [split_loop]. change (nchars (ustr X)) with (zlen X). pose proof (zlen_nn X).
  destruct ((0 <? zlen X) && (zlen acc <? maxs)) eqn:E.
  - destruct (partition_ok X ps HX Hps FX) as [[Ha ->]|(A & B & EX & Ho & ->)]; cbn [bindr].
    + exists [X]. split; [apply splits_none; assumption|]. destruct fuel; reflexivity.
    + assert (HT : text A /\ text B) by (rewrite EX in HX; apply text_app in HX; destruct HX as [? HX]; apply text_app in HX; tauto).
      assert (HF : fits A /\ fits B) by (rewrite EX in FX; apply fits_app in FX; destruct FX as [? F]; apply fits_app in F; tauto).
      destruct (IH B (acc ++ [ustr A]) (Some (ustr ps)) maxs) as (l & Hl & ->).
      * tauto.
      * tauto.
      * rewrite EX, !app_length in Hf. destruct ps; [congruence|]. cbn in Hf. lia.
      * rewrite zlen_app, zlen_cons, zlen_nil. lia.
      * reflexivity.
      * exists (A :: l). split.
        -- eapply splits_cons; [|exact EX|assumption|].
           ++ intros [= EE]. lia.
           ++ cbn [option_map]. rewrite zlen_app, zlen_cons, zlen_nil in Hl.
              replace (pred (Z.to_nat (maxs - zlen acc))) with (Z.to_nat (maxs - (zlen acc + (1 + 0)))) by lia. exact Hl.
        -- cbn [map]. rewrite <- app_assoc. reflexivity.
  - assert (Hc : X = [] \/ zlen acc = maxs).
    { destruct X as [|c X]; [left; reflexivity|right]. rewrite zlen_cons in E. pose proof (zlen_nn X). lia. }
    rewrite (Hs Hc). cbn [nchars ustr]. destruct (0 <? zlen ps) eqn:E2; [|lia].
    exists [X]. split; [|reflexivity]. destruct Hc as [->|Hc].
    + apply splits_none, absent_nil. assumption.
    + replace (Z.to_nat (maxs - zlen acc)) with O by lia. apply splits_stop.
Qed.

Lemma split_ok cs ps m : text cs -> text ps -> ps <> [] -> fits cs -> m <> Some 0 ->
  exists l, splits ps (limit m) cs l /\ str_split (ustr cs) (ustr ps) m = Ok (map ustr l).
Proof.
  intros H1 H2 Hne F Hm. unfold str_split. cbn [nchars ustr].
  assert (Hpn : 0 < zlen ps) by (destruct ps; [congruence|rewrite zlen_cons; pose proof (zlen_nn ps); lia]).
  destruct (zlen ps =? 0) eqn:E; [lia|]. pose proof (zlen_nn cs). destruct (zlen cs =? 0) eqn:E2.
  - assert (cs = []) by (destruct cs; [reflexivity|rewrite zlen_cons in *; pose proof (zlen_nn cs); lia]). subst cs.
    exists [[]]. split; [apply splits_none, absent_nil; assumption|reflexivity].
  - fold (ustr cs) (ustr ps). assert (Hmx : 0 < max_splits m).
    { unfold max_splits. destruct m as [m|]; [|lia]. destruct (m <? 0) eqn:E3; [lia|]. assert (m <> 0) by congruence. lia. }
    destruct (split_loop_ok ps H2 Hne (S (Z.to_nat (zlen cs))) cs [] None (max_splits m)) as (l & Hl & ->).
    + assumption.
    + assumption.
    + unfold zlen. lia.
    + rewrite zlen_nil. lia.
    + rewrite zlen_nil. intros [->|?]; [rewrite zlen_nil in *; lia|lia].
    + exists l. split; [|reflexivity]. rewrite zlen_nil, Z.sub_0_r in Hl. unfold limit, max_splits in *.
      assert (HL : (length cs <= Z.to_nat 2147483647)%nat).
      { pose proof (zlen_concat cs H1). unfold fits in F. change (2 ^ 31) with 2147483648 in F. unfold zlen in *. lia. }
      destruct m as [m|]; [destruct (m <? 0)|]; try assumption; eapply splits_all; eassumption.
Qed.

(** ** Join. *)
Lemma fold_nchars l : forall a, fold_left (fun a x => a + nchars x) (map ustr l) a = a + fold_right (fun x a => zlen x + a) 0 l.
Proof. induction l as [|x l IH]; intros a; cbn [map fold_left fold_right]; [lia|]. rewrite IH. cbn [nchars ustr]. lia. Qed.
Lemma joined_len {A} (P : list A) l : l <> [] -> zlen (joined P l) = fold_right (fun x a => zlen x + a) 0 l + (zlen l - 1) * zlen P.
Proof.
  induction l as [|x l IH]; [congruence|]. intros _. destruct l as [|y l].
  - cbn [joined fold_right]. rewrite zlen_cons, zlen_nil. lia.
  - cbn [joined]. rewrite !zlen_app. cbn [joined] in IH. rewrite IH by discriminate. rewrite !zlen_cons. cbn [fold_right]. lia.
Qed.
Lemma join_bytes_ok ps l : forall x, sbytes (ustr x) ++ join_bytes (sbytes (ustr ps)) (map ustr l) = concat (joined ps (x :: l)).
Proof.
  induction l as [|y l IH]; intros x; cbn [map join_bytes].
  - cbn [joined]. rewrite app_nil_r. reflexivity.
  - change (joined ps (x :: y :: l)) with (x ++ ps ++ joined ps (y :: l)). rewrite IH, concat_app3. reflexivity.
Qed.
Lemma text_joined ps l : text ps -> Forall text l -> text (joined ps l).
Proof.
  intros Hp H. induction H as [|x l Hx H IH]; [constructor|]. destruct l as [|y l]; [assumption|].
  change (text (x ++ ps ++ joined ps (y :: l))). apply text_app. split; [assumption|]. apply text_app. auto.
Qed.
Lemma join_ok ps l : text ps -> Forall text l -> fits (joined ps l) -> str_join (ustr ps) (map ustr l) = Ok (ustr (joined ps l)).
Proof.
  intros Hp Hl F. unfold str_join. rewrite fold_nchars. destruct l as [|x l]; [reflexivity|].
  rewrite <- (new_ok (joined ps (x :: l)) (zlen (joined ps (x :: l)))); [|apply text_joined; assumption|exact F|reflexivity].
  cbn [map]. rewrite join_bytes_ok. f_equal. rewrite joined_len by discriminate.
  change (zlen (ustr x :: map ustr l)) with (zlen (map ustr (x :: l))).
  replace (zlen (map ustr (x :: l))) with (zlen (x :: l)) by (unfold zlen; rewrite map_length; reflexivity).
  cbn [nchars ustr]. destruct (1 <? zlen (x :: l)) eqn:E; [lia|].
  rewrite zlen_cons in *. pose proof (zlen_nn l). replace (1 + zlen l - 1) with 0 by lia. lia.
Qed.

(** ** Replace. *)
Lemma splits_limit {A} (P : list A) X l : splits P None X l -> forall k, Z.of_nat k <= zlen l - 1 ->
  splits P (Some k) X (firstn k l ++ [joined P (skipn k l)]).
Proof.
  intros H. remember None as o eqn:Eo. induction H as [X|o X Ha|o X a b l Ho E Hf H IH]; intros k Hk; [discriminate| |].
  - rewrite zlen_cons, zlen_nil in Hk. assert (k = O) by lia. subst k. cbn. apply splits_stop.
  - subst o. destruct k as [|k].
    + cbn [firstn skipn app].
      replace (joined P (a :: l)) with X; [apply splits_stop|]. symmetry.
      destruct (splits_joined P None X (a :: l)) as [J _]; [|exact J]. eapply splits_cons; eauto.
    + cbn [firstn skipn app]. rewrite zlen_cons in Hk. eapply splits_cons; [discriminate|exact E|assumption|].
      cbn [option_map pred]. apply IH; [reflexivity|lia].
Qed.
Lemma splits_more {A} (P : list A) X l : splits P None X l -> forall k, zlen l - 1 <= Z.of_nat k -> splits P (Some k) X l.
Proof.
  intros H. remember None as o eqn:Eo. induction H as [X|o X Ha|o X a b l Ho E Hf H IH]; intros k Hk; [discriminate| |].
  - apply splits_none. assumption.
  - subst o. rewrite zlen_cons in Hk. destruct (splits_joined _ _ _ _ H) as [_ Hn].
    assert (1 <= zlen l) by (destruct l; [congruence|rewrite zlen_cons; pose proof (zlen_nn l0); lia]).
    destruct k as [|k]; [lia|]. eapply splits_cons; [discriminate|exact E|assumption|]. apply IH; [reflexivity|lia].
Qed.
Lemma splits_bound {A} (P : list A) X l k : P <> [] -> splits P k X l -> zlen l - 1 <= zlen X.
Proof.
  intros Hne H. induction H as [X|o X Ha|o X a b l Ho E Hf H IH]; rewrite ?zlen_cons, ?zlen_nil; [pose proof (zlen_nn X); lia..|].
  subst X. rewrite !zlen_app. pose proof (zlen_nn a). destruct P as [|c P]; [congruence|]. rewrite zlen_cons. pose proof (zlen_nn P). lia.
Qed.

Lemma replace_loop_ok ps ns (Hps : text ps) (Hne : ps <> []) : forall k first W A R out l, text W -> splits ps None W l -> Z.of_nat k <= zlen l - 1 ->
  exists A', A ++ concat W ++ R = A' ++ concat (joined ps (skipn k l)) ++ R /\
    replace_loop k first (A ++ concat W ++ R) (zlen A) (zlen (concat W)) (ustr ps) (ustr ns) out
    = Ok (zlen A', zlen (concat (joined ps (skipn k l))), out ++ concat (concat (map (fun x => x ++ ns) (firstn k l)))).
Proof.
  assert (Hpl : 0 < zlen (concat ps)).
  { pose proof (zlen_concat ps Hps). destruct ps; [congruence|]. rewrite zlen_cons in H. pose proof (zlen_nn ps). lia. }
  induction k as [|k IH]; intros first W A R out l HW Hl Hk.
  - exists A. cbn [skipn firstn map concat replace_loop]. destruct (splits_joined _ _ _ _ Hl) as [-> _].
    rewrite app_nil_r. auto.
  - inversion Hl as [|o X Ha|o X a b l' Ho E Hf Hl']; subst.
    + rewrite zlen_cons, zlen_nil in Hk. lia.
    + cbn [option_map] in Hl'. rewrite zlen_cons in Hk. cbn [replace_loop].
      change (nbytes (ustr ps)) with (zlen (concat ps)). destruct (zlen (concat ps) =? 0) eqn:E0; [lia|].
      rewrite andb_false_r.
      assert (HT : text a /\ text b) by (apply text_app in HW; destruct HW as [? HW]; apply text_app in HW; tauto).
      destruct (bmh_chars A (a ++ ps ++ b) R ps (zlen A) HW Hps eq_refl) as (n & Hb & Hn).
      change (nbytes (ustr ps)) with (zlen (concat ps)) in Hb. rewrite Hb. cbn [bindr].
      destruct Hn as [[_ Hn]|(a' & b' & E & Ho' & ->)]; [destruct (Hn _ (proj1 Hf))|].
      destruct (occurs_split ps a b a' b' E (first_unique _ _ _ _ Hf Ho')) as [<- <-].
      assert (Hpre : (if 0 <? zlen (concat a) then copy (A ++ concat (a ++ ps ++ b) ++ R) (zlen A) (zlen (concat a)) else Ok []) = Ok (concat a)).
      { pose proof (zlen_nn (concat a)). destruct (0 <? zlen (concat a)) eqn:E1.
        - rewrite concat_app3, <- !app_assoc. apply copy_mid. reflexivity.
        - destruct (concat a); [reflexivity|]. rewrite zlen_cons in *. pose proof (zlen_nn l). lia. }
      rewrite Hpre. cbn [bindr].
      assert (Hp1 : (if 0 <? zlen (concat a) then zlen A + zlen (concat a) else zlen A) = zlen A + zlen (concat a)).
      { pose proof (zlen_nn (concat a)). destruct (0 <? zlen (concat a)) eqn:E1; lia. }
      rewrite Hp1.
      destruct (IH false b (A ++ concat a ++ concat ps) R (out ++ concat a ++ concat ns) l' ltac:(tauto) Hl' ltac:(lia)) as (A' & EA & HL).
      exists A'. cbn [skipn firstn map concat]. split.
      * rewrite <- EA, concat_app3, <- !app_assoc. reflexivity.
      * replace (A ++ concat (a ++ ps ++ b) ++ R) with ((A ++ concat a ++ concat ps) ++ concat b ++ R) by (rewrite concat_app3, <- !app_assoc; reflexivity).
        replace (zlen A + zlen (concat a) + zlen (concat ps)) with (zlen (A ++ concat a ++ concat ps)) by (rewrite !zlen_app; lia).
        replace (zlen (concat (a ++ ps ++ b)) - (zlen (concat a) + zlen (concat ps))) with (zlen (concat b)) by (rewrite concat_app3, !zlen_app; lia).
        change (sbytes (ustr ns)) with (concat ns). rewrite HL.
        f_equal. f_equal. rewrite !concat_app, <- !app_assoc. reflexivity.
Qed.

Lemma joined_split {A} (ns : list A) k l r : k = length l ->
  concat (map (fun x => x ++ ns) l) ++ r = joined ns (l ++ [r]).
Proof.
  intros _. induction l as [|x l IH]; [reflexivity|]. cbn [map concat app]. rewrite <- !app_assoc, IH.
  destruct (l ++ [r]) as [|y l'] eqn:E; [destruct l; discriminate|]. reflexivity.
Qed.

Lemma replace_ok cs ps ns cnt : text cs -> text ps -> text ns -> ps <> [] -> fits cs ->
  (match cnt with None => True | Some c => 0 <= c end) ->
  (forall l, splits ps (limit cnt) cs l -> fits (joined ns l)) ->
  exists l, splits ps (limit cnt) cs l /\ str_replace (ustr cs) (ustr ps) (ustr ns) cnt = Ok (ustr (joined ns l)).
Proof.
  intros H1 H2 H3 Hne F Hc HF. unfold str_replace.
  destruct (count_ok cs ps None None H1 H2 Hne I I) as (l & Hl & ->). cbn [bindr].
  unfold py_start, py_end, py_from in Hl. rewrite Z.min_id, window_all in Hl. pose proof (zlen_nn cs).
  destruct (zlen cs <? 0) eqn:E0; [lia|]. clear E0.
  pose proof (splits_bound _ _ _ _ Hne Hl) as Hbd. pose proof (zlen_concat cs H1) as Hcc. unfold fits in F. change (2 ^ 31) with 2147483648 in F.
  destruct (splits_joined _ _ _ _ Hl) as [_ Hn0].
  assert (Hl1 : 1 <= zlen l) by (destruct l; [congruence|rewrite zlen_cons; pose proof (zlen_nn l0); lia]).
  set (c0 := if _ <? _ then _ else _).
  set (k := Z.to_nat c0).
  assert (Hk : exists L, splits ps (limit cnt) cs L /\ 0 <= c0 <= zlen l - 1 /\ L = firstn k l ++ [joined ps (skipn k l)]).
  { unfold k, c0 in *. clear k c0. destruct cnt as [c|].
    - unfold limit. destruct (c <? 0) eqn:E; [lia|]. destruct (c <? zlen l - 1) eqn:E2.
      + exists (firstn (Z.to_nat c) l ++ [joined ps (skipn (Z.to_nat c) l)]). rewrite wrap32 by (unfold is_int; lia).
        split; [apply splits_limit; [assumption|lia]|]. split; [lia|reflexivity].
      + exists (firstn (Z.to_nat (zlen l - 1)) l ++ [joined ps (skipn (Z.to_nat (zlen l - 1)) l)]). split; [|split; [lia|reflexivity]].
        replace (firstn (Z.to_nat (zlen l - 1)) l ++ [joined ps (skipn (Z.to_nat (zlen l - 1)) l)]) with l; [apply splits_more; [assumption|lia]|].
        destruct (exists_last Hn0) as (l' & x & ->). unfold zlen. rewrite app_length. cbn [length].
        replace (Z.to_nat (Z.of_nat (length l' + 1) - 1)) with (length l' + 0)%nat by lia.
        rewrite firstn_app_2, Nat.add_0_r, skipn_app, skipn_all, Nat.sub_diag. cbn. rewrite app_nil_r. reflexivity.
    - destruct (2147483647 <? zlen l - 1) eqn:E2; [lia|].
      exists (firstn (Z.to_nat (zlen l - 1)) l ++ [joined ps (skipn (Z.to_nat (zlen l - 1)) l)]). split; [|split; [lia|reflexivity]].
      replace (firstn (Z.to_nat (zlen l - 1)) l ++ [joined ps (skipn (Z.to_nat (zlen l - 1)) l)]) with l; [assumption|].
      destruct (exists_last Hn0) as (l' & x & ->). unfold zlen. rewrite app_length. cbn [length].
      replace (Z.to_nat (Z.of_nat (length l' + 1) - 1)) with (length l' + 0)%nat by lia.
      rewrite firstn_app_2, Nat.add_0_r, skipn_app, skipn_all, Nat.sub_diag. cbn. rewrite app_nil_r. reflexivity. }
  destruct Hk as (L & HL & Hc0 & EL). exists L. split; [assumption|].
  destruct (splits_joined _ _ _ _ HL) as [HJ HLn].
  assert (HLl : zlen L = c0 + 1).
  { rewrite EL, zlen_app, zlen_cons, zlen_nil. unfold zlen in *. rewrite firstn_length. unfold k. lia. }
  destruct (c0 =? 0) eqn:E0.
  - f_equal. f_equal. rewrite <- HJ. destruct L as [|x [|y L]]; [congruence|reflexivity|]. rewrite !zlen_cons in HLl. pose proof (zlen_nn L). lia.
  - destruct (replace_loop_ok ps ns H2 Hne k true cs [] [0] [] l H1 Hl ltac:(lia)) as (A' & EA & HR).
    cbn [app] in HR. change (zlen (@nil Z)) with 0 in HR. rewrite <- buf_ustr in HR.
    change (nbytes (ustr cs)) with (zlen (concat cs)). rewrite HR. cbn [bindr].
    set (rest := joined ps (skipn k l)) in *.
    assert (Hrest : (if 0 <? zlen (concat rest) then copy (buf (ustr cs)) (zlen A') (zlen (concat rest)) else Ok []) = Ok (concat rest)).
    { pose proof (zlen_nn (concat rest)). destruct (0 <? zlen (concat rest)) eqn:E1.
      - rewrite buf_ustr. cbn [app] in EA. rewrite EA. apply copy_mid. reflexivity.
      - destruct (concat rest); [reflexivity|]. rewrite zlen_cons in *. pose proof (zlen_nn l0). lia. }
    rewrite Hrest. cbn [bindr].
    assert (EJ : concat (concat (map (fun x => x ++ ns) (firstn k l))) ++ concat rest = concat (joined ns L)).
    { rewrite EL, <- (joined_split ns _ (firstn k l) rest eq_refl), concat_app. reflexivity. }
    rewrite EJ.
    assert (HJb : forall Q : list char, zlen (concat (joined Q L)) = fold_right (fun x a => zlen (concat x) + a) 0 L + (zlen L - 1) * zlen (concat Q)).
    { intros Q. clear - HLn. induction L as [|x L IH]; [congruence|]. destruct L as [|y L].
      - cbn [joined fold_right]. rewrite zlen_cons, zlen_nil. lia.
      - change (joined Q (x :: y :: L)) with (x ++ Q ++ joined Q (y :: L)). rewrite concat_app3, !zlen_app, IH by discriminate.
        rewrite !zlen_cons. cbn [fold_right]. lia. }
    pose proof (HJb ps) as Jp. pose proof (HJb ns) as Jn. rewrite HJ in Jp.
    pose proof (joined_len ps L HLn) as Kp. pose proof (joined_len ns L HLn) as Kn. rewrite HJ in Kp.
    change (nbytes (ustr ns)) with (zlen (concat ns)). change (nbytes (ustr ps)) with (zlen (concat ps)). cbn [nchars ustr].
    destruct (zlen (concat (joined ns L)) =? zlen (concat cs) + c0 * (zlen (concat ns) - zlen (concat ps))) eqn:E2; [|nia].
    apply new_ok; [apply text_joined; [assumption|eapply splits_text; eassumption]|apply HF; assumption|nia].
Qed.

(** bytes: searching, splitting, joining, replacing. *)
From Verif Require Import Base M_Slice S_Slice M_Str S_Str M_Bytes S_Bytes P_Base P_Bmh P_Str P_Str2.
From Coq Require Import ZifyBool ZifyNat.

Section Find.
  Variable f : list Z -> Z -> list Z -> Z -> Z -> res Z.
  Variable occ : list Z -> list Z -> Z -> Prop.
  Hypothesis f_ok : forall A X B P Q, exists n, f (A ++ X ++ B) (zlen A) (P ++ Q) (zlen X) (zlen P) = Ok n /\ ((n = -1 /\ absent X P) \/ occ X P n).
  Hypothesis f_neg : forall t p pt tb pb, tb < 0 -> 0 <= pb -> f t p pt tb pb = Ok (-1).
  Hypothesis occ_occurs : forall X P n, occ X P n -> occurs X P n.
  Lemma find_gen s p st en : pos_bound st -> pos_bound en ->
    exists r, match fix_start_end (zlen s) st en with
              | None => Ok (-1)
              | Some (st, en) => do n <- f (bbuf s) st (bbuf p) (en - st) (zlen p); if n <? 0 then Ok (-1) else Ok (n + st)
              end = Ok r /\ bfind_spec occ s p st en r.
  Proof.
    intros Hs He. pose proof (zlen_nn s) as Hn. rewrite fix_ok by assumption.
    pose proof (py_start_nn _ st Hn Hs). pose proof (py_end_nn _ en Hn He). unfold bfind_spec.
    set (a := py_start (zlen s) st) in *. set (b := py_end (zlen s) en) in *. cbv zeta.
    destruct (zlen s <? a) eqn:E; [exists (-1); split; [reflexivity|right; split; [reflexivity|left; lia]]|].
    destruct (Z_lt_ge_dec b a) as [Hlt|Hge].
    - rewrite f_neg by (try lia; apply zlen_nn). exists (-1). split; [reflexivity|]. right. auto.
    - destruct (window_cut s a b ltac:(lia) ltac:(lia)) as (A & B & EW & HA & HW). set (W := window s a b) in *.
      destruct (f_ok A W (B ++ [0]) p [0]) as (n & Hb & Hr). unfold bbuf. rewrite EW, <- !app_assoc, <- HA. rewrite HW in Hb.
      rewrite <- HA in Hb. rewrite Hb. cbn [bindr].
      destruct Hr as [[-> Hr]|Hr]; [exists (-1); split; [reflexivity|right; auto]|].
      pose proof (occ_nn _ _ _ (occ_occurs _ _ _ Hr)). destruct (n <? 0) eqn:E2; [lia|].
      exists (n + zlen A). split; [reflexivity|]. left. split; [lia|]. exists n. split; [assumption|lia].
  Qed.
End Find.

Lemma bfind_ok s p st en : pos_bound st -> pos_bound en ->
  exists r, bytes_find s p st en = Ok r /\ bfind_spec first_occ s p st en r.
Proof. intros. unfold bytes_find. apply find_gen; try assumption; [exact bmh_ok|exact bmh_neg|intros ? ? ? H1; apply H1]. Qed.
Lemma brfind_ok s p st en : pos_bound st -> pos_bound en ->
  exists r, bytes_rfind s p st en = Ok r /\ bfind_spec last_occ s p st en r.
Proof. intros. unfold bytes_rfind. apply find_gen; try assumption; [exact rbmh_ok|exact rbmh_neg|intros ? ? ? H1; apply H1]. Qed.

(** ** Counting. *)
Lemma bmh_at A W R p q : q = zlen A ->
  exists n, bmh (A ++ W ++ R) q (bbuf p) (zlen W) (zlen p) = Ok n /\
    ((n = -1 /\ absent W p) \/ exists a b, W = a ++ p ++ b /\ first_occ W p (zlen a) /\ n = zlen a).
Proof.
  intros ->. destruct (bmh_ok A W R p [0]) as (n & Hb & Hr). exists n. split; [exact Hb|].
  destruct Hr as [[-> Hr]|Hr]; [auto|right]. destruct Hr as [(a & b & E & <-) Hf]. exists a, b. split; [exact E|]. split; [|reflexivity].
  split; [exists a, b; auto|assumption].
Qed.
Lemma rbmh_at A W R p q : q = zlen A ->
  exists n, rbmh (A ++ W ++ R) q (bbuf p) (zlen W) (zlen p) = Ok n /\
    ((n = -1 /\ absent W p) \/ exists a b, W = a ++ p ++ b /\ last_occ W p (zlen a) /\ n = zlen a).
Proof.
  intros ->. destruct (rbmh_ok A W R p [0]) as (n & Hb & Hr). exists n. split; [exact Hb|].
  destruct Hr as [[-> Hr]|Hr]; [auto|right]. destruct Hr as [(a & b & E & <-) Hf]. exists a, b. split; [exact E|]. split; [|reflexivity].
  split; [exists a, b; auto|assumption].
Qed.
Lemma ne_len {A} (l : list A) : l <> [] -> 1 <= zlen l.
Proof. destruct l; [congruence|]. rewrite zlen_cons. pose proof (zlen_nn l). lia. Qed.
Lemma len0 {A} (l : list A) : zlen l = 0 -> l = [].
Proof. destruct l; [reflexivity|]. rewrite zlen_cons. pose proof (zlen_nn l). lia. Qed.

Lemma bcount_loop_ok p (Hne : p <> []) fuel : forall W A R r, zlen W < Z.of_nat fuel ->
  exists l, splits p None W l /\ bcount_loop fuel (A ++ W ++ R) (zlen A) (zlen A + zlen W) p r = Ok (r + (zlen l - 1)).
Proof.
  induction fuel as [|fuel IH]; intros W A R r Hf; [pose proof (zlen_nn W); lia|]. cbn [bcount_loop].
  replace (zlen A + zlen W - zlen A) with (zlen W) by lia.
  destruct (bmh_at A W R p _ eq_refl) as (n & -> & Hr). cbn [bindr].
  destruct Hr as [[-> Hr]|(a & b & E & Ho & ->)].
  - cbn [Z.leb Z.compare]. exists [W]. split; [apply splits_none; assumption|]. rewrite zlen_cons, zlen_nil. f_equal. lia.
  - pose proof (zlen_nn a). destruct (0 <=? zlen a) eqn:E0; [|lia]. pose proof (ne_len p Hne). destruct (0 <? zlen p) eqn:E1; [|lia].
    assert (EW : zlen W = zlen a + (zlen p + zlen b)) by (rewrite E, !zlen_app; reflexivity).
    destruct (IH b (A ++ a ++ p) R (r + 1) ltac:(lia)) as (l & Hl & Hc).
    exists (a :: l). split; [eapply splits_cons; [discriminate|exact E|assumption|exact Hl]|].
    rewrite !zlen_app in Hc. rewrite zlen_cons.
    replace (A ++ W ++ R) with ((A ++ a ++ p) ++ b ++ R) by (rewrite E, <- !app_assoc; reflexivity).
    replace (zlen A + zlen W) with (zlen A + (zlen a + zlen p) + zlen b) by lia.
    rewrite Hc. f_equal. lia.
Qed.
Lemma bcount_ok s p st en : p <> [] -> pos_bound st -> pos_bound en ->
  let a := py_start (zlen s) st in let b := py_end (zlen s) en in
  exists l, (if b <? a then l = [[]] else splits p None (window s a b) l) /\ bytes_count s p st en = Ok (zlen l - 1).
Proof.
  intros Hne Hs He a b. unfold bytes_count. pose proof (zlen_nn s) as Hn.
  rewrite fix_ok by assumption. pose proof (py_start_nn _ st Hn Hs). pose proof (py_end_nn _ en Hn He). fold a b in H, H0 |- *.
  destruct (zlen s <? a) eqn:E.
  { exists [[]]. destruct (b <? a) eqn:E2; [|lia]. split; reflexivity. }
  destruct (b <? a) eqn:E2.
  - exists [[]]. split; [reflexivity|]. cbn [bcount_loop]. rewrite bmh_neg; [reflexivity|lia|apply zlen_nn].
  - destruct (window_cut s a b ltac:(lia) ltac:(lia)) as (A & B & EW & HA & HW).
    destruct (bcount_loop_ok p Hne (S (S (Z.to_nat (b - a)))) (window s a b) A (B ++ [0]) 0 ltac:(lia)) as (l & Hl & Hc).
    exists l. split; [assumption|].
    assert (Eb : bbuf s = A ++ window s a b ++ B ++ [0]) by (unfold bbuf; rewrite EW at 1; rewrite <- !app_assoc; reflexivity).
    rewrite Eb. replace (zlen A + zlen (window s a b)) with b in Hc by lia. rewrite HA in Hc. rewrite Hc. reflexivity.
Qed.
Lemma bcount_loop_empty fuel : forall b p q r, 0 <= q - p + 1 < Z.of_nat fuel ->
  bcount_loop fuel b p q [] r = Ok (r + (q - p + 1)).
Proof.
  induction fuel as [|fuel IH]; intros b p q r Hf; [lia|]. cbn [bcount_loop]. change (zlen (@nil Z)) with 0. change (bbuf []) with [0].
  destruct (Z_lt_ge_dec (q - p) 0) as [Hlt|Hge].
  - rewrite bmh_neg by lia. cbn. f_equal. lia.
  - unfold bmh. destruct (q - p <? 0) eqn:E; [lia|]. replace (Z.to_nat (0 - 1)) with O by lia. cbn [fill_skip bindr bmh_loop].
    change (0 - 1) with (-1). destruct (-1 <? q - p) eqn:E2; [|lia]. cbn [Z.to_nat cmp_back bindr Z.eqb Pos.eqb].
    change (-1 + 1) with 0. cbn [Z.leb Z.compare Z.ltb]. rewrite IH by lia. f_equal. lia.
Qed.
(** There is one more empty piece than bytes in the window. *)
Lemma bcount_empty s st en : pos_bound st -> pos_bound en ->
  let a := py_start (zlen s) st in let b := py_end (zlen s) en in
  bytes_count s [] st en = Ok (if b <? a then 0 else b - a + 1).
Proof.
  intros Hs He a b. unfold bytes_count. pose proof (zlen_nn s) as Hn.
  rewrite fix_ok by assumption. pose proof (py_start_nn _ st Hn Hs). pose proof (py_end_nn _ en Hn He). fold a b in H, H0 |- *.
  destruct (zlen s <? a) eqn:E; [destruct (b <? a) eqn:E2; [reflexivity|lia]|].
  destruct (b <? a) eqn:E2.
  - cbn [bcount_loop]. rewrite bmh_neg by (try lia; apply zlen_nn). reflexivity.
  - rewrite bcount_loop_empty by lia. reflexivity.
Qed.

(** ** Partition. *)
Lemma bfind_all s p : exists r, bytes_find s p None None = Ok r /\ ((r = -1 /\ absent s p) \/ first_occ s p r).
Proof.
  destruct (bfind_ok s p None None I I) as (r & Hf & Hs). exists r. split; [assumption|].
  unfold bfind_spec, py_start, py_end, py_from in Hs. rewrite Z.min_id, window_all in Hs. pose proof (zlen_nn s).
  destruct Hs as [[_ (m & Hm & ->)]|[-> [?|Ha]]]; [right; assumption|lia|left; auto].
Qed.
Lemma brfind_all s p : exists r, bytes_rfind s p None None = Ok r /\ ((r = -1 /\ absent s p) \/ last_occ s p r).
Proof.
  destruct (brfind_ok s p None None I I) as (r & Hf & Hs). exists r. split; [assumption|].
  unfold bfind_spec, py_start, py_end, py_from in Hs. rewrite Z.min_id, window_all in Hs. pose proof (zlen_nn s).
  destruct Hs as [[_ (m & Hm & ->)]|[-> [?|Ha]]]; [right; assumption|lia|left; auto].
Qed.
Lemma cut3 A p B : forall s, s = A ++ p ++ B ->
  copy (bbuf s) 0 (zlen A) = Ok A /\ copy (bbuf s) (zlen A + zlen p) (zlen s - zlen p - zlen A) = Ok B.
Proof.
  intros s ->. unfold bbuf. rewrite <- !app_assoc. split.
  - apply (copy_mid' [] A (p ++ B ++ [0])); reflexivity.
  - rewrite (app_assoc A p). apply copy_mid'; rewrite !zlen_app; lia.
Qed.
Lemma bpartition_ok s p :
  (absent s p /\ bytes_partition s p = Ok (s, [], [])) \/
  exists A B, s = A ++ p ++ B /\ first_occ s p (zlen A) /\ bytes_partition s p = Ok (A, p, B).
Proof.
  unfold bytes_partition. destruct (bfind_all s p) as (r & -> & Hr). cbn [bindr].
  destruct Hr as [[-> Ha]|Hf]; [left; split; [assumption|reflexivity]|right].
  pose proof (occ_nn _ _ _ (proj1 Hf)). destruct (r <? 0) eqn:E; [lia|].
  destruct (bmh_at [] s [0] p 0 eq_refl) as (n & Hb & Hn). cbn [app] in Hb. fold (bbuf s) in Hb. rewrite Hb. cbn [bindr].
  destruct Hn as [[_ Hn]|(A & B & Ec & Ho & ->)]; [destruct (Hn _ (proj1 Hf))|].
  exists A, B. split; [assumption|]. split; [assumption|]. destruct (cut3 A p B s Ec) as [-> ->]. reflexivity.
Qed.
Lemma brpartition_ok s p :
  (absent s p /\ bytes_rpartition s p = Ok ([], [], s)) \/
  exists A B, s = A ++ p ++ B /\ last_occ s p (zlen A) /\ bytes_rpartition s p = Ok (A, p, B).
Proof.
  unfold bytes_rpartition. destruct (brfind_all s p) as (r & -> & Hr). cbn [bindr].
  destruct Hr as [[-> Ha]|Hf]; [left; split; [assumption|reflexivity]|right].
  pose proof (occ_nn _ _ _ (proj1 Hf)). destruct (r <? 0) eqn:E; [lia|].
  destruct (rbmh_at [] s [0] p 0 eq_refl) as (n & Hb & Hn). cbn [app] in Hb. fold (bbuf s) in Hb. rewrite Hb. cbn [bindr].
  destruct Hn as [[_ Hn]|(A & B & Ec & Ho & ->)]; [destruct (Hn _ (proj1 Hf))|].
  exists A, B. split; [assumption|]. split; [assumption|]. destruct (cut3 A p B s Ec) as [-> ->]. reflexivity.
Qed.

(** ** Split. *)
Lemma bsplit_loop_ok p (Hne : p <> []) fuel : forall X acc ssep maxs, (length X < fuel)%nat ->
  zlen acc <= maxs -> (X = [] \/ zlen acc = maxs -> ssep = Some p) ->
  exists l, splits p (Some (Z.to_nat (maxs - zlen acc))) X l /\ bsplit_loop fuel X p ssep acc maxs = Ok (acc ++ l).
Proof.
  pose proof (ne_len p Hne) as Hpn.
  induction fuel as [|fuel IH]; intros X acc ssep maxs Hf Hm Hs; [lia|].
  cbn [bsplit_loop]. pose proof (zlen_nn X).
  destruct ((0 <? zlen X) && (zlen acc <? maxs)) eqn:E.
  - destruct (bpartition_ok X p) as [[Ha ->]|(A & B & EX & Ho & ->)]; cbn [bindr].
    + exists [X]. split; [apply splits_none; assumption|]. destruct fuel; reflexivity.
    + destruct (IH B (acc ++ [A]) (Some p) maxs) as (l & Hl & ->).
      * rewrite EX, !app_length in Hf. destruct p; [congruence|]. cbn in Hf. lia.
      * rewrite zlen_app, zlen_cons, zlen_nil. lia.
      * reflexivity.
      * exists (A :: l). split; [|rewrite <- app_assoc; reflexivity].
        eapply splits_cons; [|exact EX|assumption|].
        -- intros [= EE]. lia.
        -- cbn [option_map]. rewrite zlen_app, zlen_cons, zlen_nil in Hl.
           replace (pred (Z.to_nat (maxs - zlen acc))) with (Z.to_nat (maxs - (zlen acc + (1 + 0)))) by lia. exact Hl.
  - assert (Hc : X = [] \/ zlen acc = maxs) by (destruct X as [|c X]; [left; reflexivity|right; rewrite zlen_cons in E; pose proof (zlen_nn X); lia]).
    rewrite (Hs Hc). destruct (0 <? zlen p) eqn:E2; [|lia]. exists [X]. split; [|reflexivity]. destruct Hc as [->|Hc].
    + apply splits_none, absent_nil. assumption.
    + replace (Z.to_nat (maxs - zlen acc)) with O by lia. apply splits_stop.
Qed.
Lemma bsplit_ok s p m : p <> [] -> bfits s -> m <> Some 0 ->
  exists l, splits p (limit m) s l /\ bytes_split s p m = Ok l.
Proof.
  intros Hne F Hm. unfold bytes_split. pose proof (ne_len p Hne). destruct (zlen p =? 0) eqn:E; [lia|]. pose proof (zlen_nn s).
  destruct (zlen s =? 0) eqn:E2.
  - rewrite (len0 s) by lia. exists [[]]. split; [apply splits_none, absent_nil; assumption|reflexivity].
  - assert (Hmx : 0 < max_splits m).
    { unfold max_splits. destruct m as [m|]; [|lia]. destruct (m <? 0) eqn:E3; [lia|]. assert (m <> 0) by congruence. lia. }
    destruct (bsplit_loop_ok p Hne (S (Z.to_nat (zlen s))) s [] None (max_splits m)) as (l & Hl & ->).
    + unfold zlen. lia.
    + rewrite zlen_nil. lia.
    + rewrite zlen_nil. intros [->|?]; [rewrite zlen_nil in *; lia|lia].
    + exists l. split; [|reflexivity]. rewrite zlen_nil, Z.sub_0_r in Hl. unfold limit, max_splits in *.
      assert (HL : (length s <= Z.to_nat 2147483647)%nat) by (unfold bfits in F; change (2 ^ 31) with 2147483648 in F; unfold zlen in *; lia).
      destruct m as [m|]; [destruct (m <? 0)|]; try assumption; eapply splits_all; eassumption.
Qed.

(** ** Join. *)
Lemma bjoin_ok p l : bfits (joined p l) -> bytes_join p l = Ok (joined p l).
Proof.
  intros F. unfold bytes_join.
  assert (E : match l with [] => [] | x :: l => x ++ bjoin_rest p l end = joined p l).
  { destruct l as [|x l]; [reflexivity|]. revert x F. induction l as [|y l IH]; intros x F; [cbn; apply app_nil_r|].
    cbn [bjoin_rest]. change (joined p (x :: y :: l)) with (x ++ p ++ joined p (y :: l)). rewrite IH; [reflexivity|].
    change (joined p (x :: y :: l)) with (x ++ p ++ joined p (y :: l)) in F. unfold bfits in *. rewrite !zlen_app in F.
    pose proof (zlen_nn x). pose proof (zlen_nn p). lia. }
  rewrite E. unfold new_bytes. unfold bfits in F. destruct (_ <? _) eqn:E2; [reflexivity|lia].
Qed.

(** ** Replace. *)
Lemma breplace_loop_ok p ns (Hne : p <> []) : forall k first W A R out l, splits p None W l -> Z.of_nat k <= zlen l - 1 ->
  exists A', A ++ W ++ R = A' ++ joined p (skipn k l) ++ R /\
    breplace_loop k first (A ++ W ++ R) (zlen A) (zlen W) p ns out
    = Ok (zlen A', zlen (joined p (skipn k l)), out ++ concat (map (fun x => x ++ ns) (firstn k l))).
Proof.
  pose proof (ne_len p Hne) as Hpl.
  induction k as [|k IH]; intros first W A R out l Hl Hk.
  - exists A. cbn [skipn firstn map concat breplace_loop]. destruct (splits_joined _ _ _ _ Hl) as [-> _]. rewrite app_nil_r. auto.
  - inversion Hl as [|o X Ha|o X a b l' Ho E Hf Hl']; subst.
    + rewrite zlen_cons, zlen_nil in Hk. lia.
    + cbn [option_map] in Hl'. rewrite zlen_cons in Hk. cbn [breplace_loop]. destruct (zlen p =? 0) eqn:E0; [lia|]. rewrite andb_false_r.
      destruct (bmh_at A (a ++ p ++ b) R p (zlen A) eq_refl) as (n & Hb & Hn). rewrite Hb. cbn [bindr].
      destruct Hn as [[_ Hn]|(a' & b' & E & Ho' & ->)]; [destruct (Hn _ (proj1 Hf))|].
      destruct (occurs_split p a b a' b' E (first_unique _ _ _ _ Hf Ho')) as [<- <-].
      assert (Hpre : (if 0 <? zlen a then copy (A ++ (a ++ p ++ b) ++ R) (zlen A) (zlen a) else Ok []) = Ok a).
      { pose proof (zlen_nn a). destruct (0 <? zlen a) eqn:E1; [rewrite <- !app_assoc; apply copy_mid; reflexivity|rewrite (len0 a) by lia; reflexivity]. }
      rewrite Hpre. cbn [bindr].
      assert (Hp1 : (if 0 <? zlen a then zlen A + zlen a else zlen A) = zlen A + zlen a) by (pose proof (zlen_nn a); destruct (0 <? zlen a) eqn:E1; lia).
      rewrite Hp1. destruct (IH false b (A ++ a ++ p) R (out ++ a ++ ns) l' Hl' ltac:(lia)) as (A' & EA & HL).
      exists A'. cbn [skipn firstn map concat]. split.
      * rewrite <- EA, <- !app_assoc. reflexivity.
      * replace (A ++ (a ++ p ++ b) ++ R) with ((A ++ a ++ p) ++ b ++ R) by (rewrite <- !app_assoc; reflexivity).
        replace (zlen A + zlen a + zlen p) with (zlen (A ++ a ++ p)) by (rewrite !zlen_app; lia).
        replace (zlen (a ++ p ++ b) - (zlen a + zlen p)) with (zlen b) by (rewrite !zlen_app; lia).
        rewrite HL. f_equal. f_equal. rewrite <- !app_assoc. reflexivity.
Qed.

Lemma breplace_ok s p ns cnt : p <> [] -> bfits s -> (match cnt with None => True | Some c => 0 <= c end) ->
  (forall l, splits p (limit cnt) s l -> bfits (joined ns l)) ->
  exists l, splits p (limit cnt) s l /\ bytes_replace s p ns cnt = Ok (joined ns l).
Proof.
  intros Hne F Hc HF. unfold bytes_replace.
  destruct (bcount_ok s p None None Hne I I) as (l & Hl & ->). cbn [bindr].
  unfold py_start, py_end, py_from in Hl. rewrite Z.min_id, window_all in Hl. pose proof (zlen_nn s).
  destruct (zlen s <? 0) eqn:E0; [lia|]. clear E0.
  pose proof (splits_bound _ _ _ _ Hne Hl) as Hbd. unfold bfits in F. change (2 ^ 31) with 2147483648 in F.
  destruct (splits_joined _ _ _ _ Hl) as [_ Hn0]. pose proof (ne_len l Hn0) as Hl1.
  set (c0 := if _ <? _ then _ else _).
  set (k := Z.to_nat c0).
  assert (Hk : exists L, splits p (limit cnt) s L /\ 0 <= c0 <= zlen l - 1 /\ L = firstn k l ++ [joined p (skipn k l)]).
  { unfold k, c0 in *. clear k c0.
    assert (HX : firstn (Z.to_nat (zlen l - 1)) l ++ [joined p (skipn (Z.to_nat (zlen l - 1)) l)] = l).
    { destruct (exists_last Hn0) as (l' & x & ->). unfold zlen. rewrite app_length. cbn [length].
      replace (Z.to_nat (Z.of_nat (length l' + 1) - 1)) with (length l' + 0)%nat by lia.
      rewrite firstn_app_2, Nat.add_0_r, skipn_app, skipn_all, Nat.sub_diag. cbn. rewrite app_nil_r. reflexivity. }
    destruct cnt as [c|].
    - unfold limit. destruct (c <? 0) eqn:E; [lia|]. destruct (c <? zlen l - 1) eqn:E2.
      + exists (firstn (Z.to_nat c) l ++ [joined p (skipn (Z.to_nat c) l)]). rewrite wrap32 by (unfold is_int; lia).
        split; [apply splits_limit; [assumption|lia]|]. split; [lia|reflexivity].
      + exists (firstn (Z.to_nat (zlen l - 1)) l ++ [joined p (skipn (Z.to_nat (zlen l - 1)) l)]). split; [|split; [lia|reflexivity]].
        rewrite HX. apply splits_more; [assumption|lia].
    - destruct (2147483647 <? zlen l - 1) eqn:E2; [lia|].
      exists (firstn (Z.to_nat (zlen l - 1)) l ++ [joined p (skipn (Z.to_nat (zlen l - 1)) l)]). split; [|split; [lia|reflexivity]].
      rewrite HX. assumption. }
  destruct Hk as (L & HL & Hc0 & EL). exists L. split; [assumption|].
  destruct (splits_joined _ _ _ _ HL) as [HJ HLn].
  assert (HLl : zlen L = c0 + 1).
  { rewrite EL, zlen_app, zlen_cons, zlen_nil. unfold zlen in *. rewrite firstn_length. unfold k. lia. }
  destruct (c0 =? 0) eqn:E0.
  - f_equal. rewrite <- HJ. destruct L as [|x [|y L]]; [congruence|reflexivity|]. rewrite !zlen_cons in HLl. pose proof (zlen_nn L). lia.
  - destruct (breplace_loop_ok p ns Hne k true s [] [0] [] l Hl ltac:(lia)) as (A' & EA & HR).
    cbn [app] in HR. change (zlen (@nil Z)) with 0 in HR. fold (bbuf s) in HR. rewrite HR. cbn [bindr].
    set (rest := joined p (skipn k l)) in *.
    assert (Hrest : (if 0 <? zlen rest then copy (bbuf s) (zlen A') (zlen rest) else Ok []) = Ok rest).
    { pose proof (zlen_nn rest). destruct (0 <? zlen rest) eqn:E1; [unfold bbuf; cbn [app] in EA; rewrite EA; apply copy_mid; reflexivity|].
      rewrite (len0 rest) by lia. reflexivity. }
    rewrite Hrest. cbn [bindr].
    assert (EJ : concat (map (fun x => x ++ ns) (firstn k l)) ++ rest = joined ns L) by (rewrite EL; apply (joined_split ns _ (firstn k l) rest eq_refl)).
    rewrite EJ. pose proof (joined_len p L HLn) as Kp. pose proof (joined_len ns L HLn) as Kn. rewrite HJ in Kp.
    destruct (zlen (joined ns L) =? zlen s + c0 * (zlen ns - zlen p)) eqn:E2; [|nia].
    specialize (HF L HL). unfold bfits in HF. clear - HF. unfold new_bytes. destruct (_ <? _) eqn:E3; [reflexivity|lia].
Qed.

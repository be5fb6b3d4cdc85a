(** bytes: stripping, prefixes, words, lines, slices, order, padding, hexadecimal, tabs. *)
From Verif Require Import Base M_Slice S_Slice M_Str S_Str M_Bytes S_Bytes P_Base P_Bmh P_Str P_Str2 P_Str3 P_Str4 P_Slice P_Bytes.
From Coq Require Import ZifyBool ZifyNat.
Ltac Zify.zify_post_hook ::= idtac.

Lemma existsb_in c l : existsb (Z.eqb c) l = true <-> In c l.
Proof. rewrite existsb_exists. split; [intros (x & H & E); assert (c = x) by lia; congruence|intros H; exists c; split; [assumption|lia]]. Qed.

(** ** Strip. *)
Lemma count_strip_ok set : forall s, exists D K, s = D ++ K /\ all_from set D /\ first_not set K /\ count_strip s set = zlen D.
Proof.
  induction s as [|c s IH]; [exists [], []; repeat split; constructor|]. cbn [count_strip]. destruct (existsb (Z.eqb c) set) eqn:E.
  - destruct IH as (D & K & -> & H1 & H2 & ->). exists (c :: D), K. rewrite zlen_cons. repeat split; [|assumption]. constructor; [apply existsb_in; assumption|assumption].
  - exists [], (c :: s). repeat split; [constructor|]. cbn. rewrite <- existsb_in. congruence.
Qed.
Lemma blstrip_ok s o : exists D K, s = D ++ K /\ all_from (set_of o) D /\ first_not (set_of o) K /\ bytes_lstrip s o = Ok K.
Proof.
  destruct (count_strip_ok (set_of o) s) as (D & K & E & H1 & H2 & H3). exists D, K. split; [exact E|]. split; [exact H1|]. split; [exact H2|].
  unfold bytes_lstrip. change (bstrip_set o) with (set_of o). rewrite H3, E. unfold bbuf. rewrite <- app_assoc. apply copy_mid'; rewrite ?zlen_app; lia.
Qed.
Lemma brstrip_ok s o : exists K D, s = K ++ D /\ all_from (set_of o) D /\ last_not (set_of o) K /\ bytes_rstrip s o = Ok K.
Proof.
  destruct (count_strip_ok (set_of o) (rev s)) as (D & K & E & H1 & H2 & H3). exists (rev K), (rev D).
  assert (Es : s = rev K ++ rev D) by (rewrite <- rev_app_distr, <- E, rev_involutive; reflexivity). split; [exact Es|].
  split; [apply Forall_rev; exact H1|]. split; [unfold last_not; rewrite rev_involutive; exact H2|].
  unfold bytes_rstrip. change (bstrip_set o) with (set_of o). rewrite H3, Es. unfold bbuf. rewrite <- app_assoc.
  apply (copy_mid' [] (rev K) (rev D ++ [0])); [reflexivity|]. rewrite zlen_app. unfold zlen. rewrite !rev_length. lia.
Qed.
Lemma bstrip_ok s o : exists D K E, s = D ++ K ++ E /\ all_from (set_of o) D /\ all_from (set_of o) E /\
  first_not (set_of o) K /\ last_not (set_of o) K /\ bytes_strip s o = Ok K.
Proof.
  unfold bytes_strip. destruct (brstrip_ok s o) as (K1 & E & -> & HE & HK1 & ->). cbn [bindr].
  destruct (blstrip_ok K1 o) as (D & K & -> & HD & HK & ->). exists D, K, E. rewrite <- app_assoc. repeat split; try assumption.
  unfold last_not in *. rewrite rev_app_distr in HK1. destruct (rev K); [exact I|exact HK1].
Qed.

(** ** Prefixes and suffixes. *)
Lemma starts_loop_ok y : forall x A C R p q e, p = zlen A -> q = zlen C -> e = zlen A + zlen x ->
  exists r, starts_loop (length y) (A ++ x ++ R) p e (C ++ y ++ [0]) q = Ok r /\ (r = true <-> exists x', x = y ++ x').
Proof.
  induction y as [|b y IH]; intros x A C R p q e Hp Hq He; cbn [length starts_loop].
  - exists true. split; [reflexivity|]. split; [intros _; exists x; reflexivity|reflexivity].
  - destruct x as [|a x].
    + rewrite zlen_nil in He. destruct (e <=? p) eqn:E; [|lia]. exists false. split; [reflexivity|]. split; [discriminate|intros (x' & Hx); discriminate].
    + rewrite zlen_cons in He. pose proof (zlen_nn x). destruct (e <=? p) eqn:E; [lia|]. cbn [app]. rewrite !rd_at by assumption. cbn [bindr].
      destruct (a =? b) eqn:E2.
      * assert (a = b) by lia. subst b.
        destruct (IH x (A ++ [a]) (C ++ [a]) R (p + 1) (q + 1) e) as (r & Hr & Hs); try (rewrite zlen_app, zlen_cons, zlen_nil; lia).
        exists r. rewrite <- !app_assoc in Hr. split; [exact Hr|]. rewrite Hs. split; intros (x' & Hx); exists x'; cbn in *; congruence.
      * exists false. split; [reflexivity|]. split; [discriminate|]. intros (x' & Hx). cbn in Hx. injection Hx as -> _. lia.
Qed.
Lemma bstartswith_ok s p st en : pos_bound st -> pos_bound en ->
  let a := py_start (zlen s) st in let b := py_end (zlen s) en in
  exists r, bytes_startswith s p st en = Ok r /\
    (r = true <-> a <= zlen s /\ (p = [] \/ a <= b) /\ exists B, window s a b = p ++ B).
Proof.
  intros Hs He a b. unfold bytes_startswith. pose proof (zlen_nn s) as Hn. rewrite fix_ok by assumption.
  pose proof (py_start_nn _ st Hn Hs). pose proof (py_end_nn _ en Hn He). fold a b in H, H0 |- *.
  destruct (zlen s <? a) eqn:E; [exists false; split; [reflexivity|split; [discriminate|lia]]|].
  destruct ((0 <? zlen p) && (zlen s <? a + zlen p)) eqn:E2.
  { exists false. split; [reflexivity|]. split; [discriminate|]. intros (_ & _ & B & HB). exfalso.
    assert (zlen (window s a b) <= zlen s - a).
    { unfold window, zlen in *. rewrite firstn_length, skipn_length. lia. }
    rewrite HB, zlen_app in H1. pose proof (zlen_nn B). lia. }
  destruct (Z_lt_ge_dec b a) as [Hlt|Hge].
  - destruct p as [|c p].
    + exists true. split; [reflexivity|]. split; [intros _|reflexivity]. split; [lia|]. split; [auto|]. exists (window s a b). reflexivity.
    + cbn [length starts_loop]. destruct (b <=? a) eqn:E3; [|lia]. exists false. split; [reflexivity|]. split; [discriminate|].
      intros (_ & [?|?] & _); [discriminate|lia].
  - destruct (window_cut s a b ltac:(lia) ltac:(lia)) as (A & B & EW & HA & HW). set (W := window s a b) in *.
    destruct (starts_loop_ok p W A [] (B ++ [0]) a 0 b) as (r & Hr & Hr2); try (reflexivity || lia).
    exists r. assert (Eb : bbuf s = A ++ W ++ B ++ [0]) by (unfold bbuf; rewrite EW at 1; rewrite <- !app_assoc; reflexivity).
    rewrite Eb. split; [exact Hr|]. rewrite Hr2. split; [intros H1; split; [lia|]; split; [lia|exact H1]|tauto].
Qed.
Lemma bendswith_ok s p st en : pos_bound st -> pos_bound en -> ~ In 0 p ->
  let a := py_start (zlen s) st in let b := py_end (zlen s) en in zlen p <= b ->
  exists r, bytes_endswith s p st en = Ok r /\ (r = true <-> a <= zlen s /\ exists A, window s 0 b = A ++ p).
Proof.
  intros Hs He H0 a b Hp. unfold bytes_endswith. pose proof (zlen_nn s) as Hn. rewrite fix_ok by assumption.
  pose proof (py_start_nn _ st Hn Hs). pose proof (py_end_nn _ en Hn He) as Hb. fold a b in H, Hb |- *.
  destruct (zlen s <? a) eqn:E; [exists false; split; [reflexivity|split; [discriminate|lia]]|].
  destruct (window_cut s 0 b ltac:(lia) ltac:(lia)) as (A0 & B & EW & HA & HW). set (W := window s 0 b) in *. rewrite (len0 A0) in EW by lia. cbn [app] in EW.
  pose proof (zlen_nn p). destruct (cut W (b - zlen p) ltac:(lia)) as (u & v & Euv & Hu).
  assert (Hv : zlen v = zlen p) by (rewrite Euv, zlen_app in HW; lia).
  assert (Eb : bbuf s = u ++ (v ++ B) ++ [0]) by (unfold bbuf; rewrite EW at 1; rewrite Euv, <- !app_assoc; reflexivity).
  destruct (match_at_ok (v ++ B) p u [0] (b - zlen p) H0 ltac:(lia)) as (e & Hm & Hr). unfold zlen at 1 in Hm. rewrite Nat2Z.id in Hm.
  rewrite Eb. unfold bbuf. rewrite Hm. exists e. split; [reflexivity|]. rewrite Hr. split.
  - intros (x' & Ex). split; [lia|]. exists u. rewrite Euv. f_equal. exact (proj1 (app_len_eq _ _ _ _ Ex Hv)).
  - intros (_ & A & EA). exists B. f_equal. rewrite EA in Euv. pose proof (f_equal zlen Euv) as EL. rewrite !zlen_app in EL.
    symmetry. exact (proj2 (app_len_eq _ _ _ _ Euv ltac:(lia))).
Qed.
Lemma equal_bytes_dec y : forall x A C R S, zlen x = zlen y ->
  exists e, equal_bytes (length y) (A ++ x ++ R) (zlen A) (C ++ y ++ S) (zlen C) = Ok e /\ (e = true <-> x = y).
Proof.
  intros x A C R S HL. destruct (list_eq_dec Z.eq_dec x y) as [->|Hne].
  - exists true. split; [apply equal_bytes_same; reflexivity|tauto].
  - exists false. split; [|split; [discriminate|congruence]].
    destruct (tri Z.eq_dec x y) as [(x' & ->)|[(u & a & b & x' & y' & -> & -> & Hab)|(z & y' & ->)]].
    + rewrite zlen_app in HL. rewrite (len0 x') in Hne by lia. rewrite app_nil_r in Hne. congruence.
    + rewrite <- !app_assoc. cbn [app]. apply equal_bytes_diff; try reflexivity; [assumption|rewrite app_length; cbn; lia].
    + rewrite zlen_app, zlen_cons in HL. pose proof (zlen_nn y'). lia.
Qed.
Lemma bremoveprefix_ok s p :
  (exists B, s = p ++ B /\ bytes_removeprefix s p = Ok B) \/ ((forall B, s <> p ++ B) /\ bytes_removeprefix s p = Ok s).
Proof.
  unfold bytes_removeprefix. destruct (zlen s <? zlen p) eqn:E.
  - right. split; [intros B ->; rewrite zlen_app in E; pose proof (zlen_nn B); lia|]. cbn [bindr].
    apply (copy_mid' [] s [0]); [reflexivity|lia].
  - pose proof (zlen_nn p). destruct (cut s (zlen p) ltac:(lia)) as (u & v & -> & Hu).
    destruct (equal_bytes_dec p u [] [] (v ++ [0]) [0] Hu) as (e & He & Hr). assert (Eq : equal_bytes (length p) (bbuf (u ++ v)) 0 (bbuf p) 0 = Ok e) by (unfold bbuf; rewrite <- app_assoc; exact He).
    rewrite Eq. cbn [bindr]. destruct e.
    + left. rewrite (proj1 Hr eq_refl). exists v. split; [reflexivity|]. unfold bbuf. rewrite <- app_assoc. apply copy_mid'; rewrite ?zlen_app; lia.
    + right. split; [|apply (copy_mid' [] (u ++ v) [0]); [reflexivity|lia]]. intros B EB.
      destruct (app_len_eq _ _ _ _ EB Hu) as [HH _]. apply Hr in HH. discriminate.
Qed.
Lemma bremovesuffix_ok s p :
  (exists A, s = A ++ p /\ bytes_removesuffix s p = Ok A) \/ ((forall A, s <> A ++ p) /\ bytes_removesuffix s p = Ok s).
Proof.
  unfold bytes_removesuffix. destruct (zlen s <? zlen p) eqn:E.
  - right. split; [intros B ->; rewrite zlen_app in E; pose proof (zlen_nn B); lia|]. cbn [bindr].
    apply (copy_mid' [] s [0]); [reflexivity|lia].
  - pose proof (zlen_nn p). destruct (cut s (zlen s - zlen p) ltac:(lia)) as (u & v & Es & Hu).
    assert (Hv : zlen v = zlen p) by (rewrite Es, zlen_app in Hu; lia).
    destruct (equal_bytes_dec p v u [] [0] [0] Hv) as (e & He & Hr). assert (Eq : equal_bytes (length p) (bbuf s) (zlen s - zlen p) (bbuf p) 0 = Ok e) by (rewrite <- Hu; unfold bbuf; rewrite Es, <- app_assoc; exact He).
    rewrite Eq. cbn [bindr]. destruct e.
    + left. rewrite (proj1 Hr eq_refl) in *. exists u. split; [assumption|]. rewrite Es. unfold bbuf. rewrite <- app_assoc.
      apply (copy_mid' [] u (p ++ [0])); [reflexivity|rewrite zlen_app; lia].
    + right. split; [|apply (copy_mid' [] s [0]); [reflexivity|lia]]. intros B EB. rewrite Es in EB.
      pose proof (f_equal zlen EB) as EL. rewrite !zlen_app in EL.
      destruct (app_len_eq _ _ _ _ EB ltac:(lia)) as [_ HH]. apply Hr in HH. discriminate.
Qed.

(** ** Words: without a limit and with a last byte that is not white space. *)
Lemma bspace_white c : bspace c = is_white c.
Proof. unfold bspace, is_white. cbn [existsb]. lia. Qed.
Lemma bwords_loop_ok W : forall V A R acc maxs, zlen acc + zlen V + zlen W <= maxs -> Forall (fun c => is_white c = false) V ->
  (W = [] -> V <> []) -> (forall W' c, W = W' ++ [c] -> is_white c = false) -> forall q0, 
  exists l q, words is_white None (V ++ W) l /\ l <> [] /\
   bwords_loop (length W) (A ++ V ++ W ++ R) (zlen A + zlen V) (match V with [] => false | _ => true end)
              (match V with [] => q0 | _ => Some (zlen A) end) acc maxs = Ok (O, zlen A + zlen V + zlen W, true, Some q, acc ++ removelast l) /\
   copy (A ++ V ++ W ++ R) q (zlen A + zlen V + zlen W - q) = Ok (last l []).
Proof.
  induction W as [|c W IH]; intros V A R acc maxs Hm Hs Hv Hl q0.
  - cbn [length bwords_loop]. rewrite zlen_nil, Z.add_0_r, app_nil_r. destruct V as [|v V]; [destruct (Hv eq_refl eq_refl)|]. set (V' := v :: V) in *.
    exists [V'], (zlen A). split; [apply words_last; [discriminate|discriminate|assumption]|]. split; [discriminate|]. cbn [removelast last app].
    rewrite app_nil_r. split; [reflexivity|]. apply copy_mid. lia.
  - cbn [length bwords_loop]. replace (A ++ V ++ (c :: W) ++ R) with ((A ++ V) ++ c :: W ++ R) by (rewrite <- app_assoc; reflexivity).
    rewrite rd_at by (rewrite zlen_app; lia). cbn [bindr]. rewrite bspace_white. rewrite zlen_cons in *.
    assert (Hl' : forall W' c', W = W' ++ [c'] -> is_white c' = false) by (intros W' c' ->; apply (Hl (c :: W') c'); reflexivity).
    pose proof (zlen_nn acc). pose proof (zlen_nn V). pose proof (zlen_nn W).
    destruct (is_white c) eqn:Ew; cbn [negb].
    + assert (HW : W <> []) by (intros ->; rewrite (Hl [] c eq_refl) in Ew; discriminate).
      destruct V as [|v V].
      * destruct (IH [] (A ++ [c]) R acc maxs ltac:(rewrite zlen_nil in *; lia) ltac:(constructor) ltac:(congruence) Hl' q0) as (l & q & H3 & H4 & H5 & H6).
        exists l, q. split; [apply words_sp; assumption|]. split; [assumption|]. cbn [app] in *. rewrite !zlen_nil in *. rewrite app_nil_r, <- app_assoc in *. rewrite zlen_app, zlen_cons, zlen_nil in H5, H6.
        replace (zlen A + (1 + 0) + 0) with (zlen A + 0 + 1) in H5, H6 by lia. replace (zlen A + 0 + (1 + zlen W)) with (zlen A + 0 + 1 + zlen W) by lia. split; [exact H5|exact H6].
      * set (V' := v :: V) in *. cbn [orUB bindr]. rewrite <- app_assoc. replace (zlen A + zlen V' - zlen A) with (zlen V') by lia. rewrite copy_mid by reflexivity. cbn [bindr].
        destruct (IH [] (A ++ V' ++ [c]) R (acc ++ [V']) maxs) with (q0 := Some (zlen A)) as (l & q & H3 & H4 & H5 & H6); [rewrite zlen_app, zlen_cons, !zlen_nil; assert (1 <= zlen V') by (unfold V'; rewrite zlen_cons; pose proof (zlen_nn V); lia); lia|constructor|congruence|assumption|].
        exists (V' :: l), q. split; [apply words_word; [discriminate|discriminate|assumption|assumption|exact H3]|]. split; [discriminate|].
        assert (ER : removelast (V' :: l) = V' :: removelast l) by (destruct l; [congruence|reflexivity]).
        assert (EL : last (V' :: l) [] = last l []) by (destruct l; [congruence|reflexivity]). rewrite ER, EL.
        cbn [app] in *. rewrite !zlen_nil in *. rewrite <- !app_assoc in *. cbn [app] in *. rewrite !zlen_app, zlen_cons, zlen_nil in H5, H6.
        replace (zlen A + (zlen V' + (1 + 0)) + 0) with (zlen A + zlen V' + 1) in H5, H6 by lia. replace (zlen A + zlen V' + (1 + zlen W)) with (zlen A + zlen V' + 1 + zlen W) by lia.
        split; [exact H5|exact H6].
    + destruct V as [|v V].
      * destruct (zlen acc =? maxs) eqn:E; [lia|]. destruct (IH [c] A R acc maxs) with (q0 := q0) as (l & q & H3 & H4 & H5 & H6).
        { rewrite zlen_cons, zlen_nil in *. lia. } { constructor; [assumption|constructor]. } { discriminate. } { assumption. }
        exists l, q. split; [exact H3|]. split; [assumption|]. cbn [app] in *. rewrite app_nil_r. rewrite !zlen_nil, zlen_cons, !zlen_nil in *.
        replace (zlen A + (1 + 0)) with (zlen A + 0 + 1) in * by lia. replace (zlen A + 0 + (1 + zlen W)) with (zlen A + 0 + 1 + zlen W) by lia. replace (zlen A + 0) with (zlen A) in * by lia. split; [exact H5|exact H6].
      * set (V' := v :: V) in *. destruct (IH (V' ++ [c]) A R acc maxs) with (q0 := q0) as (l & q & H3 & H4 & H5 & H6).
        { rewrite zlen_app, zlen_cons, zlen_nil. lia. } { apply Forall_app. split; [assumption|constructor; [assumption|constructor]]. } { destruct V; discriminate. } { assumption. }
        exists l, q. rewrite <- !app_assoc in *. cbn [app] in H3, H5, H6. split; [exact H3|]. split; [assumption|].
        rewrite zlen_app, zlen_cons, zlen_nil in H5, H6.
        replace (zlen A + (zlen V' + (1 + 0))) with (zlen A + zlen V' + 1) in H5, H6 by lia. replace (zlen A + zlen V' + (1 + zlen W)) with (zlen A + zlen V' + 1 + zlen W) by lia.
        replace (match V' ++ [c] with [] => false | _ :: _ => true end) with true in H5 by reflexivity.
        replace (match V' ++ [c] with [] => q0 | _ :: _ => Some (zlen A) end) with (Some (zlen A)) in H5 by reflexivity.
        split; [exact H5|exact H6].
Qed.
Lemma bsplit_space_ok s c : bfits (s ++ [c]) -> is_white c = false ->
  exists l, words is_white None (s ++ [c]) l /\ bytes_split_space (s ++ [c]) None = Ok l.
Proof.
  intros F Hc. unfold bytes_split_space. unfold bfits in F. change (2 ^ 31) with 2147483648 in F. rewrite zlen_app, zlen_cons, zlen_nil in F. pose proof (zlen_nn s).
  destruct (zlen (s ++ [c]) =? 0) eqn:E; [rewrite zlen_app, zlen_cons, zlen_nil in E; lia|]. clear E.
  assert (Hne : s ++ [c] <> []) by (destruct s; discriminate).
    destruct (bwords_loop_ok (s ++ [c]) [] [] [0] [] 2147483647) with (q0 := @None Z) as (l & q & H3 & H4 & H5 & H6).
    { rewrite !zlen_nil, zlen_app, zlen_cons, zlen_nil. lia. } { constructor. } { congruence. } { intros W' c' EE. apply app_inj_tail in EE. destruct EE as [_ <-]. assumption. }
    exists l. split; [exact H3|]. cbn [app] in H5, H6. change (zlen (@nil Z)) with 0 in *. cbn [Z.add] in *. unfold bbuf. cbn [max_splits].
    rewrite H5. cbn [bindr]. destruct (_ <? _) eqn:E; [lia|]. cbn [orUB bindr]. rewrite H6. cbn [bindr]. rewrite <- (app_removelast_last [] H4). reflexivity.
Qed.

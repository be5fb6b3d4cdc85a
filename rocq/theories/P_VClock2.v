(** Proofs about vector clocks: update, comparison, copies, messages, histories. *)
From Verif Require Import Base M_VClock S_VClock P_VClock.
Require Import Sorted.

Lemma split_sorted : forall es id, sorted es -> mp es id = None ->
  exists A B, es = A ++ B /\ (forall x, In x A -> fst x < id) /\ (forall x, In x B -> id < fst x).
Proof.
  induction es as [|e es IH]; intros id S M; [exists [], []; repeat split; easy|].
  apply sorted_cons in S. destruct S as [S F]. rewrite mp_cons in M. destruct (id =? fst e) eqn:K; [easy|].
  destruct (IH id S M) as (A & B & E & HA & HB). destruct (fst e <? id) eqn:L.
  - exists (e :: A), B. rewrite E. repeat split; auto. intros x [<-|J]; auto. lia.
  - exists [], (e :: es). repeat split; auto; [easy|]. intros x [<-|J]; [lia|]. specialize (F _ J). lia.
Qed.

Lemma mp_split_in : forall es id c, mp es id = Some c -> exists A B, es = A ++ (id, c) :: B /\ mp A id = None.
Proof.
  induction es as [|e es IH]; intros id c M; [easy|]. rewrite mp_cons in M. destruct (id =? fst e) eqn:K.
  - injection M as <-. exists [], es. apply Z.eqb_eq in K. subst. now destruct e.
  - destruct (IH id c M) as (A & B & -> & N). exists (e :: A), B. split; auto. rewrite mp_cons, K. auto.
Qed.

Lemma wrap_small : forall c, 0 <= c < 2 ^ 31 -> wrapS 32 c = c.
Proof. intros c H. unfold wrapS. change (32 - 1) with 31. rewrite Z.mod_small; lia. Qed.

Section J.
  Variable junk : Z -> Z * Z.

  Lemma update_one_ok : forall v es tl e, W v es tl ->
    (mp es (fst e) = None -> tl <> [] /\ 0 <= snd e < 2 ^ 31) ->
    exists v' es' tl', update_one junk v e = Ok v' /\ W v' es' tl' /\ zlen (varr v) <= zlen (varr v')
      /\ (forall k, mp es' k = set (mp es) (fst e) (Some (match mp es (fst e) with Some x => Z.max x (snd e) | None => snd e end)) k)
      /\ (forall x, In x es' -> In x es \/ x = e).
  Proof.
    intros v es tl [id c] H HN. pose proof H as (E & N & S). unfold update_one. cbn [fst snd] in *.
    assert (LV : length (varr v) = (length es + length tl)%nat) by (rewrite E; apply app_length).
    destruct (mp es id) as [x|] eqn:M.
    - destruct (mp_split_in es id x M) as (A & B & Q & MA).
      assert (SA : forall y, In y A -> fst y < id).
      { rewrite Q in S. apply sorted_app in S. destruct S as (_ & _ & S3). intros y J. apply (S3 y (id, x)); auto. now left. }
      assert (EE : varr v = A ++ (id, x) :: B ++ tl) by (rewrite E, Q, <- app_assoc; reflexivity).
      assert (SC : scan (Datatypes.S (Datatypes.S (length (varr v)))) v id 0 = Ok (zlen A)).
      { apply (scan_mid junk A _ v [] (id, x) (B ++ tl) id); auto.
        - cbn [app]. rewrite N, Q, zlen_app. pose proof (zlen_nn _ ((id, x) :: B)). lia.
        - rewrite LV, Q, app_length. lia.
        - cbn. lia. }
      rewrite SC. cbn [bindr]. pose proof (zlen_nn _ B).
      replace (zlen A <? vn v) with true by (rewrite N, Q, zlen_app, zlen_cons; lia).
      rewrite (ent_mid v A (id, x) (B ++ tl)) by auto. cbn [bindr fst snd]. rewrite Z.eqb_refl.
      destruct (x <? c) eqn:L.
      + rewrite (put_mid v A (id, x) (B ++ tl)) by auto.
        eexists _, (A ++ (id, c) :: B), tl. split; [reflexivity|].
        split; [split; [cbn [varr]; rewrite <- app_assoc; reflexivity|split]|split; [|split]].
        * cbn [vn]. rewrite N, Q, !zlen_app, !zlen_cons. reflexivity.
        * unfold sorted. rewrite map_app. cbn [map fst]. unfold sorted in S. rewrite Q, map_app in S. exact S.
        * cbn [varr]. rewrite E, Q. rewrite !zlen_app, !zlen_cons, !zlen_app. lia.
        * intros k. unfold set. rewrite Q, !mp_app, !mp_cons. cbn [fst snd]. destruct (k =? id) eqn:K; auto.
          apply Z.eqb_eq in K. subst. rewrite MA. f_equal. lia.
        * intros y J. rewrite Q, in_app_iff in *. cbn [In] in *. intuition.
      + exists v, es, tl. split; [reflexivity|]. split; auto. split; [lia|]. split; auto.
        intros k. unfold set. destruct (k =? id) eqn:K; auto. apply Z.eqb_eq in K. subst. rewrite M. f_equal. lia.
    - destruct (HN eq_refl) as [NT HC]. destruct (split_sorted es id S M) as (A & B & Q & HA & HB).
      assert (SC : scan (Datatypes.S (Datatypes.S (length (varr v)))) v id 0 = Ok (zlen A)).
      { destruct B as [|b B].
        - rewrite app_nil_r in Q. subst es. apply (scan_ok junk A _ v [] tl id); auto; [lia|]. destruct tl; easy.
        - apply (scan_mid junk A _ v [] b (B ++ tl) id); auto.
          + rewrite E, Q, <- app_assoc. reflexivity.
          + cbn [app]. rewrite N, Q, zlen_app. pose proof (zlen_nn _ (b :: B)). lia.
          + rewrite LV, Q, app_length. lia.
          + specialize (HB b (or_introl eq_refl)). lia. }
      rewrite SC. cbn [bindr].
      assert (HH : (if zlen A <? vn v then do x <- ent v (zlen A); Ok (fst x =? id) else Ok false) = Ok false).
      { destruct (zlen A <? vn v) eqn:L; auto. destruct B as [|b B].
        - rewrite app_nil_r in Q. subst. lia.
        - rewrite (ent_mid v A b (B ++ tl)) by (auto; rewrite E, Q, <- app_assoc; reflexivity). cbn [bindr].
          specialize (HB b (or_introl eq_refl)). f_equal. lia. }
      rewrite HH. cbn [bindr]. rewrite wrap_small by lia.
      pose proof (add_ok junk v es tl id c H (or_intror NT)) as AD. rewrite M in AD.
      destruct AD as (v' & es' & tl' & R & H' & LE & IN & _ & MP). rewrite R. cbn [bindr].
      replace (0 =? 0) with true by reflexivity. exists v', es', tl'. split; [reflexivity|]. split; auto. split; auto.
      replace (Z.max c 0) with c in * by lia. split; auto.
      intros y J. apply IN in J. destruct J; auto.
  Qed.

  Lemma map_incl_len : forall (es : list (Z * Z)) U, sorted es -> (forall e, In e es -> In (fst e) U) -> zlen es <= zlen U.
  Proof.
    intros es U S H. unfold zlen. rewrite <- (map_length fst es).
    apply inj_le, NoDup_incl_length.
    - clear H. induction es as [|e es IH]; cbn; constructor; apply sorted_cons in S; destruct S as [S F]; auto.
      rewrite in_map_iff. intros (x & Q & J). specialize (F _ J). lia.
    - intros k J. apply in_map_iff in J. destruct J as (e & <- & J). auto.
  Qed.

  Lemma update_loop_ok : forall ss v es tl src P tl2 U, W v es tl -> varr src = P ++ ss ++ tl2 ->
    NoDup (map fst ss) ->
    (forall e, In e es -> In (fst e) U) -> (forall e, In e ss -> In (fst e) U) -> zlen U <= zlen (varr v) ->
    (forall e, In e ss -> 0 <= snd e < 2 ^ 31) ->
    exists v' es' tl', update_loop junk (length ss) v src (zlen P) = Ok v' /\ W v' es' tl'
      /\ zlen (varr v) <= zlen (varr v')
      /\ (forall k, mp es' k = join (mp es) (mp ss) k) /\ (forall x, In x es' -> In x es \/ In x ss).
  Proof.
    induction ss as [|s ss IH]; intros v es tl src P tl2 U H ES ND HU1 HU2 LU HC; cbn [length update_loop].
    - exists v, es, tl. repeat split; try apply H; auto; [lia|]. intros k. unfold join. cbn. now destruct (mp es k).
    - rewrite (ent_mid src P s (ss ++ tl2)) by auto. cbn [bindr].
      destruct (update_one_ok v es tl s H) as (v1 & es1 & tl1 & R1 & H1 & LE1 & M1 & I1).
      { intros M. split; [|apply HC; now left]. intros ->. destruct H as (E & N & S). rewrite app_nil_r in E.
        assert (SS : zlen (fst s :: map fst es) <= zlen U).
        { unfold zlen. apply inj_le, NoDup_incl_length.
          - constructor.
            + rewrite in_map_iff. intros (x & Q & J). exact (mp_none_inv _ _ _ M J Q).
            + clear - S. unfold sorted in S. induction es as [|e es IH]; cbn in *; constructor; apply StronglySorted_inv in S; destruct S as [S F]; auto.
              intros J. rewrite Forall_forall in F. specialize (F _ J). lia.
          - intros k [<-|J]; [apply HU2; now left|]. apply in_map_iff in J. destruct J as (e & <- & J). auto. }
        rewrite zlen_cons in SS. unfold zlen at 1 in SS. rewrite map_length in SS. rewrite E in LU. unfold zlen in *. lia. }
      rewrite R1. cbn [bindr]. cbn [map] in ND. apply NoDup_cons_iff in ND. destruct ND as [ND1 ND2].
      destruct (IH v1 es1 tl1 src (P ++ [s]) tl2 U H1) as (v2 & es2 & tl2' & R2 & H2 & LE2 & M2 & I2); auto.
      + rewrite ES, <- app_assoc. reflexivity.
      + intros e J. apply I1 in J. destruct J as [J| ->]; auto. apply HU2. now left.
      + intros e J. apply HU2. now right.
      + lia.
      + intros e J. apply HC. now right.
      + rewrite zlen_app, zlen_cons, zlen_nil, Z.add_0_r in R2. rewrite R2.
        exists v2, es2, tl2'. split; [reflexivity|]. split; auto. split; [lia|]. split.
        * intros k. rewrite M2. unfold join. rewrite M1, mp_cons. unfold set. destruct (k =? fst s) eqn:K; auto.
          apply Z.eqb_eq in K. subst k. rewrite (mp_none ss (fst s)).
          -- destruct (mp es (fst s)); auto.
          -- intros e J Q. apply ND1. rewrite <- Q. now apply in_map.
        * intros x J. apply I2 in J. destruct J as [J|J]; [|right; now right]. apply I1 in J. destruct J as [J| ->]; auto. right. now left.
  Qed.

  Lemma sorted_nodup : forall es, sorted es -> NoDup (map fst es).
  Proof.
    induction es as [|e es IH]; intros S; cbn; constructor; apply sorted_cons in S; destruct S as [S F]; auto.
    rewrite in_map_iff. intros (x & Q & J). specialize (F _ J). lia.
  Qed.

  Lemma update_ok : forall v es tl src ss tl2 U, W v es tl -> W src ss tl2 ->
    (forall e, In e es -> In (fst e) U) -> (forall e, In e ss -> In (fst e) U) -> zlen U <= zlen (varr v) ->
    (forall e, In e ss -> 0 <= snd e < 2 ^ 31) ->
    exists v' es' tl', update_vc junk v src = Ok v' /\ W v' es' tl'
      /\ zlen (varr v) <= zlen (varr v')
      /\ (forall k, mp es' k = join (mp es) (mp ss) k) /\ (forall x, In x es' -> In x es \/ In x ss).
  Proof.
    intros v es tl src ss tl2 U H (E2 & N2 & S2) A B C D. unfold update_vc. rewrite N2.
    replace (Z.to_nat (zlen ss)) with (length ss) by (unfold zlen; lia).
    change 0 with (@zlen (Z * Z) []). apply (update_loop_ok ss v es tl src [] tl2 U); auto. now apply sorted_nodup.
  Qed.

  Lemma copy_ok : forall v es tl, W v es tl -> exists v' tl', copy_vc junk v = Ok v' /\ W v' es tl' /\ zlen (varr v') = zlen (varr v).
  Proof.
    intros v es tl (E & N & S). unfold copy_vc, capacity. rewrite E, N.
    destruct (blit_fresh junk (zlen (es ++ tl)) es tl) as (tl' & B & L); [rewrite zlen_app; pose proof (zlen_nn _ tl); lia|].
    rewrite B. cbn [orUB bindr]. exists (VC (zlen es) (es ++ tl')), tl'. repeat split; auto.
  Qed.

  Lemma replace_loop_ok : forall E v src P P2 S tl tl2, varr v = P ++ E ++ tl -> varr src = P2 ++ S ++ tl2 ->
    zlen P = zlen P2 -> length E = length S ->
    (map fst E = map fst S /\ replace_loop (length S) v src (zlen P) = Ok (VC (vn v) (P ++ S ++ tl), false))
    \/ (exists v1, replace_loop (length S) v src (zlen P) = Ok (v1, true)).
  Proof.
    induction E as [|e E IH]; intros v src P P2 S tl tl2 HE HS HP HL; (destruct S as [|s S]; [|]); try (cbn in HL; lia).
    - left. split; auto. cbn. destruct v. cbn in *. subst. reflexivity.
    - cbn [length replace_loop]. rewrite (ent_mid v P e (E ++ tl)) by auto. cbn [bindr].
      rewrite (ent_mid src P2 s (S ++ tl2)) by auto. cbn [bindr].
      destruct (fst e =? fst s) eqn:Q; cbn [negb]; [|right; eexists; reflexivity].
      apply Z.eqb_eq in Q. rewrite (put_mid v P e (E ++ tl)) by auto. cbn [bindr].
      destruct (IH (VC (vn v) (P ++ (fst e, snd s) :: E ++ tl)) src (P ++ [s]) (P2 ++ [s]) S tl tl2) as [[M R]|[v1 R]].
      + cbn [varr]. rewrite Q. rewrite <- app_assoc. cbn [app]. now destruct s.
      + rewrite HS, <- app_assoc. reflexivity.
      + rewrite !zlen_app. lia.
      + cbn in HL. lia.
      + left. split; [cbn; congruence|]. rewrite zlen_app, zlen_cons, zlen_nil, Z.add_0_r in R. rewrite R. cbn [vn].
        rewrite <- app_assoc. reflexivity.
      + right. exists v1. rewrite zlen_app, zlen_cons, zlen_nil, Z.add_0_r in R. exact R.
  Qed.

  Lemma replace_ok : forall v es tl src ss tl2, W v es tl -> W src ss tl2 ->
    exists v' tl', update_or_replace_vc junk (Some v) src = Ok v' /\ W v' ss tl'
      /\ (zlen (varr v') = zlen (varr v) \/ zlen (varr v') = zlen (varr src)).
  Proof.
    intros v es tl src ss tl2 (E & N & S) H2. pose proof H2 as (E2 & N2 & S2). unfold update_or_replace_vc.
    assert (CP : exists v' tl', copy_vc junk src = Ok v' /\ W v' ss tl' /\ (zlen (varr v') = zlen (varr v) \/ zlen (varr v') = zlen (varr src))).
    { destruct (copy_ok src ss tl2 H2) as (v' & tl' & R & H & L). eauto 7. }
    destruct (vn v =? vn src) eqn:Q; cbn [negb]; auto.
    assert (LL : length es = length ss) by (unfold zlen in *; lia).
    destruct (replace_loop_ok es v src [] [] ss tl tl2 E E2 eq_refl LL) as [[M R]|[v1 R]];
      rewrite zlen_nil in R; replace (Z.to_nat (vn src)) with (length ss) by (rewrite N2; unfold zlen; lia);
      rewrite R; cbn [bindr]; auto.
    eexists _, tl. split; [reflexivity|]. split.
    - split; [reflexivity|]. split; auto. cbn [vn]. unfold zlen in *. lia.
    - left. cbn [varr app]. rewrite E, !zlen_app. unfold zlen. lia.
  Qed.
End J.

Lemma msg_loop_ok : forall es v P tl, varr v = P ++ es ++ tl ->
  msg_loop (length es) v (zlen P) = Ok (VMsg (map fst es) (map snd es)).
Proof.
  induction es as [|e es IH]; intros v P tl E; cbn [length msg_loop]; auto.
  rewrite (ent_mid v P e (es ++ tl)) by auto. cbn [bindr].
  specialize (IH v (P ++ [e]) tl). rewrite zlen_app, zlen_cons, zlen_nil, Z.add_0_r in IH.
  rewrite IH by (rewrite E, <- app_assoc; reflexivity). reflexivity.
Qed.

Lemma pairs_of_ok : forall es, pairs_of (map fst es) (map snd es) = Ok es.
Proof. induction es as [|e es IH]; cbn; auto. rewrite IH. cbn. now destruct e. Qed.

Lemma init_ok : forall es, sorted es -> exists v tl, init_vc es false = Ok v /\ W v es tl /\ 16 <= zlen (varr v) /\ tl <> [].
Proof.
  intros es S. unfold init_vc. cbn [bindr]. eexists _, _. split; [reflexivity|]. split; [now repeat split|].
  cbn [varr]. rewrite zlen_app. pose proof (zlen_nn _ es).
  split.
  - unfold zlen at 2. rewrite repeat_length. unfold DEFAULT_SIZE. destruct (8 <? zlen es) eqn:?; lia.
  - intros X. apply (f_equal (@length _)) in X. rewrite repeat_length in X. cbn in X. unfold DEFAULT_SIZE in X. destruct (8 <? zlen es) eqn:?; lia.
Qed.

Lemma send_ok : forall v es tl, W v es tl ->
  exists m v' tl', init_vc_msg v = Ok m /\ init_vc_from_msg m = Ok v' /\ W v' es tl' /\ 16 <= zlen (varr v').
Proof.
  intros v es tl (E & N & S). unfold init_vc_msg. rewrite N. replace (Z.to_nat (zlen es)) with (length es) by (unfold zlen; lia).
  pose proof (msg_loop_ok es v [] tl E) as M. rewrite zlen_nil in M. rewrite M.
  destruct (init_ok es S) as (v' & tl' & R & H & L & _). eexists _, v', tl'. split; [reflexivity|].
  unfold init_vc_from_msg. cbn [mids mcounters]. rewrite pairs_of_ok. cbn [bindr]. auto.
Qed.

(** Comparison. *)
Definition gtb (l1 l2 : list (Z * Z)) : bool := existsb (fun p => snd (snd p) <? snd (fst p)) (combine l1 l2).

Lemma compare_loop_ok : forall E1 v1 v2 P1 P2 E2 tl1 tl2 f g, varr v1 = P1 ++ E1 ++ tl1 -> varr v2 = P2 ++ E2 ++ tl2 ->
  zlen P1 = zlen P2 -> length E1 = length E2 ->
  (map fst E1 = map fst E2 /\ compare_loop (length E1) v1 v2 (zlen P1) f g =
     Ok (let f := f || gtb E1 E2 in let g := g || gtb E2 E1 in
         if f && g then VC_DISJOINT else if f then 1 else if g then -1 else 0)%bool)
  \/ (map fst E1 <> map fst E2 /\ compare_loop (length E1) v1 v2 (zlen P1) f g = Ok VC_INCOMPARABLE).
Proof.
  induction E1 as [|e E1 IH]; intros v1 v2 P1 P2 E2 tl1 tl2 f g H1 H2 HP HL; (destruct E2 as [|s E2]; [|]); try (cbn in HL; lia).
  - left. split; auto. cbn. now rewrite !orb_false_r.
  - cbn [length compare_loop]. rewrite (ent_mid v1 P1 e (E1 ++ tl1)) by auto. cbn [bindr].
    rewrite (ent_mid v2 P2 s (E2 ++ tl2)) by auto. cbn [bindr].
    destruct (fst e =? fst s) eqn:Q; cbn [negb]; [|right; split; auto; cbn; intros X; injection X; lia].
    apply Z.eqb_eq in Q.
    assert (IH' : forall f g, (map fst E1 = map fst E2 /\ compare_loop (length E1) v1 v2 (zlen P1 + 1) f g =
     Ok (let f := f || gtb E1 E2 in let g := g || gtb E2 E1 in
         if f && g then VC_DISJOINT else if f then 1 else if g then -1 else 0)%bool)
      \/ (map fst E1 <> map fst E2 /\ compare_loop (length E1) v1 v2 (zlen P1 + 1) f g = Ok VC_INCOMPARABLE)).
    { intros f' g'. specialize (IH v1 v2 (P1 ++ [e]) (P2 ++ [s]) E2 tl1 tl2 f' g').
      rewrite !zlen_app, !zlen_cons, zlen_nil, Z.add_0_r in IH. apply IH; auto.
      - rewrite H1, <- app_assoc. reflexivity.
      - rewrite H2, <- app_assoc. reflexivity.
      - lia. }
    change (gtb (e :: E1) (s :: E2)) with ((snd s <? snd e) || gtb E1 E2)%bool.
    change (gtb (s :: E2) (e :: E1)) with ((snd e <? snd s) || gtb E2 E1)%bool.
    destruct (snd s <? snd e) eqn:L1; [|destruct (snd e <? snd s) eqn:L2].
    + replace (snd e <? snd s) with false by lia. cbn [orb].
      destruct (IH' true g) as [[M R]|[M R]]; rewrite R; [left|right].
      * split; [cbn; congruence|]. rewrite orb_true_r. reflexivity.
      * split; auto. cbn. intros X. injection X. auto.
    + cbn [orb]. destruct (IH' f true) as [[M R]|[M R]]; rewrite R; [left|right].
      * split; [cbn; congruence|]. rewrite orb_true_r. reflexivity.
      * split; auto. cbn. intros X. injection X. auto.
    + cbn [orb]. destruct (IH' f g) as [[M R]|[M R]]; rewrite R; [left|right].
      * split; [cbn; congruence|]. reflexivity.
      * split; auto. cbn. intros X. injection X. auto.
Qed.

Lemma gtb_leq : forall l1 l2, sorted l1 -> map fst l1 = map fst l2 -> (gtb l1 l2 = false <-> leq (mp l1) (mp l2)).
Proof.
  induction l1 as [|e l1 IH]; intros l2 S M; (destruct l2 as [|s l2]; [|]); try discriminate.
  - split; auto. intros _ id c X. discriminate.
  - cbn in M. injection M as Q M. apply sorted_cons in S. destruct S as [S F].
    change (gtb (e :: l1) (s :: l2)) with ((snd s <? snd e) || gtb l1 l2)%bool.
    rewrite orb_false_iff, IH by auto.
    assert (F2 : forall y, In y l2 -> fst s < fst y).
    { intros y J. apply (in_map fst) in J. rewrite <- M in J. apply in_map_iff in J. destruct J as (x & <- & J).
      specialize (F _ J). lia. }
    split.
    + intros [L H] id c X. rewrite mp_cons in *. rewrite <- Q. destruct (id =? fst e); auto.
      injection X as <-. exists (snd s). split; auto. lia.
    + intros H. split.
      * destruct (H (fst e) (snd e)) as (c' & X & L); [rewrite mp_cons, Z.eqb_refl; auto|].
        rewrite mp_cons, <- Q, Z.eqb_refl in X. injection X as <-. lia.
      * intros id c X. assert (id <> fst e).
        { intros ->. apply mp_in in X; auto. specialize (F _ X). cbn in F. lia. }
        destruct (H id c) as (c' & X' & L); [rewrite mp_cons; replace (id =? fst e) with false by lia; auto|].
        rewrite mp_cons, <- Q in X'. replace (id =? fst e) with false in X' by lia. eauto.
Qed.

Lemma sorted_ext : forall l1 l2 : list Z, StronglySorted Z.lt l1 -> StronglySorted Z.lt l2 ->
  (forall k, In k l1 <-> In k l2) -> l1 = l2.
Proof.
  induction l1 as [|x l1 IH]; intros l2 S1 S2 H.
  - destruct l2 as [|y l2]; auto. destruct (proj2 (H y) (or_introl eq_refl)).
  - destruct l2 as [|y l2]; [destruct (proj1 (H x) (or_introl eq_refl))|].
    apply StronglySorted_inv in S1, S2. destruct S1 as [S1 F1], S2 as [S2 F2]. rewrite Forall_forall in F1, F2.
    assert (x = y).
    { destruct (proj1 (H x) (or_introl eq_refl)) as [|J1]; [auto|].
      destruct (proj2 (H y) (or_introl eq_refl)) as [|J2]; [auto|].
      specialize (F1 _ J2). specialize (F2 _ J1). lia. }
    subst y. f_equal. apply IH; auto. intros k. specialize (H k). cbn in H. split; intros J.
    + pose proof (F1 _ J). destruct (proj1 H (or_intror J)); auto. lia.
    + pose proof (F2 _ J). destruct (proj2 H (or_intror J)); auto. lia.
Qed.

Lemma mp_dom : forall es k, mp es k = None <-> ~ In k (map fst es).
Proof.
  intros es k. split.
  - intros M J. apply in_map_iff in J. destruct J as (e & Q & J). exact (mp_none_inv _ _ _ M J Q).
  - intros H. apply mp_none. intros e J Q. apply H. rewrite <- Q. now apply in_map.
Qed.

Lemma same_nodes_iff : forall es ss, sorted es -> sorted ss -> (map fst es = map fst ss <-> same_nodes (mp es) (mp ss)).
Proof.
  intros es ss S1 S2. unfold same_nodes. split.
  - intros M id. rewrite !mp_dom, M. tauto.
  - intros H. apply sorted_ext; auto. intros k. specialize (H k). rewrite !mp_dom in H.
    destruct (in_dec Z.eq_dec k (map fst es)), (in_dec Z.eq_dec k (map fst ss)); tauto.
Qed.

Lemma compare_ok : forall v es tl v2 ss tl2, W v es tl -> W v2 ss tl2 ->
  exists r, compare_vc (Some v) (Some v2) = Ok r /\ compares (mp es) (mp ss) r.
Proof.
  intros v es tl v2 ss tl2 (E & N & S) (E2 & N2 & S2). unfold compare_vc.
  assert (NS : map fst es <> map fst ss -> compares (mp es) (mp ss) VC_INCOMPARABLE).
  { intros X. apply cmp_incomparable. rewrite <- same_nodes_iff by auto. exact X. }
  destruct (vn v =? vn v2) eqn:Q; cbn [negb].
  - assert (LL : length es = length ss) by (unfold zlen in *; lia).
    replace (Z.to_nat (vn v)) with (length es) by (unfold zlen in *; lia).
    destruct (compare_loop_ok es v v2 [] [] ss tl tl2 false false E E2 eq_refl LL) as [[M R]|[M R]];
      rewrite zlen_nil in R; rewrite R; eexists; (split; [reflexivity|]); auto.
    cbn [orb]. pose proof (gtb_leq es ss S M) as G1. pose proof (gtb_leq ss es S2 (eq_sym M)) as G2.
    assert (SN : same_nodes (mp es) (mp ss)) by (apply same_nodes_iff; auto).
    destruct (gtb es ss), (gtb ss es); cbn.
    + apply cmp_disjoint; auto; [rewrite <- G1|rewrite <- G2]; easy.
    + apply cmp_gt; auto; [rewrite <- G1; easy|apply G2; auto].
    + apply cmp_lt; auto; [apply G1; auto|rewrite <- G2; easy].
    + apply cmp_eq; auto; [apply G1|apply G2]; auto.
  - eexists; (split; [reflexivity|]). apply NS. intros M. apply (f_equal (@length _)) in M. rewrite !map_length in M.
    unfold zlen in *. lia.
Qed.

(** Histories. *)
Definition good (U : list Z) (b : Z) (v : vclock) (es : list (Z * Z)) : Prop :=
  (exists tl, W v es tl) /\ 16 <= zlen (varr v) /\ (forall e, In e es -> In (fst e) U /\ 0 <= snd e <= b).

Lemma good_mono : forall U b b' v es, b <= b' -> good U b v es -> good U b' v es.
Proof. intros U b b' v es L (A & B & C). repeat split; auto; try (apply C; auto). destruct (C e H). lia. Qed.

Lemma good_full : forall U b v es tl, zlen U <= 15 -> good U b v es -> W v es tl -> tl <> [].
Proof.
  intros U b v es tl L (_ & B & C) (E & N & S) ->. rewrite app_nil_r in E. rewrite E in B.
  pose proof (map_incl_len es U S (fun e J => proj1 (C e J))). lia.
Qed.

Lemma compares_ext : forall a b a' b' r, (forall k, a k = a' k) -> (forall k, b k = b' k) -> compares a b r -> compares a' b' r.
Proof.
  intros a b a' b' r HA HB H.
  assert (E1 : same_nodes a b <-> same_nodes a' b').
  { unfold same_nodes. split; intros X id; [rewrite <- HA, <- HB|rewrite HA, HB]; apply X. }
  assert (E2 : leq a b <-> leq a' b').
  { unfold leq. split; intros X id c; [rewrite <- HA|rewrite HA]; intros Y; destruct (X _ _ Y) as (c' & Z & L);
      exists c'; [rewrite <- HB|rewrite HB]; auto. }
  assert (E3 : leq b a <-> leq b' a').
  { unfold leq. split; intros X id c; [rewrite <- HB|rewrite HB]; intros Y; destruct (X _ _ Y) as (c' & Z & L);
      exists c'; [rewrite <- HA|rewrite HA]; auto. }
  destruct H; constructor; tauto.
Qed.

Section H.
  Variable junk : Z -> Z * Z.
  Variable U : list Z.
  Hypothesis HU : zlen U <= 15.

  Definition op_ok (o : op) : Prop :=
    match op_id o with Some id => In id U | None => True end
    /\ match o with Add _ _ c => c <= 2 ^ 30 | _ => True end.

  Lemma exec_ok : forall s L b o, (forall i, good U b (s i) (L i)) -> op_ok o -> 2 ^ 30 <= b < 2 ^ 31 - 1 ->
    exists s' L' r m', exec junk s o = Ok (s', r) /\ (forall i, good U (b + 1) (s' i) (L' i))
      /\ step (fun i => mp (L i)) o r m' /\ forall i k, m' i k = mp (L' i) k.
  Proof.
    intros s L b o G [OI OC] B.
    assert (G1 : forall i, good U (b + 1) (s i) (L i)) by (intros i; eapply good_mono; [|apply G]; lia).
    assert (UPD : forall i v es m, good U (b + 1) v es -> (forall k, m k = mp es k) ->
      (forall j, good U (b + 1) (upd s i v j) (upd L i es j)) /\
      (forall j k, upd (fun i => mp (L i)) i m j k = mp (upd L i es j) k)).
    { intros i v es m GV GM. split; intros j; unfold upd; destruct (Nat.eqb j i); auto. }
    destruct o as [i id|i id|i id c|i id|i id|i j|i j|i j|i j|i j]; cbn [op_id] in OI; cbn [exec].
    - unfold init_local_vc_id. destruct (init_ok [(id, 0)]) as (v & tl & R & H & LE & _); [apply sorted_cons; split; [constructor|easy]|].
      rewrite R. cbn [bindr].
      destruct (UPD i v [(id, 0)] (set empty id (Some 0))) as [U1 U2].
      { split; [eauto|]. split; auto. intros e [<-|[]]. cbn. split; auto. lia. }
      { intros k. rewrite mp_cons. cbn [fst snd]. unfold set. destruct (k =? id); auto. }
      eexists _, _, _, _. split; [reflexivity|]. split; [exact U1|]. split; [constructor|exact U2].
    - destruct (G i) as ((tl & H) & LE & C). pose proof (increment_ok (s i) (L i) tl id H) as IO.
      destruct (mp (L i) id) as [c|] eqn:M.
      + assert (CB : 0 <= c <= b) by (apply mp_in in M; [|apply H]; apply (C _ M)).
        destruct (IO ltac:(lia)) as (v & es & R & H' & MF & MP). rewrite R. cbn [bindr].
        destruct (UPD i v es (set (mp (L i)) id (Some (c + 1)))) as [U1 U2].
        { split; [eauto|]. split.
          - destruct H as (E & _), H' as (E' & _). rewrite E', zlen_app. rewrite E, zlen_app in LE.
            apply (f_equal (@length _)) in MF. rewrite !map_length in MF. unfold zlen in *. lia.
          - intros [k x] J. cbn [fst snd]. apply mp_in in J; [|apply H']. rewrite MP in J. unfold set in J. destruct (k =? id) eqn:K.
            + injection J as <-. apply Z.eqb_eq in K. subst. split; auto. lia.
            + apply mp_in in J; [|apply H]. destruct (C _ J). cbn in *. split; auto. lia. }
        { auto. }
        eexists _, _, _, _. split; [reflexivity|]. split; [exact U1|]. split; [exact (st_incr (fun i => mp (L i)) i id c M)|exact U2].
      + rewrite IO. cbn [bindr]. exists (upd s i (s i)), L, (-1), (fun i => mp (L i)). split; [reflexivity|]. split.
        * intros j. unfold upd. destruct (Nat.eqb_spec j i); subst; auto.
        * split; [now constructor|reflexivity].
    - destruct (G i) as ((tl & H) & LE & C). pose proof (good_full U b _ _ tl HU (G i) H) as NT.
      pose proof (add_ok junk (s i) (L i) tl id c H (or_intror NT)) as AO.
      destruct (mp (L i) id) as [x|] eqn:M.
      + rewrite AO. cbn [bindr]. exists (upd s i (s i)), L, (-1), (fun i => mp (L i)). split; [reflexivity|]. split.
        * intros j. unfold upd. destruct (Nat.eqb_spec j i); subst; auto.
        * split; [apply st_add_old; congruence|reflexivity].
      + destruct AO as (v & es & tl' & R & H' & LE' & IN & _ & MP). rewrite R. cbn [bindr].
        destruct (UPD i v es (set (mp (L i)) id (Some (Z.max c 0)))) as [U1 U2].
        { split; [eauto|]. split; [lia|]. intros e J. apply IN in J. destruct J as [->|J]; cbn [fst snd]; [split; auto; lia|].
          destruct (C _ J). split; auto. lia. }
        { auto. }
        eexists _, _, _, _. split; [reflexivity|]. split; [exact U1|]. split; [now constructor|exact U2].
    - destruct (G i) as ((tl & H) & LE & C). rewrite (get_ok (s i) (L i) tl id H). cbn [bindr].
      eexists _, L, _, _. split; [reflexivity|]. split; auto. split; [|intros; reflexivity].
      destruct (mp (L i) id) as [x|] eqn:M; now constructor.
    - destruct (G i) as ((tl & H) & LE & C). pose proof (good_full U b _ _ tl HU (G i) H) as NT.
      pose proof (remove_ok (s i) (L i) tl id H NT) as RO.
      destruct (mp (L i) id) as [x|] eqn:M.
      + destruct RO as (v & es & tl' & R & H' & LE' & IN & MP). rewrite R. cbn [bindr].
        destruct (UPD i v es (set (mp (L i)) id None)) as [U1 U2].
        { split; [eauto|]. split; [lia|]. intros e J. apply IN in J. destruct (C _ J). split; auto. lia. }
        { auto. }
        eexists _, _, _, _. split; [reflexivity|]. split; [exact U1|]. split; [apply st_remove; congruence|exact U2].
      + rewrite RO. cbn [bindr]. exists (upd s i (s i)), L, (-1), (fun i => mp (L i)). split; [reflexivity|]. split.
        * intros j. unfold upd. destruct (Nat.eqb_spec j i); subst; auto.
        * split; [now constructor|reflexivity].
    - destruct (G i) as ((tl & H) & LE & C). destruct (G j) as ((tl2 & H2) & LE2 & C2).
      destruct (update_ok junk (s i) (L i) tl (s j) (L j) tl2 U H H2) as (v & es & tl' & R & H' & LE' & MP & IN).
      { intros e J. apply (C e J). } { intros e J. apply (C2 e J). } { lia. } { intros e J. destruct (C2 e J). lia. }
      rewrite R. cbn [bindr].
      destruct (UPD i v es (join (mp (L i)) (mp (L j)))) as [U1 U2].
      { split; [eauto|]. split; [lia|]. intros e J. apply IN in J. destruct J as [J|J]; [destruct (C _ J)|destruct (C2 _ J)]; split; auto; lia. }
      { auto. }
      eexists _, _, _, _. split; [reflexivity|]. split; [exact U1|]. split; [constructor|exact U2].
    - destruct (G i) as ((tl & H) & LE & C). destruct (G j) as ((tl2 & H2) & LE2 & C2).
      destruct (replace_ok junk (s i) (L i) tl (s j) (L j) tl2 H H2) as (v & tl' & R & H' & LE').
      rewrite R. cbn [bindr].
      destruct (UPD i v (L j) (mp (L j))) as [U1 U2]; auto.
      { split; [eauto|]. split; [lia|]. intros e J. destruct (C2 _ J). split; auto; lia. }
      eexists _, _, _, _. split; [reflexivity|]. split; [exact U1|]. split; [constructor|exact U2].
    - destruct (G j) as ((tl2 & H2) & LE2 & C2).
      destruct (copy_ok junk (s j) (L j) tl2 H2) as (v & tl' & R & H' & LE').
      rewrite R. cbn [bindr].
      destruct (UPD i v (L j) (mp (L j))) as [U1 U2]; auto.
      { split; [eauto|]. split; [lia|]. intros e J. destruct (C2 _ J). split; auto; lia. }
      eexists _, _, _, _. split; [reflexivity|]. split; [exact U1|]. split; [constructor|exact U2].
    - destruct (G j) as ((tl2 & H2) & LE2 & C2).
      destruct (send_ok (s j) (L j) tl2 H2) as (m & v & tl' & R & R2 & H' & LE').
      rewrite R. cbn [bindr]. rewrite R2. cbn [bindr].
      destruct (UPD i v (L j) (mp (L j))) as [U1 U2]; auto.
      { split; [eauto|]. split; [lia|]. intros e J. destruct (C2 _ J). split; auto; lia. }
      eexists _, _, _, _. split; [reflexivity|]. split; [exact U1|]. split; [constructor|exact U2].
    - destruct (G i) as ((tl & H) & LE & C). destruct (G j) as ((tl2 & H2) & LE2 & C2).
      destruct (compare_ok (s i) (L i) tl (s j) (L j) tl2 H H2) as (r & R & CM). rewrite R. cbn [bindr].
      eexists _, L, _, _. split; [reflexivity|]. split; auto. split; [now constructor|reflexivity].
  Qed.

  Lemma exec_all_ok : forall os s L b, (forall i, good U b (s i) (L i)) -> (forall o, In o os -> op_ok o) ->
    2 ^ 30 <= b -> b + zlen os < 2 ^ 31 ->
    exists rs, exec_all junk s os = Ok rs /\ steps (fun i => mp (L i)) os rs.
  Proof.
    induction os as [|o os IH]; intros s L b G OK B1 B2; cbn [exec_all]; [exists []; split; auto; constructor|].
    rewrite zlen_cons in B2. pose proof (zlen_nn _ os).
    destruct (exec_ok s L b o G (OK o (or_introl eq_refl)) ltac:(lia)) as (s' & L' & r & m' & R & G' & ST & M).
    rewrite R. cbn [bindr fst snd].
    destruct (IH s' L' (b + 1) G') as (rs & R2 & SS); [intros; apply OK; now right|lia|lia|].
    rewrite R2. cbn [bindr]. eexists. split; [reflexivity|]. eapply sts_cons; [exact ST| |exact SS]. exact M.
  Qed.
End H.

(** Representation in the specification. *)
Lemma sorted_nth : forall es, sorted es <->
  (forall i j x y, (i < j)%nat -> nth_error es i = Some x -> nth_error es j = Some y -> fst x < fst y).
Proof.
  induction es as [|e es IH].
  - split; [intros _ [] ? ? ? ? ?; discriminate|intros; constructor].
  - rewrite sorted_cons, IH. split.
    + intros [H F] [|i] [|j] x y L X Y; try lia; cbn in X, Y.
      * injection X as ->. apply nth_error_In in Y. auto.
      * eapply H; [|exact X|exact Y]. lia.
    + intros H. split.
      * intros i j x y L X Y. apply (H (S i) (S j)); auto. lia.
      * intros y J. apply In_nth_error in J. destruct J as [n J]. apply (H O (S n)); auto. lia.
Qed.

Lemma rep_W : forall v m, rep v m -> exists es tl, W v es tl /\ entries v = es /\ forall k, m k = mp es k.
Proof.
  intros v m (B & S & H). exists (entries v), (skipn (Z.to_nat (vn v)) (varr v)).
  assert (SS : sorted (entries v)) by (apply sorted_nth; auto).
  split; [|split; auto].
  - split; [unfold entries; now rewrite firstn_skipn|]. split; auto.
    unfold entries, zlen, capacity in *. unfold zlen in B. rewrite firstn_length. lia.
  - intros k. destruct (m k) as [c|] eqn:M.
    + apply H in M. symmetry. now apply mp_in.
    + destruct (mp (entries v) k) as [c|] eqn:Q; auto. apply mp_in in Q; auto. apply H in Q. congruence.
Qed.

Lemma W_rep : forall v es tl m, W v es tl -> (forall k, m k = mp es k) -> rep v m.
Proof.
  intros v es tl m (E & N & S) H.
  assert (EN : entries v = es).
  { unfold entries. rewrite N, E. unfold zlen. rewrite Nat2Z.id, firstn_app, firstn_all, Nat.sub_diag. apply app_nil_r. }
  split; [|split].
  - unfold capacity. rewrite N, E, zlen_app. pose proof (zlen_nn _ tl). pose proof (zlen_nn _ es). lia.
  - rewrite EN. now apply sorted_nth.
  - intros id c. rewrite EN, H. symmetry. now apply mp_in.
Qed.

(** Sorting. *)
Lemma ins_ok : forall l e, sorted l -> (forall x, In x l -> fst x <> fst e) ->
  (forall x, In x l -> - 2 ^ 31 <= fst e - fst x < 2 ^ 31) ->
  exists l', ins e l = Ok l' /\ sorted l' /\ forall x, In x l' <-> In x (e :: l).
Proof.
  induction l as [|x l IH]; intros e S D B; cbn [ins].
  - eexists. split; [reflexivity|]. split; [apply sorted_cons; split; easy|tauto].
  - unfold cmpfunc. pose proof (B x (or_introl eq_refl)). pose proof (D x (or_introl eq_refl)).
    replace ((- 2 ^ 31 <=? fst e - fst x) && (fst e - fst x <? 2 ^ 31))%bool with true by lia. cbn [bindr].
    pose proof S as S'. apply sorted_cons in S. destruct S as [S F].
    destruct (fst e - fst x <=? 0) eqn:L.
    + eexists. split; [reflexivity|]. split; [|tauto]. apply sorted_cons. split; auto.
      intros y [<-|J]; [lia|]. specialize (F _ J). lia.
    + destruct (IH e S) as (l' & R & S2 & I); [intros; apply D; now right|intros; apply B; now right|].
      rewrite R. cbn [bindr]. eexists. split; [reflexivity|]. split.
      * apply sorted_cons. split; auto. intros y J. apply I in J. destruct J as [<-|J]; [lia|auto].
      * intros y. cbn [In]. rewrite I. cbn [In]. tauto.
Qed.

Lemma qsort_ok : forall l, NoDup (map fst l) -> (forall x y, In x l -> In y l -> - 2 ^ 31 <= fst x - fst y < 2 ^ 31) ->
  exists l', qsort l = Ok l' /\ sorted l' /\ length l' = length l /\ forall x, In x l' <-> In x l.
Proof.
  induction l as [|e l IH]; intros N B; cbn [qsort].
  - exists []. repeat split; auto. constructor.
  - cbn in N. apply NoDup_cons_iff in N. destruct N as [N1 N2].
    destruct (IH N2) as (l1 & R1 & S1 & L1 & I1); [intros; apply B; now right|]. rewrite R1. cbn [bindr].
    destruct (ins_ok l1 e S1) as (l2 & R2 & S2 & I2).
    { intros x J Q. apply I1 in J. apply N1. rewrite <- Q. now apply in_map. }
    { intros x J. apply I1 in J. apply B; [now left|now right]. }
    exists l2. split; auto. split; auto. split.
    + clear - R2 L1. revert l2 R2. cbn [length]. rewrite <- L1. clear L1. induction l1 as [|x l1 IH]; intros l2 R; cbn [ins] in R.
      * injection R as <-. reflexivity.
      * unfold cmpfunc in R. destruct (_ && _)%bool; cbn [bindr] in R; [|discriminate].
        destruct (_ <=? 0); [injection R as <-; reflexivity|].
        destruct (ins e l1) as [t| | |]; cbn [bindr] in R; try discriminate. injection R as <-. cbn. now rewrite (IH t).
    + intros x. rewrite I2. cbn [In]. now rewrite I1.
Qed.

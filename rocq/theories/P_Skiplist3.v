(** Proofs about the skip list: every operation, in terms of the map. *)
From Verif Require Import Base M_Skiplist S_Skiplist P_Skiplist P_Skiplist2.
Require Import Sorted.

Definition mp (es : list ent) (k : Z) : option Z := option_map ev (find (fun e => ek e =? k) es).

(** All keys within a window of 2^31. *)
Definition inw (lo k : Z) : Prop := lo <= k < lo + 2 ^ 31.

Lemma cmp_exact : forall lo a b, inw lo a -> inw lo b -> long_cmp a b = a - b.
Proof.
  unfold inw, long_cmp, wrapS. intros lo a b A B. change (32 - 1) with 31.
  change (2 ^ 32) with (2 ^ 31 + 2 ^ 31). rewrite Z.mod_small; lia.
Qed.

Lemma sorted_split : forall es k, StronglySorted Z.lt (map ek es) -> exists A B, es = A ++ B
  /\ (forall e, In e A -> ek e < k) /\ (forall e, In e B -> k <= ek e).
Proof.
  induction es as [|x es IH]; intros k S; [exists [], []; repeat split; intros ? []|].
  cbn [map] in S. apply StronglySorted_inv in S. destruct S as [S F].
  destruct (Z_lt_ge_dec (ek x) k).
  - destruct (IH k S) as (A & B & -> & HA & HB). exists (x :: A), B. repeat split; auto.
    intros e [<-|J]; auto.
  - exists [], (x :: es). repeat split; [intros ? []|]. intros e [<-|J]; [lia|].
    rewrite Forall_forall in F. specialize (F (ek e) (in_map ek _ _ J)). lia.
Qed.

Lemma mp_app : forall A B k, mp (A ++ B) k = match mp A k with Some v => Some v | None => mp B k end.
Proof. intros. unfold mp. rewrite find_app. destruct (find _ A); easy. Qed.

Lemma mp_none : forall A k, (forall e, In e A -> ek e <> k) -> mp A k = None.
Proof. intros. unfold mp. rewrite find_none_iff; auto. intros x J. specialize (H x J). lia. Qed.

Lemma mp_cons : forall e B k, mp (e :: B) k = if ek e =? k then Some (ev e) else mp B k.
Proof. intros. unfold mp. cbn [find]. destruct (ek e =? k); easy. Qed.

Lemma mp_in : forall es k v, StronglySorted Z.lt (map ek es) ->
  (mp es k = Some v <-> exists e, In e es /\ ek e = k /\ ev e = v).
Proof.
  intros es k v S. unfold mp. split.
  - intros H. destruct (find _ es) as [e|] eqn:E; [|discriminate]. injection H as <-.
    apply find_some in E. destruct E. exists e. repeat split; auto. lia.
  - intros (e & J & <- & <-). induction es as [|x es IH]; [easy|]. cbn [map] in S.
    apply StronglySorted_inv in S. destruct S as [S F]. cbn [find].
    destruct J as [->|J]; [now rewrite Z.eqb_refl|].
    rewrite Forall_forall in F. specialize (F (ek e) (in_map ek _ _ J)).
    replace (ek x =? ek e) with false by lia. auto.
Qed.

Lemma sorted_mid : forall A e B, StronglySorted Z.lt (map ek A) -> StronglySorted Z.lt (map ek B) ->
  (forall x, In x A -> ek x < ek e) -> (forall x, In x B -> ek e < ek x) ->
  StronglySorted Z.lt (map ek (A ++ e :: B)).
Proof.
  induction A as [|x A IH]; intros e B SA SB HA HB.
  - cbn. constructor; auto. apply Forall_forall. intros k J. apply in_map_iff in J. destruct J as (y & <- & J). auto.
  - cbn [map app] in *. apply StronglySorted_inv in SA. destruct SA as [SA F]. constructor.
    + apply IH; auto. intros; apply HA; now right.
    + apply Forall_forall. intros k J. apply in_map_iff in J. destruct J as (y & <- & J).
      apply in_app_or in J. rewrite Forall_forall in F. pose proof (HA x (or_introl eq_refl)).
      destruct J as [J|[<-|J]]; [apply F; now apply in_map|auto|]. specialize (HB y J). lia.
Qed.

Lemma sorted_app : forall A B, StronglySorted Z.lt (map ek (A ++ B)) ->
  StronglySorted Z.lt (map ek A) /\ StronglySorted Z.lt (map ek B)
  /\ forall x y, In x A -> In y B -> ek x < ek y.
Proof.
  induction A as [|a A IH]; intros B S; [repeat split; auto; [constructor|intros ? ? []]|].
  cbn [map app] in S. apply StronglySorted_inv in S. destruct S as [S F].
  destruct (IH B S) as (A1 & A2 & A3). rewrite Forall_forall in F. repeat split; auto.
  - cbn. constructor; auto. apply Forall_forall. intros k J. apply F. rewrite map_app. apply in_or_app. now left.
  - intros x y [<-|J] J2; auto. apply F. rewrite map_app. apply in_or_app. right. now apply in_map.
Qed.

Lemma sorted_join : forall A B, StronglySorted Z.lt (map ek A) -> StronglySorted Z.lt (map ek B) ->
  (forall x y, In x A -> In y B -> ek x < ek y) -> StronglySorted Z.lt (map ek (A ++ B)).
Proof.
  induction A as [|a A IH]; intros B SA SB H; auto. cbn [map app] in *.
  apply StronglySorted_inv in SA. destruct SA as [SA F]. constructor.
  - apply IH; auto. intros; apply H; auto. now right.
  - rewrite map_app. apply Forall_app. split; auto. apply Forall_forall. intros k J.
    apply in_map_iff in J. destruct J as (y & <- & J). apply H; auto. now left.
Qed.

(** Replacing an entry by one at the same place. *)
Lemma ft_replace : forall j P y y' Q, ea y = ea y' -> eh y = eh y' -> ft j (P ++ y :: Q) = ft j (P ++ y' :: Q).
Proof.
  intros j P y y' Q E1 E2. unfold ft. rewrite !find_app. destruct (find (tall j) P); auto.
  cbn [find]. unfold tall at 1 3. rewrite E2. destruct (Nat.ltb j (eh y')); cbn; congruence.
Qed.

Section Ops.
  Variable lo : Z.
  Definition ok (l : slist) (hd : ent) (es : list ent) : Prop :=
    Inv l hd es /\ (forall e, In e es -> inw lo (ek e) /\ ek e <> LONG_MAX).

  Lemma create_ok : forall junk, ok (create junk) (Ent HDR LONG_MAX junk MAX_LEVEL) [].
  Proof.
    intros. split; [|intros ? []]. constructor; cbn; auto; try lia.
    - intros P z Q E. destruct P as [|p P]; cbn in E; injection E as <- E.
      + subst. reflexivity.
      + now destruct P.
    - constructor; [intros []|constructor].
    - intros e [<-|[]]. cbn. unfold HDR. lia.
    - unfold MAX_LEVEL. lia.
    - constructor.
  Qed.

  Section One.
    Variables (l : slist) (hd : ent) (es : list ent).
    Hypothesis O : ok l hd es.
    Variable k : Z.
    Hypothesis K : inw lo k.

    Lemma lt_test : forall A B, es = A ++ B -> (forall e, In e A -> ek e < k) -> (forall e, In e B -> k <= ek e) ->
      (forall e, In e A -> (long_cmp (ek e) k <? 0) = true) /\ (forall e, In e B -> (long_cmp (ek e) k <? 0) = false).
    Proof.
      intros A B E HA HB. destruct O as [_ W]. split; intros e J.
      - rewrite (cmp_exact lo); auto; [specialize (HA e J); lia|]. apply W. rewrite E. apply in_or_app; auto.
      - rewrite (cmp_exact lo); auto; [specialize (HB e J); lia|]. apply W. rewrite E. apply in_or_app; auto.
    Qed.

    Lemma le_test : forall A B, es = A ++ B -> (forall e, In e A -> ek e < k + 1) -> (forall e, In e B -> k + 1 <= ek e) ->
      (forall e, In e A -> (long_cmp (ek e) k <=? 0) = true) /\ (forall e, In e B -> (long_cmp (ek e) k <=? 0) = false).
    Proof.
      intros A B E HA HB. destruct O as [_ W]. split; intros e J.
      - rewrite (cmp_exact lo); auto; [specialize (HA e J); lia|]. apply W. rewrite E. apply in_or_app; auto.
      - rewrite (cmp_exact lo); auto; [specialize (HB e J); lia|]. apply W. rewrite E. apply in_or_app; auto.
    Qed.

    Lemma lt_found : exists A B, es = A ++ B /\ (forall e, In e A -> ek e < k) /\ (forall e, In e B -> k <= ek e)
      /\ descend l (fun k' => long_cmp k' k <? 0) (slevel l) HDR
         = Ok (ea (last A hd), upto hd A (S (slevel l)))
      /\ fwd l (ea (last A hd)) 0 = Ok (option_map ea (hd_error B))
      /\ exists P, hd :: A = P ++ [last A hd].
    Proof.
      destruct O as [I W]. destruct (sorted_split es k (i_sort _ _ _ I)) as (A & B & E & HA & HB).
      exists A, B. split; auto. split; auto. split; auto.
      destruct (lt_test A B E HA HB) as [TA TB].
      pose proof (descend_top l hd es I (fun k' => long_cmp k' k <? 0) A B E TA TB) as D.
      destruct (found_at l hd es I (fun k' => long_cmp k' k <? 0) A B E TA TB) as (P & E2 & F).
      assert (LZ : fold_left (pick 0) A hd = last A hd).
      { apply (last_zero l hd es I). intros. rewrite E. apply in_or_app; auto. }
      rewrite LZ in *. eauto.
    Qed.

    Lemma le_found : exists A B, es = A ++ B /\ (forall e, In e A -> ek e <= k) /\ (forall e, In e B -> k < ek e)
      /\ descend l (fun k' => long_cmp k' k <=? 0) (slevel l) HDR
         = Ok (ea (last A hd), upto hd A (S (slevel l)))
      /\ exists P, hd :: A = P ++ [last A hd].
    Proof.
      destruct O as [I W]. destruct (sorted_split es (k + 1) (i_sort _ _ _ I)) as (A & B & E & HA & HB).
      exists A, B. split; auto. split; [intros e J; specialize (HA e J); lia|].
      split; [intros e J; specialize (HB e J); lia|].
      destruct (le_test A B E HA HB) as [TA TB].
      pose proof (descend_top l hd es I (fun k' => long_cmp k' k <=? 0) A B E TA TB) as D.
      destruct (found_at l hd es I (fun k' => long_cmp k' k <=? 0) A B E TA TB) as (P & E2 & F).
      assert (LZ : fold_left (pick 0) A hd = last A hd).
      { apply (last_zero l hd es I). intros. rewrite E. apply in_or_app; auto. }
      rewrite LZ in *. eauto.
    Qed.

    Lemma node_in : forall e, In e (hd :: es) -> exists f, node l (ea e) = Ok (SNode (ek e) (ev e) f).
    Proof.
      intros e J. destruct O as [I W]. apply in_split in J. destruct J as (P & Q & E).
      rewrite (node_at l hd es I _ _ _ E). unfold mknode. eauto.
    Qed.

    Lemma last_case : forall (A : list ent) P, hd :: A = P ++ [last A hd] -> (A = [] /\ last A hd = hd) \/ In (last A hd) A.
    Proof.
      intros A P E. destruct A as [|a A]; [now left|]. right.
      destruct P as [|p P]; cbn [app] in E; [discriminate|]. injection E as _ E. rewrite E at 2. apply in_elt.
    Qed.

    Lemma search_ok : k <> LONG_MAX -> exists p, search l k = Ok p /\
      match p with
      | Some a => exists e, In e es /\ ea e = a /\ ek e = k
      | None => forall e, In e es -> ek e <> k
      end.
    Proof.
      intros NM. destruct le_found as (A & B & E & HA & HB & D & P & EP).
      unfold search. rewrite D. cbn [bindr].
      assert (J : In (last A hd) (hd :: es)).
      { rewrite E. change (hd :: A ++ B) with ((hd :: A) ++ B). apply in_or_app. left. rewrite EP. apply in_elt. }
      destruct (node_in _ J) as (f & EN). rewrite EN. cbn [bindr skey].
      destruct O as [I W]. destruct (i_hd _ _ _ I) as (H1 & H2 & H3).
      assert (BN : forall e, In e B -> ek e <> k) by (intros e X; specialize (HB e X); lia).
      destruct (last_case A P EP) as [[-> EL]|IL].
      - rewrite EL, H2, Z.eqb_refl. cbn [negb andb]. exists None. split; auto. rewrite E. exact BN.
      - assert (IE : In (last A hd) es) by (rewrite E; apply in_or_app; auto).
        destruct (W _ IE) as [W1 W2]. replace (ek (last A hd) =? LONG_MAX) with false by lia.
        cbn [negb andb]. rewrite (cmp_exact lo) by auto.
        destruct (k - ek (last A hd) =? 0) eqn:Q.
        + eexists. split; [reflexivity|]. exists (last A hd). repeat split; auto. lia.
        + exists None. split; auto. intros e X. rewrite E in X. apply in_app_or in X. destruct X as [X|X]; auto.
          (* earlier ones are smaller than the last *)
          pose proof (i_sort _ _ _ I) as S. rewrite E in S. apply sorted_app in S. destruct S as (S & _ & _).
          pose proof (HA _ IL) as LL.
          assert (Z1 : exists A0, A = A0 ++ [last A hd]).
          { destruct P as [|p P]; cbn [app] in EP; [injection EP as X1 X2; subst; easy|].
            injection EP as _ EP. exists P. exact EP. }
          destruct Z1 as (A0 & Z1). rewrite Z1 in X. apply in_app_or in X. destruct X as [X|[X|[]]].
          * rewrite Z1 in S. apply sorted_app in S. destruct S as (_ & _ & S). 
            specialize (S e (last A hd) X (or_introl eq_refl)). lia.
          * rewrite X in Q. lia.
    Qed.

    Lemma higher_ok : exists p, search_higher l k = Ok p /\
      match p with
      | Some a => exists e, In e es /\ ea e = a /\ k <= ek e /\ forall x, In x es -> k <= ek x -> ek e <= ek x
      | None => forall e, In e es -> ek e < k
      end.
    Proof.
      destruct lt_found as (A & B & E & HA & HB & D & F & P & EP).
      unfold search_higher. rewrite D. cbn [bindr]. rewrite F. eexists. split; [reflexivity|].
      destruct B as [|e B]; cbn [hd_error option_map].
      - intros e J. apply HA. rewrite E, app_nil_r in J. exact J.
      - exists e. split; [rewrite E; apply in_elt|]. split; auto. split; [apply HB; now left|].
        intros x J X. rewrite E in J. apply in_app_or in J. destruct J as [J|[<-|J]]; [specialize (HA x J); lia|lia|].
        destruct O as [I W]. pose proof (i_sort _ _ _ I) as S. rewrite E in S. apply sorted_app in S.
        destruct S as (_ & S & _). cbn [map] in S. apply StronglySorted_inv in S. destruct S as [_ S].
        rewrite Forall_forall in S. specialize (S (ek x) (in_map ek _ _ J)). lia.
    Qed.

    Lemma lower_ok : exists e, search_lower l k = Ok (ea e) /\
      ((e = hd /\ forall x, In x es -> k < ek x) \/
       (In e es /\ ek e <= k /\ forall x, In x es -> ek x <= k -> ek x <= ek e)).
    Proof.
      destruct le_found as (A & B & E & HA & HB & D & P & EP).
      unfold search_lower. rewrite D. cbn [bindr]. exists (last A hd). split; auto.
      destruct (last_case A P EP) as [[-> EL]|IL].
      - left. split; auto. intros x J. apply HB. rewrite E in J. exact J.
      - right. split; [rewrite E; apply in_or_app; auto|]. split; [now apply HA|].
        intros x J X. rewrite E in J. apply in_app_or in J. destruct J as [J|J]; [|specialize (HB x J); lia].
        destruct O as [I W]. pose proof (i_sort _ _ _ I) as S. rewrite E in S. apply sorted_app in S. destruct S as (S & _ & _).
        assert (Z1 : exists A0, A = A0 ++ [last A hd]).
        { destruct P as [|p P]; cbn [app] in EP; [injection EP as X1 X2; subst; easy|].
          injection EP as _ EP. exists P. exact EP. }
        destruct Z1 as (A0 & Z1). rewrite Z1 in J. apply in_app_or in J. destruct J as [J|[J|[]]].
        + rewrite Z1 in S. apply sorted_app in S. destruct S as (_ & _ & S).
          specialize (S x (last A hd) J (or_introl eq_refl)). lia.
        + rewrite <- J. lia.
    Qed.
  End One.

  Lemma rand_lt : forall seed, (fst (rand_level seed) < MAX_LEVEL)%nat.
  Proof.
    intros. unfold rand_level, MAX_LEVEL. cbn [fst].
    pose proof (Z.mod_pos_bound (Z.land (Z.shiftr (fastrand seed) 16) 32767) 6). lia.
  Qed.

  Lemma fresh_ok : forall l hd A B k v seed, Inv l hd (A ++ B) ->
    (forall e, In e (A ++ B) -> inw lo (ek e) /\ ek e <> LONG_MAX) -> inw lo k -> k <> LONG_MAX ->
    (forall e, In e A -> ek e < k) -> (forall e, In e B -> k < ek e) ->
    exists l' seed' es', insert_new l k v (upto hd A (S (slevel l))) seed = Ok (l', seed') /\ ok l' hd es'
      /\ forall k', mp es' k' = if k' =? k then Some v else mp (A ++ B) k'.
  Proof.
    intros l hd A B k v seed I W K NM HA HB. destruct (i_hd _ _ _ I) as (H1 & H2 & H3).
    pose proof (rand_lt seed) as RL. unfold insert_new.
    destruct (rand_level seed) as [level seed1]. cbn [fst] in RL.
    set (e := Ent (snext l) k v (S level)).
    set (lv := if Nat.ltb (slevel l) level then level else slevel l).
    assert (LV : (slevel l <= lv)%nat /\ (level <= lv)%nat /\ (lv < MAX_LEVEL)%nat).
    { pose proof (i_lv _ _ _ I). unfold lv. destruct (Nat.ltb_spec (slevel l) level); lia. }
    set (upd := if Nat.ltb (slevel l) level then _ else _).
    assert (HU : forall j, (j < eh e)%nat -> nth_error upd j = Some (ea (fold_left (pick j) A hd))).
    { intros j J. cbn [eh e] in J.
      assert (U1 : (j < S (slevel l))%nat -> nth_error (upto hd A (S (slevel l))) j = Some (ea (fold_left (pick j) A hd))).
      { intros J2. unfold upto. rewrite nth_error_map.
        rewrite (nth_error_nth' (seq 0 (S (slevel l))) 0%nat) by (rewrite seq_length; lia).
        rewrite seq_nth by lia. easy. }
      unfold upd. destruct (Nat.ltb_spec (slevel l) level); [|apply U1; lia].
      destruct (Nat.ltb_spec j (S (slevel l))).
      - rewrite nth_error_app1; [apply U1; lia|]. unfold upto. rewrite map_length, seq_length. lia.
      - rewrite nth_error_app2; unfold upto; rewrite map_length, seq_length; [|lia].
        rewrite (nth_error_nth' _ HDR) by (rewrite repeat_length; lia). rewrite nth_repeat.
        rewrite pick_short; [congruence|]. intros x X. unfold tall. apply Nat.ltb_ge.
        pose proof (i_h _ _ _ I x). assert (In x (A ++ B)) by (apply in_or_app; auto). lia. }
    assert (NE : forall x, In x (hd :: A ++ B) -> ea x <> snext l).
    { intros x X. pose proof (i_lt _ _ _ I x X). lia. }
    assert (ND : NoDup (map ea (hd :: A ++ e :: B))).
    { change (hd :: A ++ e :: B) with ((hd :: A) ++ e :: B). rewrite map_app. cbn [map].
      pose proof (i_nodup _ _ _ I) as N. change (hd :: A ++ B) with ((hd :: A) ++ B) in N. rewrite map_app in N.
      apply (NoDup_Add (a := ea e) (l := map ea (hd :: A) ++ map ea B)); [apply Add_app|].
      split; auto. rewrite <- map_app. intros X. apply in_map_iff in X. destruct X as (x & X1 & X2).
      apply (NE x); auto. }
    set (l2 := put_node _ (snext l) _).
    destruct (chain_ok hd e A B ND H3 ltac:(cbn [eh e]; lia) (S level) 0 l2 upd) as
      (l3 & C1 & C2 & C3 & C4 & C5); auto.
    { apply St_init; auto.
      - intros P z Q E. unfold l2. rewrite put_other.
        + cbn [sheap]. apply (i_heap _ _ _ I P z Q E).
        + apply NE. rewrite E. apply in_elt.
      - change (ea e) with (snext l). unfold l2. rewrite put_same. unfold mknode. cbn [ek ev eh e]. do 2 f_equal.
        clear. generalize 0%nat. induction (S level); intros; cbn; auto. f_equal. apply IHn. }
    change (ea e) with (snext l) in C1. cbn [bindr]. rewrite C1. cbn [bindr].
    eexists _, _, (A ++ e :: B). split; [reflexivity|]. split; [split|].
    - constructor; cbn [sheap slevel sno snext]; auto.
      + intros P z Q E. eapply (St_done hd e A B ND); try exact C2; try exact E; auto; cbn [eh e]; lia.
      + rewrite C5. unfold l2. cbn [put_node snext]. intros x [<-|J].
        * pose proof (i_lt _ _ _ I hd (or_introl eq_refl)). lia.
        * apply in_app_or in J. destruct J as [J|[<-|J]].
          -- pose proof (i_lt _ _ _ I x). assert (In x (hd :: A ++ B)) by (right; apply in_or_app; auto). lia.
          -- cbn. lia.
          -- pose proof (i_lt _ _ _ I x). assert (In x (hd :: A ++ B)) by (right; apply in_or_app; auto). lia.
      + rewrite C3. unfold l2. cbn [put_node slevel]. intros x J.
        apply in_app_or in J. destruct J as [J|[<-|J]].
        * pose proof (i_h _ _ _ I x). assert (In x (A ++ B)) by (apply in_or_app; auto). lia.
        * cbn. lia.
        * pose proof (i_h _ _ _ I x). assert (In x (A ++ B)) by (apply in_or_app; auto). lia.
      + rewrite C3. unfold l2. cbn [put_node slevel]. lia.
      + rewrite C4. unfold l2. cbn [put_node sno]. rewrite (i_no _ _ _ I). unfold zlen. rewrite !app_length. cbn. lia.
      + pose proof (i_sort _ _ _ I) as S. apply sorted_app in S. destruct S as (SA & SB & _).
        apply sorted_mid; auto.
    - intros x J. apply in_app_or in J. destruct J as [J|[<-|J]]; auto; apply W; apply in_or_app; auto.
    - intros k'. rewrite !mp_app, mp_cons. cbn [ek ev e]. rewrite (Z.eqb_sym k k').
      destruct (k' =? k) eqn:Q; auto. assert (k' = k) by lia. subst k'.
      rewrite (mp_none A); auto. intros x J. specialize (HA x J). lia.
  Qed.

  Lemma insert_ok : forall l hd es k v seed, ok l hd es -> inw lo k -> k <> LONG_MAX ->
    exists l' seed' es', insert l k v seed = Ok (l', seed') /\ ok l' hd es'
      /\ forall k', mp es' k' = if k' =? k then Some v else mp es k'.
  Proof.
    intros l hd es k v seed O K NM.
    destruct (lt_found l hd es O k K) as (A & B & E & HA & HB & D & F & P & EP).
    destruct O as [I W]. destruct (i_hd _ _ _ I) as (H1 & H2 & H3).
    unfold insert. rewrite D. cbn [bindr]. rewrite F. cbn [bindr].
    pose proof (i_sort _ _ _ I) as S. rewrite E in S. apply sorted_app in S. destruct S as (SA & SB & SAB).
    assert (MA : mp A k = None) by (apply mp_none; intros e J; specialize (HA e J); lia).
    destruct (hd_error B) as [y|] eqn:EB; cbn [option_map].
    1: destruct B as [|y' B']; [discriminate|]; injection EB as ->.
    1: assert (Jy : In y es) by (rewrite E; apply in_elt).
    1: destruct (node_in l hd es (conj I W) y (or_intror Jy)) as (f & EN); rewrite EN; cbn [bindr skey sfwd].
    1: rewrite (cmp_exact lo) by (auto; now apply W).
    1: destruct (k - ek y =? 0) eqn:Q.
    - (* replace the value *)
      assert (Ek : ek y = k) by lia. 
      set (y2 := Ent (ea y) (ek y) v (eh y)).
      eexists _, _, (A ++ y2 :: B'). split; [reflexivity|].
      assert (FS : hd :: es = (hd :: A) ++ y :: B') by (rewrite E; easy).
      split.
      + split.
        * constructor; cbn [put_node sheap slevel sno snext]; auto.
          -- intros P' z Q' E'. 
             assert (EM : map ea (hd :: A ++ y2 :: B') = map ea (hd :: es)).
             { rewrite FS. cbn [map app]. rewrite !map_app. easy. }
             assert (N2 : NoDup (map ea (hd :: A ++ y2 :: B'))) by (rewrite EM; apply (i_nodup _ _ _ I)).
             destruct (Nat.eqb_spec (ea z) (ea y)) as [Ez|Ez].
             ++ destruct (nodup_split _ P' Q' (hd :: A) B' z y2 N2 E' eq_refl Ez) as (-> & -> & ->).
                unfold mknode. cbn [ek ev eh y2]. do 2 f_equal.
                pose proof (node_at l hd es I _ _ _ FS) as NN. rewrite EN in NN. injection NN as <-. easy.
             ++ assert (Iz : In z (hd :: A) \/ In z B').
                { assert (J : In z (hd :: A ++ y2 :: B')) by (rewrite E'; apply in_elt).
                  change (hd :: A ++ y2 :: B') with ((hd :: A) ++ y2 :: B') in J. apply in_app_or in J.
                  destruct J as [J|[J|J]]; auto. subst z. now elim Ez. }
                destruct Iz as [J|J]; apply in_split in J; destruct J as (P1 & Q1 & E1).
                ** assert (X : hd :: A ++ y2 :: B' = P1 ++ z :: (Q1 ++ y2 :: B')).
                   { change (hd :: A ++ y2 :: B') with ((hd :: A) ++ y2 :: B'). rewrite E1, <- app_assoc. easy. }
                   destruct (nodup_split _ P' Q' P1 _ z z N2 E' X eq_refl) as (_ & _ & ->).
                   rewrite (i_heap _ _ _ I P1 z (Q1 ++ y :: B')) by (rewrite FS, E1, <- app_assoc; easy).
                   f_equal. apply mknode_ext. intros j _. now apply ft_replace.
                ** assert (X : hd :: A ++ y2 :: B' = ((hd :: A) ++ y2 :: P1) ++ z :: Q1).
                   { change (hd :: A ++ y2 :: B') with ((hd :: A) ++ y2 :: B'). rewrite E1, <- app_assoc. easy. }
                   destruct (nodup_split _ P' Q' _ Q1 z z N2 E' X eq_refl) as (_ & _ & ->).
                   apply (i_heap _ _ _ I ((hd :: A) ++ y :: P1) z Q1). rewrite FS, E1, <- app_assoc. easy.
          -- pose proof (i_nodup _ _ _ I) as N. rewrite FS in N. cbn [map app] in *. rewrite !map_app in *. exact N.
          -- intros e J. destruct J as [<-|J]; [apply (i_lt _ _ _ I); now left|].
             apply in_app_or in J. destruct J as [J|[<-|J]].
             ++ apply (i_lt _ _ _ I). right. rewrite E. apply in_or_app; auto.
             ++ apply (i_lt _ _ _ I y). now right.
             ++ apply (i_lt _ _ _ I). right. rewrite E. apply in_or_app. right. now right.
          -- intros e J. apply in_app_or in J. destruct J as [J|[<-|J]].
             ++ apply (i_h _ _ _ I). rewrite E. apply in_or_app; auto.
             ++ apply (i_h _ _ _ I y Jy).
             ++ apply (i_h _ _ _ I). rewrite E. apply in_or_app. right. now right.
          -- apply (i_lv _ _ _ I).
          -- rewrite (i_no _ _ _ I), E. unfold zlen. rewrite !app_length. easy.
          -- pose proof (i_sort _ _ _ I) as S. rewrite E in S. rewrite map_app in *. exact S.
        * intros e J. apply in_app_or in J. destruct J as [J|[<-|J]].
          -- apply W. rewrite E. apply in_or_app; auto.
          -- apply (W y Jy).
          -- apply W. rewrite E. apply in_or_app. right. now right.
      + intros k'. rewrite E, !mp_app, !mp_cons. cbn [ek ev y2]. rewrite Ek, (Z.eqb_sym k k').
        destruct (k' =? k) eqn:Q2; auto. assert (k' = k) by lia. subst k'. now rewrite MA.
    - (* new node before y *)
      destruct (fresh_ok l hd A (y :: B') k v seed) as (l' & s' & es' & R1 & R2 & R3); auto.
      + now rewrite <- E.
      + intros e J. apply W. now rewrite E.
      + intros e J. pose proof (HB e J). destruct J as [<-|J]; [lia|]. cbn [map] in SB.
        apply StronglySorted_inv in SB. destruct SB as [_ SB]. rewrite Forall_forall in SB.
        specialize (SB (ek e) (in_map ek _ _ J)). specialize (HB y (or_introl eq_refl)). lia.
      + rewrite R1. exists l', s', es'. split; auto. split; auto. now rewrite E.
    - (* new last node *)
      destruct B as [|y' B']; [|discriminate].
      destruct (fresh_ok l hd A [] k v seed) as (l' & s' & es' & R1 & R2 & R3); auto.
      + now rewrite <- E.
      + intros e J. apply W. now rewrite E.
      + intros e [].
      + rewrite R1. exists l', s', es'. split; auto. split; auto. now rewrite E.
  Qed.

  Lemma shrink_ok : forall l hd es, ea hd = HDR -> eh hd = MAX_LEVEL ->
    sheap l HDR = Some (mknode hd (fun j => ft j es)) ->
    forall lv, (lv < MAX_LEVEL)%nat -> (forall e, In e es -> (eh e <= S lv)%nat) ->
    exists lv', shrink l lv = Ok lv' /\ (lv' <= lv)%nat /\ forall e, In e es -> (eh e <= S lv')%nat.
  Proof.
    intros l hd es H1 H2 H. induction lv as [|lv IH]; intros L F; cbn [shrink]; [eauto|].
    unfold fwd, node. rewrite H. cbn [orUB bindr mknode sfwd]. rewrite nth_links by lia. cbn [orUB bindr].
    destruct (ft (S lv) es) as [y|] eqn:E; [exists (S lv); auto|].
    destruct IH as (lv' & A & B & C); [lia| |eauto].
    intros e J. unfold ft in E. destruct (find (tall (S lv)) es) eqn:E2; [discriminate|].
    pose proof (find_none _ _ E2 e J) as T. unfold tall in T. apply Nat.ltb_ge in T. lia.
  Qed.

  Lemma delete_ok : forall l hd es k, ok l hd es -> inw lo k -> k <> LONG_MAX -> long_cmp LONG_MAX k <> 0 ->
    exists l' es', delete l k = Ok (l', match mp es k with Some v => v | None => 0 end) /\ ok l' hd es'
      /\ forall k', mp es' k' = if k' =? k then None else mp es k'.
  Proof.
    intros l hd es k O K NM NC.
    destruct (lt_found l hd es O k K) as (A & B & E & HA & HB & D & F & P & EP).
    destruct O as [I W]. destruct (i_hd _ _ _ I) as (H1 & H2 & H3).
    unfold delete. rewrite D. cbn [bindr]. rewrite F. cbn [bindr].
    assert (MA : mp A k = None) by (apply mp_none; intros e J; specialize (HA e J); lia).
    assert (SA : forall k', mp A k' <> None -> k' < k).
    { intros k' X. destruct (mp A k') as [v|] eqn:Q; [|easy].
      pose proof (i_sort _ _ _ I) as S. rewrite E in S. apply sorted_app in S. destruct S as (S & _).
      apply mp_in in Q; auto. destruct Q as (e & J & <- & _). auto. }
    destruct B as [|y B]; cbn [hd_error option_map].
    - (* no larger key *)
      assert (J : In (last A hd) (hd :: es)).
      { rewrite E, app_nil_r. rewrite EP. apply in_elt. }
      destruct (node_in l hd es (conj I W) _ J) as (f & EN). rewrite EN. cbn [bindr skey].
      assert (MN : mp es k = None) by (rewrite E, app_nil_r; exact MA).
      assert (X : (long_cmp (ek (last A hd)) k =? 0) = false).
      { destruct (last_case hd A P EP) as [[-> EL]|IL].
        - rewrite EL, H2. lia.
        - rewrite (cmp_exact lo); auto; [specialize (HA _ IL); lia|]. apply W. rewrite E. apply in_or_app; auto. }
      rewrite X, MN. exists l, es. split; auto. split; [split; auto|].
      intros k'. destruct (k' =? k) eqn:Q; auto. assert (k' = k) by lia. congruence.
    - assert (Jy : In y es) by (rewrite E; apply in_elt).
      destruct (node_in l hd es (conj I W) y (or_intror Jy)) as (f & EN). rewrite EN. cbn [bindr skey].
      rewrite (cmp_exact lo) by (auto; now apply W).
      pose proof (i_sort _ _ _ I) as S. rewrite E in S. apply sorted_app in S. destruct S as (S1 & S2 & S3).
      cbn [map] in S2. apply StronglySorted_inv in S2. destruct S2 as [S2 S4]. rewrite Forall_forall in S4.
      assert (BY : forall x, In x B -> ek y < ek x) by (intros; apply S4; now apply in_map).
      destruct (ek y - k =? 0) eqn:Q.
      + assert (Ek : ek y = k) by lia.
        assert (ND : NoDup (map ea (hd :: A ++ y :: B))) by (rewrite <- E; apply (i_nodup _ _ _ I)).
        pose proof (i_h _ _ _ I y Jy) as Hy. pose proof (i_lv _ _ _ I) as Lv.
        assert (HeM : (1 <= eh y <= MAX_LEVEL)%nat) by lia.
        destruct (unchain_ok hd y A B ND H3 HeM (S (slevel l)) 0 l (upto hd A (S (slevel l)))) as
          (l1 & C1 & C2 & C3 & C4 & C5); auto; try lia.
        { intros P' z Q' E'. rewrite (i_heap _ _ _ I P' z Q') by (rewrite E; exact E').
          f_equal. }
        { intros j J. unfold upto. rewrite nth_error_map.
          rewrite (nth_error_nth' (seq 0 (S (slevel l))) 0%nat) by (rewrite seq_length; lia).
          rewrite seq_nth by lia. easy. }
        rewrite C1. cbn [bindr]. unfold node.
        rewrite (C2 (hd :: A) y B) by easy. cbn [orUB bindr mknode sval].
        set (l2 := put_node l1 (ea y) None).
        assert (HP : forall P z Q, hd :: A ++ B = P ++ z :: Q -> sheap l2 (ea z) = Some (mknode z (fun j => ft j Q))).
        { intros P' z Q' E'. unfold l2. rewrite put_other.
          - eapply (Sd_done hd y A B ND); try exact C2; try exact E'; auto.
          - apply (nodup_addr (hd :: A) B y z ND). change ((hd :: A) ++ B) with (hd :: A ++ B). rewrite E'. apply in_elt. }
        destruct (shrink_ok l2 hd (A ++ B) H1 H3) with (lv := slevel l2) as (lv' & D1 & D2 & D3).
        * rewrite <- H1. apply (HP [] hd (A ++ B) eq_refl).
        * unfold l2. cbn [put_node slevel]. lia.
        * intros x J. unfold l2. cbn [put_node slevel]. rewrite C3. apply (i_h _ _ _ I x). rewrite E.
          apply in_app_or in J. apply in_or_app. destruct J; auto. right. now right.
        * rewrite D1. cbn [bindr].
          assert (MV : mp es k = Some (ev y)).
          { rewrite E, mp_app, MA, mp_cons, Ek, Z.eqb_refl. easy. }
          rewrite MV. eexists _, (A ++ B). split; [reflexivity|].
          assert (IN : forall x, In x (A ++ B) -> In x es).
          { intros x J. rewrite E. apply in_app_or in J. apply in_or_app. destruct J; auto. right. now right. }
          split; [split|].
          -- constructor; cbn [sheap slevel sno snext]; auto.
             ++ change (hd :: A ++ B) with ((hd :: A) ++ B). rewrite map_app.
                change (hd :: A ++ y :: B) with ((hd :: A) ++ y :: B) in ND. rewrite map_app in ND.
                cbn [map] in *. now apply NoDup_remove_1 in ND.
             ++ unfold l2. cbn [put_node snext]. rewrite C5. intros x [<-|J]; apply (i_lt _ _ _ I); [now left|right; auto].
             ++ intros x J. specialize (D3 x J). pose proof (i_h _ _ _ I x (IN x J)). lia.
             ++ unfold l2 in D2. cbn [put_node slevel] in D2. lia.
             ++ unfold l2. cbn [put_node sno]. rewrite C4, (i_no _ _ _ I), E. unfold zlen. rewrite !app_length. cbn. lia.
             ++ apply sorted_join; auto. intros x z X Z. apply S3; auto. now right.
          -- auto.
          -- intros k'. rewrite E, !mp_app, mp_cons, Ek. rewrite (Z.eqb_sym k k').
             destruct (k' =? k) eqn:Q2.
             ++ assert (k' = k) by lia. subst k'. rewrite MA. apply mp_none. intros x X. specialize (BY x X). lia.
             ++ easy.
      + assert (MN : mp es k = None).
        { rewrite E, mp_app, MA, mp_cons. replace (ek y =? k) with false by lia. apply mp_none.
          intros x X. specialize (BY x X). specialize (HB y (or_introl eq_refl)). lia. }
        rewrite MN. exists l, es. split; auto. split; [split; auto|].
        intros k'. destruct (k' =? k) eqn:Q2; auto. assert (k' = k) by lia. congruence.
  Qed.

  Lemma items_from_ok : forall l hd es, Inv l hd es -> forall Q P x fuel, hd :: es = P ++ x :: Q -> (length Q < fuel)%nat ->
    items_from fuel l (ea x) = Ok (map (fun e => (ek e, ev e)) Q).
  Proof.
    intros l hd es I. induction Q as [|y Q IH]; intros P x fuel E L; (destruct fuel; [lia|]); cbn [items_from].
    - rewrite (fwd_at l hd es I P x [] 0 E); [easy|].
      assert (J : In x (hd :: es)) by (rewrite E; apply in_elt).
      unfold tall. apply Nat.ltb_lt. destruct J as [<-|J]; [destruct (i_hd _ _ _ I) as (_ & _ & ->); unfold MAX_LEVEL; lia|].
      pose proof (i_h _ _ _ I x J). lia.
    - assert (TX : tall 0 x = true).
      { assert (J : In x (hd :: es)) by (rewrite E; apply in_elt).
        unfold tall. apply Nat.ltb_lt. destruct J as [<-|J]; [destruct (i_hd _ _ _ I) as (_ & _ & ->); unfold MAX_LEVEL; lia|].
        pose proof (i_h _ _ _ I x J). lia. }
      rewrite (fwd_at l hd es I P x (y :: Q) 0 E TX). cbn [bindr].
      rewrite (ft_zero l hd es I) by (apply (tail_in _ _ _ _ _ E)). cbn [hd_error option_map].
      assert (E2 : hd :: es = (P ++ [x]) ++ y :: Q) by (rewrite E, <- app_assoc; easy).
      rewrite (node_at l hd es I _ _ _ E2). cbn [bindr mknode skey sval].
      rewrite (IH _ _ fuel E2) by (cbn in L; lia). easy.
  Qed.

  Lemma items_ok : forall l hd es, Inv l hd es -> items l = Ok (map (fun e => (ek e, ev e)) es).
  Proof.
    intros l hd es I. unfold items. destruct (i_hd _ _ _ I) as (<- & _ & _).
    apply (items_from_ok l hd es I es [] hd); auto. pose proof (es_length l hd es I) as L. eapply Nat.lt_trans; [exact L|]. lia.
  Qed.

  Definition op_ok (o : op) : Prop :=
    match op_key o with Some k => inw lo k /\ k <> LONG_MAX | None => True end
    /\ match o with Delete k => long_cmp LONG_MAX k <> 0 | _ => True end.

  Lemma sorted_nodup : forall l : list Z, StronglySorted Z.lt l -> NoDup l.
  Proof.
    induction l; intros S; constructor; apply StronglySorted_inv in S; destruct S as [S F]; auto.
    intros J. rewrite Forall_forall in F. specialize (F a J). lia.
  Qed.

  Lemma clone_items_ok : forall es l hd es0 seed, ok l hd es0 ->
    (forall e, In e es -> inw lo (ek e) /\ ek e <> LONG_MAX) -> NoDup (map ek es) ->
    exists l' seed' es', clone_items (map (fun e => (ek e, ev e)) es) l seed = Ok (l', seed') /\ ok l' hd es'
      /\ forall k, mp es' k = match mp es k with Some v => Some v | None => mp es0 k end.
  Proof.
    induction es as [|e es IH]; intros l hd es0 seed O W N; cbn [map clone_items].
    - eexists _, _, _. split; [reflexivity|]. split; [exact O|]. reflexivity.
    - destruct (W e (or_introl eq_refl)) as [W1 W2]. inversion N as [|x y NI N']; subst.
      destruct (insert_ok l hd es0 (ek e) (ev e) seed O W1 W2) as (l1 & s1 & es1 & E1 & O1 & M1).
      rewrite E1. cbn [bindr].
      destruct (IH l1 hd es1 s1 O1) as (l2 & s2 & es2 & E2 & O2 & M2); [intros; apply W; now right|auto|].
      eexists _, _, _. split; [exact E2|]. split; [exact O2|]. intros k. rewrite M2, M1.
      unfold mp at 1 3. cbn [find]. rewrite (Z.eqb_sym (ek e) k). destruct (k =? ek e) eqn:K; cbn [option_map].
      + apply Z.eqb_eq in K. subst. destruct (find (fun e0 => ek e0 =? ek e) es) eqn:F; auto.
        apply find_some in F. destruct F as [F1 F2]. apply Z.eqb_eq in F2. exfalso. apply NI. rewrite <- F2. now apply in_map.
      + reflexivity.
  Qed.

  Lemma exec_ok : forall l hd es seed o, ok l hd es -> op_ok o ->
    exists l' seed' r es' m' hd', exec l seed o = Ok (l', seed', r) /\ ok l' hd' es'
      /\ spec (mp es) o r m' /\ forall k, m' k = mp es' k.
  Proof.
    intros l hd es seed o O [OK OD]. pose proof O as [I W]. pose proof (i_sort _ _ _ I) as S.
    destruct o as [k v|k|k|k|k| | |junk]; cbn [op_key] in OK; cbn [exec].
    - destruct (insert_ok l hd es k v seed O (proj1 OK) (proj2 OK)) as (l' & s' & es' & E & O' & M).
      rewrite E. cbn [bindr]. eexists _, _, _, es', _, hd. split; [reflexivity|]. split; auto.
      split; [constructor|]. intros. now rewrite M.
    - destruct (delete_ok l hd es k O (proj1 OK) (proj2 OK) OD) as (l' & es' & E & O' & M).
      rewrite E. cbn [bindr]. eexists _, _, _, es', _, hd. split; [reflexivity|]. split; auto.
      split; [constructor|]. intros. now rewrite M.
    - destruct (search_ok l hd es O k (proj1 OK) (proj2 OK)) as (p & E & H). rewrite E. cbn [bindr].
      destruct p as [a|].
      + destruct H as (e & J & <- & K). destruct (node_in l hd es O e (or_intror J)) as (f & EN).
        rewrite EN. cbn [bindr sval].
        assert (M : mp es k = Some (ev e)) by (apply mp_in; eauto).
        eexists _, _, _, es, _, hd. split; [reflexivity|]. split; auto.
        split; [|intros; reflexivity]. pose proof (sp_search (mp es) k) as SP. rewrite M in SP. exact SP.
      + assert (M : mp es k = None) by (apply mp_none; auto).
        eexists _, _, _, es, _, hd. split; [reflexivity|]. split; auto.
        split; [|intros; reflexivity]. pose proof (sp_search (mp es) k) as SP. rewrite M in SP. exact SP.
    - destruct (higher_ok l hd es O k (proj1 OK)) as (p & E & H). rewrite E. cbn [bindr].
      destruct p as [a|].
      + destruct H as (e & J & <- & K & L). destruct (node_in l hd es O e (or_intror J)) as (f & EN).
        rewrite EN. cbn [bindr sval skey].
        eexists _, _, _, es, _, hd. split; [reflexivity|]. split; auto. split; [|intros; reflexivity].
        apply sp_higher; auto; [apply mp_in; eauto|]. intros j Hj. apply mp_none. intros x X Y.
        specialize (L x X). lia.
      + eexists _, _, _, es, _, hd. split; [reflexivity|]. split; auto. split; [|intros; reflexivity].
        apply sp_higher_none. intros j Hj. apply mp_none. intros x X Y. pose proof (H x X). lia.
    - destruct (lower_ok l hd es O k (proj1 OK)) as (e & E & H). rewrite E. cbn [bindr].
      destruct H as [[-> H]|(J & K & L)].
      + destruct (node_in l hd es O hd (or_introl eq_refl)) as (f & EN). rewrite EN. cbn [bindr sval skey].
        destruct (i_hd _ _ _ I) as (_ & -> & _). rewrite Z.eqb_refl.
        eexists _, _, _, es, _, hd. split; [reflexivity|]. split; auto. split; [|intros; reflexivity].
        apply sp_lower_none. intros j Hj. apply mp_none. intros x X Y. pose proof (H x X). lia.
      + destruct (node_in l hd es O e (or_intror J)) as (f & EN). rewrite EN. cbn [bindr sval skey].
        destruct (W e J) as [_ W2]. replace (ek e =? LONG_MAX) with false by lia.
        eexists _, _, _, es, _, hd. split; [reflexivity|]. split; auto. split; [|intros; reflexivity].
        apply sp_lower; auto; [apply mp_in; eauto|]. intros j Hj. apply mp_none. intros x X Y.
        specialize (L x X). lia.
    - eexists _, _, _, es, _, hd. split; [reflexivity|]. split; auto. split; [|intros; reflexivity].
      rewrite (i_no _ _ _ I). replace (zlen es) with (zlen (map ek es)) by (unfold zlen; now rewrite map_length).
      apply sp_count; [now apply sorted_nodup|]. intros k. rewrite in_map_iff. split.
      + intros (e & <- & J) X. assert (M : mp es (ek e) = Some (ev e)) by (apply mp_in; eauto). congruence.
      + intros X. destruct (mp es k) as [v|] eqn:M; [|easy]. apply mp_in in M; auto.
        destruct M as (e & J & <- & _). eauto.
    - rewrite (items_ok l hd es I). cbn [bindr].
      eexists _, _, _, es, _, hd. split; [reflexivity|]. split; auto. split; [|intros; reflexivity].
      apply sp_items; [rewrite map_map; exact S|]. intros k v. rewrite in_map_iff. split.
      + intros (e & X & J). injection X as <- <-. apply mp_in; eauto.
      + intros M. apply mp_in in M; auto. destruct M as (e & J & <- & <-). eauto.
    - unfold clone. rewrite (items_ok l hd es I). cbn [bindr].
      destruct (clone_items_ok es (create junk) _ [] seed (create_ok junk) W) as (l' & s' & es' & E & O' & M); [exact (sorted_nodup _ S)|].
      rewrite E. cbn [bindr]. eexists _, _, _, es', _, _. split; [reflexivity|]. split; [exact O'|].
      split; [constructor|]. intros k. rewrite M. destruct (mp es k); auto.
  Qed.

  Lemma exec_all_ok : forall os l hd es seed m, ok l hd es -> (forall o, In o os -> op_ok o) ->
    (forall k, m k = mp es k) ->
    exists rs, exec_all l seed os = Ok rs /\ specs (mp es) os rs.
  Proof.
    induction os as [|o os IH]; intros l hd es seed m O H M; cbn [exec_all]; [exists []; split; auto; constructor|].
    destruct (exec_ok l hd es seed o O (H o (or_introl eq_refl))) as (l' & s' & r & es' & m' & hd' & E & O' & SP & M').
    rewrite E. cbn [bindr fst snd].
    destruct (IH l' hd' es' s' m' O') as (rs & E2 & SS); auto; [intros; apply H; now right|].
    rewrite E2. cbn [bindr]. exists (r :: rs). split; auto. econstructor; eauto.
  Qed.
End Ops.

(** Proofs about the skip list: insertion and deletion. *)
From Verif Require Import Base M_Skiplist P_Skiplist.
Require Import Sorted.

(** ** First tall element, with and without one address. *)
Lemma ft'_free : forall a j Q, (forall x, In x Q -> ea x <> a) -> ft' a j Q = ft j Q.
Proof.
  intros a j Q H. unfold ft', ft. f_equal. induction Q as [|x Q IH]; auto. cbn [find].
  rewrite (proj2 (Nat.eqb_neq (ea x) a)) by (apply H; now left). rewrite andb_true_r.
  destruct (tall j x); auto. apply IH. intros; apply H; now right.
Qed.

Lemma ft'_drop : forall a j R e B, ea e = a -> (forall x, In x (R ++ B) -> ea x <> a) ->
  ft' a j (R ++ e :: B) = ft j (R ++ B).
Proof.
  intros a j R e B E H. rewrite <- (ft'_free a j (R ++ B)) by auto. unfold ft'. f_equal.
  rewrite !find_app. cbn [find]. rewrite E, Nat.eqb_refl, andb_false_r. easy.
Qed.

Lemma ft'_drop0 : forall a j e B, ea e = a -> (forall x, In x B -> ea x <> a) ->
  ft' a j (e :: B) = ft j B.
Proof. intros a j e B. apply (ft'_drop a j [] e B). Qed.

Lemma ft_ne : forall a j Q, ft j Q <> Some a -> ft' a j Q = ft j Q.
Proof.
  intros a j Q H. unfold ft', ft in *. induction Q as [|x Q IH]; auto. cbn [find] in *.
  destruct (tall j x); cbn [andb].
  - cbn [option_map] in H. rewrite (proj2 (Nat.eqb_neq (ea x) a)) by congruence. easy.
  - auto.
Qed.

Lemma ft_some : forall j Q a, ft j Q = Some a ->
  exists R1 y R2, Q = R1 ++ y :: R2 /\ ea y = a /\ tall j y = true /\ forall x, In x R1 -> tall j x = false.
Proof.
  intros j Q a H. unfold ft in H. destruct (find (tall j) Q) as [y|] eqn:E; [|discriminate].
  injection H as <-. destruct (find_split _ _ _ _ E) as (R1 & R2 & A & B & C). exists R1, y, R2. auto.
Qed.

Lemma ft_hit : forall j R e B, (forall x, In x R -> tall j x = false) -> tall j e = true ->
  ft j (R ++ e :: B) = Some (ea e).
Proof.
  intros. unfold ft. rewrite find_app, find_none_iff by auto. cbn [find]. now rewrite H0.
Qed.

Lemma ft_skip : forall j R B, (forall x, In x R -> tall j x = false) -> ft j (R ++ B) = ft j B.
Proof. intros. unfold ft. rewrite find_app, find_none_iff by auto. easy. Qed.

Lemma ft'_skip : forall a j R B, (forall x, In x R -> tall j x = false) -> ft' a j (R ++ B) = ft' a j B.
Proof.
  intros. unfold ft'. rewrite find_app, find_none_iff; auto. intros. now rewrite H.
Qed.

Lemma mknode_ext : forall z f g, (forall j, tall j z = true -> f j = g j) -> mknode z f = mknode z g.
Proof.
  intros z f g H. unfold mknode. f_equal. apply map_ext_in. intros j J. apply H.
  apply in_seq in J. unfold tall. apply Nat.ltb_lt. lia.
Qed.

Lemma nodup_addr : forall (P Q : list ent) z x, NoDup (map ea (P ++ z :: Q)) -> In x (P ++ Q) -> ea x <> ea z.
Proof.
  intros P Q z x N J E. rewrite map_app in N. cbn [map] in N. apply NoDup_remove_2 in N. apply N.
  rewrite <- map_app, <- E. now apply in_map.
Qed.

Lemma tail_in : forall (h : ent) A P z Q, h :: A = P ++ z :: Q -> forall x, In x Q -> In x A.
Proof.
  intros h A P z Q E x J. destruct P; cbn in E; injection E as -> ->; auto. apply in_or_app. right. now right.
Qed.

(** ** Linking in a new node. *)
Section Chain.
  Variables (hd e : ent) (A B : list ent).
  Let F := hd :: A ++ e :: B.
  Hypothesis ND : NoDup (map ea F).
  Hypothesis Hhd : eh hd = MAX_LEVEL.
  Hypothesis He : (1 <= eh e <= MAX_LEVEL)%nat.

  Definition St (h : addr -> option snode) (i : nat) : Prop :=
    (forall P z Q, F = P ++ z :: Q -> ea z <> ea e ->
       h (ea z) = Some (mknode z (fun j => if Nat.ltb j i then ft j Q else ft' (ea e) j Q)))
    /\ h (ea e) = Some (mknode e (fun j => if Nat.ltb j i then ft j B else None)).

  Lemma F_split : F = (hd :: A) ++ e :: B.
  Proof. reflexivity. Qed.

  Lemma free_B : forall x, In x B -> ea x <> ea e.
  Proof. intros x J. apply (nodup_addr (hd :: A) B e x ND). apply in_or_app; auto. Qed.
  Lemma free_A : forall x, In x (hd :: A) -> ea x <> ea e.
  Proof. intros x J. apply (nodup_addr (hd :: A) B e x ND). apply in_or_app; auto. Qed.

  (** Only the last tall node before [e] has [e] as successor. *)
  Lemma succ_e : forall P z Q i, F = P ++ z :: Q -> tall i z = true -> ft i Q = Some (ea e) ->
    z = fold_left (pick i) A hd.
  Proof.
    intros P z Q i E T H. destruct (ft_some _ _ _ H) as (R1 & y & R2 & EQ & Ey & Ty & S1).
    assert (E2 : F = (P ++ z :: R1) ++ y :: R2).
    { rewrite E, EQ. rewrite <- app_assoc. easy. }
    destruct (nodup_split F (P ++ z :: R1) R2 (hd :: A) B y e ND E2 F_split Ey) as (X & _ & _).
    rewrite <- (pick_from i A hd P z R1); auto. now rewrite pick_short.
  Qed.

  Lemma u_split : forall i, (i < MAX_LEVEL)%nat -> exists P R,
    F = P ++ fold_left (pick i) A hd :: (R ++ e :: B)
    /\ (forall x, In x R -> tall i x = false) /\ tall i (fold_left (pick i) A hd) = true
    /\ In (fold_left (pick i) A hd) (hd :: A).
  Proof.
    intros i L. assert (T : tall i hd = true) by (unfold tall; rewrite Hhd; now apply Nat.ltb_lt).
    destruct (pick_split i A hd T) as (P & R & E & S1). exists P, R.
    split; [|split; [auto|split; [now apply pick_tall|apply pick_in]]].
    rewrite F_split, E. rewrite <- app_assoc. easy.
  Qed.

  Lemma chain_ok : forall n i l update, (i + n = eh e)%nat -> St (sheap l) i ->
    (forall j, (j < eh e)%nat -> nth_error update j = Some (ea (fold_left (pick j) A hd))) ->
    exists l', chain l (ea e) update i n = Ok l' /\ St (sheap l') (eh e)
      /\ slevel l' = slevel l /\ sno l' = sno l /\ snext l' = snext l.
  Proof.
    induction n as [|n IH]; intros i l update EN H HU; cbn [chain].
    - exists l. replace (eh e) with i by lia. auto.
    - rewrite HU by lia. cbn [orUB bindr].
      set (u := fold_left (pick i) A hd).
      destruct (u_split i) as (P & R & EF & SR & Tu & Iu); [lia|]. fold u in EF, Tu, Iu.
      pose proof (free_A u Iu) as Nu.
      destruct H as [H1 H2].
      assert (Lu : (i < eh u)%nat) by (unfold tall in Tu; now apply Nat.ltb_lt in Tu).
      unfold fwd, node. rewrite (H1 _ _ _ EF Nu). cbn [orUB bindr mknode sfwd].
      rewrite nth_links by lia. cbn [orUB bindr]. rewrite Nat.ltb_irrefl.
      rewrite (ft'_skip (ea e) i R (e :: B) SR).
      rewrite (ft'_drop0 (ea e) i e B eq_refl free_B). cbn [app].
      unfold set_fwd at 1, node. rewrite H2. cbn [orUB bindr mknode sfwd skey sval].
      rewrite map_length, seq_length. rewrite (proj2 (Nat.ltb_lt i (eh e))) by lia. cbn [bindr].
      rewrite set_links by lia.
      unfold set_fwd, node. rewrite put_other by auto. rewrite (H1 _ _ _ EF Nu).
      cbn [orUB bindr mknode sfwd skey sval].
      rewrite map_length, seq_length. rewrite (proj2 (Nat.ltb_lt i (eh u))) by lia. cbn [bindr].
      rewrite set_links by lia.
      set (l2 := put_node _ (ea u) _).
      destruct (IH (S i) l2 update) as (l' & C1 & C2 & C3 & C4 & C5); auto; [lia| |].
      2:{ exists l'. split; [exact C1|]. auto. }
      split.
      + intros P' z Q E Nz. destruct (Nat.eq_dec (ea z) (ea u)) as [Ez|Ez].
        * destruct (nodup_split F P' Q P (R ++ e :: B) z u ND E EF Ez) as (_ & -> & ->).
          unfold l2. rewrite put_same. unfold mknode. do 2 f_equal. apply map_ext. intros j.
          destruct (Nat.eqb_spec j i) as [->|N].
          -- rewrite (proj2 (Nat.ltb_lt i (S i))) by lia. rewrite ft_hit; auto.
             unfold tall. apply Nat.ltb_lt. lia.
          -- destruct (Nat.ltb_spec j i), (Nat.ltb_spec j (S i)); auto; lia.
        * unfold l2. rewrite put_other by auto. rewrite put_other by auto. rewrite (H1 _ _ _ E Nz).
          f_equal. apply mknode_ext. intros j Tj.
          destruct (Nat.ltb_spec j i), (Nat.ltb_spec j (S i)); auto; try lia.
          assert (j = i) by lia. subst j. apply ft_ne. intros X. apply Ez. f_equal.
          now apply (succ_e P' z Q i).
      + unfold l2. rewrite put_other by auto. rewrite put_same. unfold mknode. do 2 f_equal.
        apply map_ext. intros j. destruct (Nat.eqb_spec j i) as [->|N].
        * now rewrite (proj2 (Nat.ltb_lt i (S i))) by lia.
        * destruct (Nat.ltb_spec j i), (Nat.ltb_spec j (S i)); auto; lia.
  Qed.

  Lemma St_done : forall h, St h (eh e) -> forall P z Q, F = P ++ z :: Q ->
    h (ea z) = Some (mknode z (fun j => ft j Q)).
  Proof.
    intros h [H1 H2] P z Q E. destruct (Nat.eq_dec (ea z) (ea e)) as [Ez|Ez].
    - destruct (nodup_split F P Q (hd :: A) B z e ND E F_split Ez) as (_ & -> & ->).
      rewrite H2. f_equal. apply mknode_ext. intros j T. unfold tall in T. now rewrite T.
    - rewrite (H1 _ _ _ E Ez). f_equal. apply mknode_ext. intros j T.
      destruct (Nat.ltb_spec j (eh e)); auto. apply ft_ne. intros X.
      destruct (ft_some _ _ _ X) as (R1 & y & R2 & EQ & Ey & Ty & S1).
      assert (E2 : F = (P ++ z :: R1) ++ y :: R2) by (rewrite E, EQ, <- app_assoc; easy).
      destruct (nodup_split F (P ++ z :: R1) R2 (hd :: A) B y e ND E2 F_split Ey) as (_ & -> & _).
      unfold tall in Ty. apply Nat.ltb_lt in Ty. lia.
  Qed.

  Lemma St_init : forall h, 
    (forall P z Q, hd :: A ++ B = P ++ z :: Q -> h (ea z) = Some (mknode z (fun j => ft j Q))) ->
    h (ea e) = Some (mknode e (fun _ => None)) -> St h 0.
  Proof.
    intros h H1 H2. split; [|rewrite H2; f_equal; now apply mknode_ext].
    intros P z Q E Nz.
    assert (NB : forall x, In x (A ++ B) -> ea x <> ea e).
    { intros x J. apply (nodup_addr (hd :: A) B e x ND). cbn. auto. }
    assert (Iz : In z (hd :: A) \/ In z B).
    { assert (J : In z F) by (rewrite E; apply in_elt). rewrite F_split in J. apply in_app_or in J.
      destruct J as [J|[J|J]]; auto. congruence. }
    destruct Iz as [J|J]; apply in_split in J; destruct J as (P1 & Q1 & E1).
    - assert (E2 : F = P1 ++ z :: (Q1 ++ e :: B)) by (rewrite F_split, E1, <- app_assoc; easy).
      destruct (nodup_split F P Q P1 (Q1 ++ e :: B) z z ND E E2 eq_refl) as (_ & _ & ->).
      rewrite (H1 P1 z (Q1 ++ B)).
      2:{ change (hd :: A ++ B) with ((hd :: A) ++ B). rewrite E1, <- app_assoc. easy. }
      f_equal. apply mknode_ext. intros j _. cbn [Nat.ltb Nat.leb]. symmetry. apply ft'_drop; auto.
      intros x J. apply NB. apply in_app_or in J. apply in_or_app. destruct J as [J|J]; auto.
      left. apply (tail_in _ _ _ _ _ E1 _ J).
    - assert (E2 : F = ((hd :: A) ++ e :: P1) ++ z :: Q1) by (rewrite F_split, E1, <- app_assoc; easy).
      destruct (nodup_split F P Q _ Q1 z z ND E E2 eq_refl) as (_ & _ & ->).
      rewrite (H1 ((hd :: A) ++ P1) z Q1).
      2:{ change (hd :: A ++ B) with ((hd :: A) ++ B). rewrite E1, <- app_assoc. easy. }
      f_equal. apply mknode_ext. intros j _. cbn [Nat.ltb Nat.leb]. symmetry. apply ft'_free.
      intros x J. apply NB. apply in_or_app. right. rewrite E1. apply in_or_app. right. now right.
  Qed.

  (** ** Unlinking it. *)
  Definition Sd (h : addr -> option snode) (i : nat) : Prop :=
    forall P z Q, F = P ++ z :: Q ->
      h (ea z) = Some (mknode z (fun j => if Nat.ltb j i then ft' (ea e) j Q else ft j Q)).

  Lemma unchain_ok : forall n i l update, (i + n = S (slevel l))%nat -> (i <= eh e <= S (slevel l))%nat ->
    (slevel l < MAX_LEVEL)%nat -> Sd (sheap l) i ->
    (forall j, (j < S (slevel l))%nat -> nth_error update j = Some (ea (fold_left (pick j) A hd))) ->
    exists l', unchain l (ea e) update i n = Ok l' /\ Sd (sheap l') (eh e)
      /\ slevel l' = slevel l /\ sno l' = sno l /\ snext l' = snext l.
  Proof.
    induction n as [|n IH]; intros i l update EN LE LM H HU; cbn [unchain].
    - exists l. replace (eh e) with i by lia. auto.
    - rewrite HU by lia. cbn [orUB bindr].
      set (u := fold_left (pick i) A hd).
      destruct (u_split i) as (P & R & EF & SR & Tu & Iu); [lia|]. fold u in EF, Tu, Iu.
      pose proof (free_A u Iu) as Nu.
      assert (Lu : (i < eh u)%nat) by (unfold tall in Tu; now apply Nat.ltb_lt in Tu).
      unfold fwd at 1, node. rewrite (H _ _ _ EF). cbn [orUB bindr mknode sfwd].
      rewrite nth_links by lia. cbn [orUB bindr]. rewrite Nat.ltb_irrefl.
      destruct (Nat.eq_dec i (eh e)) as [Ei|Ei].
      + (* the node has no link at this level *)
        exists l. assert (X : ft i (R ++ e :: B) <> Some (ea e)).
        { intros X. rewrite (ft_skip i R (e :: B) SR) in X.
          destruct (ft_some _ _ _ X) as (R1 & y & R2 & EQ & Ey & Ty & S1).
          assert (E2 : F = ((hd :: A) ++ R1) ++ y :: R2) by (rewrite F_split, EQ, <- app_assoc; easy).
          destruct (nodup_split F _ R2 (hd :: A) B y e ND E2 F_split Ey) as (_ & -> & _).
          unfold tall in Ty. apply Nat.ltb_lt in Ty. lia. }
        split; [|rewrite <- Ei; auto].
        destruct (ft i (R ++ e :: B)) as [y|]; auto. destruct (Nat.eqb_spec y (ea e)); auto. congruence.
      + assert (Te : tall i e = true) by (unfold tall; apply Nat.ltb_lt; lia).
        rewrite ft_hit by auto. rewrite Nat.eqb_refl.
        unfold fwd, node. rewrite (H _ _ _ F_split). cbn [orUB bindr mknode sfwd].
        rewrite nth_links by lia. cbn [orUB bindr]. rewrite Nat.ltb_irrefl.
        unfold set_fwd, node. rewrite (H _ _ _ EF). cbn [orUB bindr mknode sfwd skey sval].
        rewrite map_length, seq_length. rewrite (proj2 (Nat.ltb_lt i (eh u))) by lia. cbn [bindr].
        rewrite set_links by lia.
        set (l2 := put_node _ (ea u) _).
        destruct (IH (S i) l2 update) as (l' & C1 & C2 & C3 & C4 & C5); auto; try (unfold l2; cbn; lia).
        2:{ exists l'. split; [exact C1|]. auto. }
        intros P' z Q E. destruct (Nat.eq_dec (ea z) (ea u)) as [Ez|Ez].
        * destruct (nodup_split F P' Q P (R ++ e :: B) z u ND E EF Ez) as (_ & -> & ->).
          unfold l2. rewrite put_same. unfold mknode. do 2 f_equal. apply map_ext. intros j.
          destruct (Nat.eqb_spec j i) as [->|N].
          -- rewrite (proj2 (Nat.ltb_lt i (S i))) by lia.
             rewrite (ft'_skip (ea e) i R (e :: B) SR).
             rewrite (ft'_drop0 (ea e) i e B eq_refl free_B). easy.
          -- destruct (Nat.ltb_spec j i), (Nat.ltb_spec j (S i)); auto; lia.
        * unfold l2. rewrite put_other by auto. rewrite (H _ _ _ E).
          f_equal. apply mknode_ext. intros j Tj.
          destruct (Nat.ltb_spec j i), (Nat.ltb_spec j (S i)); auto; try lia.
          assert (j = i) by lia. subst j. symmetry. apply ft_ne. intros X. apply Ez. f_equal.
          now apply (succ_e P' z Q i).
  Qed.

  Lemma Sd_done : forall h, Sd h (eh e) -> forall P z Q, hd :: A ++ B = P ++ z :: Q ->
    h (ea z) = Some (mknode z (fun j => ft j Q)).
  Proof.
    intros h H P z Q E.
    assert (NB : forall x, In x (A ++ B) -> ea x <> ea e).
    { intros x J. apply (nodup_addr (hd :: A) B e x ND). cbn. auto. }
    assert (X : forall P' Q', F = P' ++ z :: Q' -> forall j, 
       (if Nat.ltb j (eh e) then ft' (ea e) j Q' else ft j Q') = ft' (ea e) j Q').
    { intros P' Q' E' j. destruct (Nat.ltb_spec j (eh e)); auto. symmetry. apply ft_ne. intros X.
      destruct (ft_some _ _ _ X) as (R1 & y & R2 & EQ & Ey & Ty & S1).
      assert (E2 : F = (P' ++ z :: R1) ++ y :: R2) by (rewrite E', EQ, <- app_assoc; easy).
      destruct (nodup_split F (P' ++ z :: R1) R2 (hd :: A) B y e ND E2 F_split Ey) as (_ & -> & _).
      unfold tall in Ty. apply Nat.ltb_lt in Ty. lia. }
    assert (ND' : NoDup (map ea (hd :: A ++ B))).
    { change (hd :: A ++ B) with ((hd :: A) ++ B). rewrite map_app.
      pose proof ND as N0. rewrite F_split, map_app in N0. cbn [map] in N0. now apply NoDup_remove_1 in N0. }
    assert (Iz : In z (hd :: A) \/ In z B).
    { assert (J : In z ((hd :: A) ++ B)) by (cbn [app]; rewrite E; apply in_elt). now apply in_app_or in J. }
    destruct Iz as [J|J]; apply in_split in J; destruct J as (P1 & Q1 & E1).
    - assert (E2 : hd :: A ++ B = P1 ++ z :: (Q1 ++ B)).
      { change (hd :: A ++ B) with ((hd :: A) ++ B). rewrite E1, <- app_assoc. easy. }
      destruct (nodup_split _ P Q P1 (Q1 ++ B) z z ND' E E2 eq_refl) as (_ & _ & ->).
      assert (E3 : F = P1 ++ z :: (Q1 ++ e :: B)) by (rewrite F_split, E1, <- app_assoc; easy).
      rewrite (H _ _ _ E3). f_equal. apply mknode_ext. intros j _. rewrite (X _ _ E3). apply ft'_drop; auto.
      intros x J. apply NB. apply in_app_or in J. apply in_or_app. destruct J as [J|J]; auto.
      left. apply (tail_in _ _ _ _ _ E1 _ J).
    - assert (E2 : hd :: A ++ B = ((hd :: A) ++ P1) ++ z :: Q1).
      { change (hd :: A ++ B) with ((hd :: A) ++ B). rewrite E1, <- app_assoc. easy. }
      destruct (nodup_split _ P Q _ Q1 z z ND' E E2 eq_refl) as (_ & _ & ->).
      assert (E3 : F = ((hd :: A) ++ e :: P1) ++ z :: Q1) by (rewrite F_split, E1, <- app_assoc; easy).
      rewrite (H _ _ _ E3). f_equal. apply mknode_ext. intros j _. rewrite (X _ _ E3). apply ft'_free.
      intros x J. apply NB. apply in_or_app. right. rewrite E1. apply in_or_app. right. now right.
  Qed.
End Chain.

(** Proofs about vector clocks: arrays and sorted lists. *)
From Verif Require Import Base M_VClock S_VClock.
Require Import Sorted.

Lemma zlen_app : forall A (a b : list A), zlen (a ++ b) = zlen a + zlen b.
Proof. intros. unfold zlen. rewrite app_length. lia. Qed.
Lemma zlen_cons : forall A (x : A) b, zlen (x :: b) = 1 + zlen b.
Proof. intros. unfold zlen. cbn [length]. lia. Qed.
Lemma zlen_nn : forall A (a : list A), 0 <= zlen a.
Proof. intros. unfold zlen. lia. Qed.
Lemma zlen_nil : forall A, zlen (@nil A) = 0.
Proof. reflexivity. Qed.

Lemma zget_mid : forall A (a : list A) x b i, i = zlen a -> zget (a ++ x :: b) i = Some x.
Proof.
  intros A a x b i ->. unfold zget, zlen. replace (Z.of_nat (length a) <? 0) with false by lia.
  rewrite Nat2Z.id, nth_error_app2, Nat.sub_diag by lia. reflexivity.
Qed.

Lemma zset_mid : forall A (a : list A) x b i y, i = zlen a -> zset (a ++ x :: b) i y = Some (a ++ y :: b).
Proof.
  intros A a x b i y ->. unfold zset. rewrite zlen_app, zlen_cons. pose proof (zlen_nn _ a). pose proof (zlen_nn _ b).
  replace (0 <=? zlen a) with true by lia. replace (zlen a <? zlen a + (1 + zlen b)) with true by lia. cbn [andb].
  unfold zlen. rewrite Nat2Z.id. f_equal. f_equal.
  - rewrite firstn_app, Nat.sub_diag, firstn_all, app_nil_r. reflexivity.
  - f_equal. replace (S (length a)) with (length (a ++ [x])) by (rewrite app_length; cbn; lia).
    replace (a ++ x :: b) with ((a ++ [x]) ++ b) by now rewrite <- app_assoc.
    rewrite skipn_app, skipn_all, Nat.sub_diag. reflexivity.
Qed.

Lemma ent_mid : forall v a x b i, varr v = a ++ x :: b -> i = zlen a -> ent v i = Ok x.
Proof. intros v a x b i E ->. unfold ent. rewrite E, zget_mid by auto. reflexivity. Qed.
Lemma put_mid : forall v a x b i y, varr v = a ++ x :: b -> i = zlen a -> put v i y = Ok (VC (vn v) (a ++ y :: b)).
Proof. intros v a x b i y E ->. unfold put. erewrite E, zset_mid by auto. reflexivity. Qed.

Lemma split_at : forall A (l : list A) i, 0 <= i < zlen l -> exists a x b, l = a ++ x :: b /\ zlen a = i.
Proof.
  intros A l i H. destruct (nth_error l (Z.to_nat i)) as [x|] eqn:E.
  - destruct (nth_error_split _ _ E) as (a & b & -> & L). exists a, x, b. split; auto. unfold zlen. lia.
  - apply nth_error_None in E. unfold zlen in H. lia.
Qed.

Definition sorted (es : list (Z * Z)) : Prop := StronglySorted Z.lt (map fst es).

Lemma ss_app : forall l1 l2 : list Z, StronglySorted Z.lt (l1 ++ l2) <->
  StronglySorted Z.lt l1 /\ StronglySorted Z.lt l2 /\ forall a b, In a l1 -> In b l2 -> a < b.
Proof.
  induction l1 as [|x l1 IH]; intros l2; cbn [app].
  - split; [intros H; repeat split; auto; [constructor|easy]|intros (_ & H & _); auto].
  - split.
    + intros H. apply StronglySorted_inv in H. destruct H as [H F]. apply IH in H. destruct H as (H1 & H2 & H3).
      rewrite Forall_app in F. destruct F as [F1 F2]. repeat split; auto; [now constructor|].
      intros a b [<-|Ha] Hb; auto. rewrite Forall_forall in F2. auto.
    + intros (H1 & H2 & H3). apply StronglySorted_inv in H1. destruct H1 as [H1 F]. constructor.
      * apply IH. repeat split; auto. intros a b Ha Hb. apply H3; auto. now right.
      * apply Forall_app. split; auto. apply Forall_forall. intros b Hb. apply H3; auto. now left.
Qed.

Lemma sorted_app : forall a b, sorted (a ++ b) <->
  sorted a /\ sorted b /\ forall x y, In x a -> In y b -> fst x < fst y.
Proof.
  intros. unfold sorted. rewrite map_app, ss_app. split; intros (H1 & H2 & H3); repeat split; auto.
  - intros x y Hx Hy. apply H3; now apply in_map.
  - intros p q Hp Hq. apply in_map_iff in Hp, Hq. destruct Hp as (x & <- & Hx), Hq as (y & <- & Hy). auto.
Qed.

Lemma sorted_cons : forall e b, sorted (e :: b) <-> sorted b /\ forall y, In y b -> fst e < fst y.
Proof.
  intros e b. change (e :: b) with ([e] ++ b). rewrite sorted_app. split.
  - intros (_ & H & H2). split; auto. intros y Hy. apply H2; auto. now left.
  - intros (H & H2). repeat split; auto; [repeat constructor|]. intros x y [<-|[]] Hy. auto.
Qed.

Lemma sorted_nil : sorted [].
Proof. constructor. Qed.

(** Representation: [es] in use, [tl] not. *)
Definition W (v : vclock) (es tl : list (Z * Z)) : Prop :=
  varr v = es ++ tl /\ vn v = zlen es /\ sorted es.

Definition mp (es : list (Z * Z)) : clock := fun k => option_map snd (find (fun e => fst e =? k) es).

Lemma mp_in : forall es k c, sorted es -> mp es k = Some c <-> In (k, c) es.
Proof.
  intros es k c S. unfold mp. split.
  - destruct (find _ es) as [[i x]|] eqn:F; cbn; [|easy]. intros H. injection H as <-.
    apply find_some in F. destruct F as [J F]. cbn in F. apply Z.eqb_eq in F. now subst.
  - intros J. induction es as [|e es IH]; [easy|]. apply sorted_cons in S. destruct S as [S F].
    cbn [find]. destruct J as [->|J].
    + cbn. rewrite Z.eqb_refl. reflexivity.
    + specialize (F _ J). cbn in F. replace (fst e =? k) with false by lia. auto.
Qed.

Lemma mp_app : forall a b k, mp (a ++ b) k = match mp a k with Some c => Some c | None => mp b k end.
Proof.
  intros a b k. unfold mp. induction a as [|e a IH]; cbn [app find]; auto. destruct (fst e =? k); auto.
Qed.
Lemma mp_cons : forall e b k, mp (e :: b) k = if k =? fst e then Some (snd e) else mp b k.
Proof. intros. unfold mp. cbn [find]. rewrite Z.eqb_sym. destruct (k =? fst e); auto. Qed.
Lemma mp_none : forall es k, (forall e, In e es -> fst e <> k) -> mp es k = None.
Proof.
  induction es as [|e es IH]; intros k H; auto. rewrite mp_cons. pose proof (H e (or_introl eq_refl)).
  replace (k =? fst e) with false by lia. apply IH. intros. apply H. now right.
Qed.
Lemma mp_none_inv : forall es k e, mp es k = None -> In e es -> fst e <> k.
Proof.
  induction es as [|x es IH]; intros k e H J; [easy|]. rewrite mp_cons in H. destruct (k =? fst x) eqn:E; [easy|].
  destruct J as [<-|J]; [lia|eauto].
Qed.

(** Binary search. *)
Lemma bsearch_ok : forall fuel v id A M B tl, varr v = A ++ M ++ B ++ tl -> sorted M ->
  (forall x, In x A -> fst x < id) -> (forall x, In x B -> id < fst x) -> (length M < fuel)%nat ->
  (exists M1 e M2, M = M1 ++ e :: M2 /\ fst e = id
     /\ bsearch fuel v id (zlen A) (zlen A + zlen M - 1) (zlen A - 1) = Ok (zlen A + zlen M1, true))
  \/ (exists M1 M2, M = M1 ++ M2 /\ (forall x, In x M1 -> fst x < id) /\ (forall x, In x M2 -> id < fst x)
     /\ bsearch fuel v id (zlen A) (zlen A + zlen M - 1) (zlen A - 1) = Ok (zlen A + zlen M1 - 1, false)).
Proof.
  induction fuel as [|fuel IH]; intros v id A M B tl E S HA HB F; [lia|]. cbn [bsearch].
  pose proof (zlen_nn _ A). pose proof (zlen_nn _ M).
  destruct (Z.leb_spec (zlen A) (zlen A + zlen M - 1)).
  - set (mid := Z.quot (zlen A + (zlen A + zlen M - 1)) 2).
    assert (HM : zlen A <= mid < zlen A + zlen M).
    { unfold mid. rewrite Z.quot_div_nonneg by lia.
      pose proof (Z.div_mod (zlen A + (zlen A + zlen M - 1)) 2 ltac:(lia)).
      pose proof (Z.mod_pos_bound (zlen A + (zlen A + zlen M - 1)) 2 ltac:(lia)). lia. }
    destruct (split_at _ M (mid - zlen A) ltac:(lia)) as (M1 & e & M2 & EM & LM).
    assert (EE : varr v = (A ++ M1) ++ e :: M2 ++ B ++ tl) by (rewrite E, EM, <- !app_assoc; reflexivity).
    rewrite (ent_mid v (A ++ M1) e (M2 ++ B ++ tl) mid EE) by (rewrite zlen_app; lia). cbn [bindr].
    rewrite EM in S. apply sorted_app in S. destruct S as (S1 & S2 & S3). apply sorted_cons in S2. destruct S2 as (S2 & S4).
    assert (LL : length M = (length M1 + S (length M2))%nat) by (rewrite EM, app_length; reflexivity).
    destruct (fst e =? id) eqn:Q; [|destruct (fst e <? id) eqn:Q2].
    + left. exists M1, e, M2. repeat split; auto; [lia|]. f_equal. f_equal. lia.
    + destruct (IH v id (A ++ M1 ++ [e]) M2 B tl) as [(N1 & e2 & N2 & EN & Fe & R)|(N1 & N2 & EN & L1 & L2 & R)]; auto.
      * rewrite E, EM, <- !app_assoc. reflexivity.
      * intros x Hx. rewrite !in_app_iff in Hx. destruct Hx as [Hx|[Hx|[<-|[]]]]; auto; [|lia].
        pose proof (S3 x e Hx (or_introl eq_refl)). lia.
      * lia.
      * left. exists (M1 ++ e :: N1), e2, N2. split; [rewrite EM, EN, <- app_assoc; reflexivity|]. split; auto.
        rewrite !zlen_app, zlen_cons, zlen_nil in R. rewrite EM, !zlen_app, !zlen_cons.
        replace (mid + 1) with (zlen A + (zlen M1 + (1 + 0))) by lia. replace mid with (zlen A + (zlen M1 + (1 + 0)) - 1) by lia.
        replace (zlen A + (zlen M1 + (1 + zlen M2)) - 1) with (zlen A + (zlen M1 + (1 + 0)) + zlen M2 - 1) by lia.
        rewrite R. f_equal. f_equal. lia.
      * right. exists (M1 ++ e :: N1), N2. split; [rewrite EM, EN, <- app_assoc; reflexivity|].
        split; [|split; auto].
        { intros x Hx. rewrite in_app_iff in Hx. destruct Hx as [Hx|[<-|Hx]]; auto; [|lia].
          pose proof (S3 x e Hx (or_introl eq_refl)). lia. }
        rewrite !zlen_app, zlen_cons, zlen_nil in R. rewrite EM, !zlen_app, !zlen_cons.
        replace (mid + 1) with (zlen A + (zlen M1 + (1 + 0))) by lia. replace mid with (zlen A + (zlen M1 + (1 + 0)) - 1) by lia.
        replace (zlen A + (zlen M1 + (1 + zlen M2)) - 1) with (zlen A + (zlen M1 + (1 + 0)) + zlen M2 - 1) by lia.
        rewrite R. f_equal. f_equal. lia.
    + destruct (IH v id A M1 (e :: M2 ++ B) tl) as [(N1 & e2 & N2 & EN & Fe & R)|(N1 & N2 & EN & L1 & L2 & R)]; auto.
      * rewrite E, EM, <- !app_assoc. cbn [app]. rewrite <- app_assoc. reflexivity.
      * intros x [<-|Hx]; [lia|]. rewrite in_app_iff in Hx. destruct Hx as [Hx|Hx]; auto.
        pose proof (S4 x Hx). lia.
      * lia.
      * left. exists N1, e2, (N2 ++ e :: M2). split; [rewrite EM, EN, <- app_assoc; reflexivity|]. split; auto.
        replace (mid - 1) with (zlen A + zlen M1 - 1) by lia. exact R.
      * right. exists N1, (N2 ++ e :: M2). split; [rewrite EM, EN, <- app_assoc; reflexivity|]. split; auto.
        split.
        { intros x Hx. rewrite in_app_iff in Hx. destruct Hx as [Hx|[<-|Hx]]; auto; [lia|].
          pose proof (S4 x Hx). lia. }
        replace (mid - 1) with (zlen A + zlen M1 - 1) by lia. exact R.
  - assert (M = []) by (destruct M; [auto|rewrite zlen_cons in *; pose proof (zlen_nn _ M); lia]). subst M.
    right. exists [], []. repeat split; auto; try easy. f_equal. f_equal. rewrite zlen_nil. lia.
Qed.

Lemma find_ok : forall v es tl id, W v es tl ->
  (exists A e B, es = A ++ e :: B /\ fst e = id /\ find_node v id = Ok (zlen A, true))
  \/ (exists A B, es = A ++ B /\ (forall x, In x A -> fst x < id) /\ (forall x, In x B -> id < fst x)
      /\ find_node v id = Ok (zlen A - 1, false)).
Proof.
  intros v es tl id (E & N & S).
  destruct (bsearch_ok (Datatypes.S (length (varr v))) v id [] es [] tl) as [(A & e & B & Q & F & R)|(A & B & Q & L1 & L2 & R)];
    auto; try easy.
  - rewrite E, app_length. lia.
  - left. exists A, e, B. repeat split; auto. unfold find_node. rewrite N. exact R.
  - right. exists A, B. repeat split; auto. unfold find_node. rewrite N. exact R.
Qed.

Lemma get_ok : forall v es tl id, W v es tl ->
  get_component_vc v id = Ok (match mp es id with Some c => c | None => -1 end).
Proof.
  intros v es tl id H. pose proof H as (E & N & S). unfold get_component_vc.
  destruct (find_ok v es tl id H) as [(A & e & B & Q & F & R)|(A & B & Q & L1 & L2 & R)]; rewrite R; cbn [bindr].
  - rewrite (ent_mid v A e (B ++ tl)) by (auto; rewrite E, Q, <- app_assoc; reflexivity). cbn [bindr].
    assert (M : mp es id = Some (snd e)); [|now rewrite M].
    apply mp_in; auto. rewrite Q. apply in_or_app. right. left. subst. now destruct e.
  - rewrite mp_none; auto. intros x J. rewrite Q, in_app_iff in J. destruct J as [J|J]; [specialize (L1 _ J)|specialize (L2 _ J)]; lia.
Qed.

Lemma increment_ok : forall v es tl id, W v es tl ->
  match mp es id with
  | None => increment_vc v id = Ok (v, -1)
  | Some c => c + 1 < 2 ^ 63 -> exists v' es', increment_vc v id = Ok (v', 0) /\ W v' es' tl
      /\ map fst es' = map fst es /\ forall k, mp es' k = set (mp es) id (Some (c + 1)) k
  end.
Proof.
  intros v es tl id H. pose proof H as (E & N & S). unfold increment_vc.
  destruct (find_ok v es tl id H) as [(A & e & B & Q & F & R)|(A & B & Q & L1 & L2 & R)]; rewrite R; cbn [bindr].
  - assert (M : mp es id = Some (snd e)).
    { apply mp_in; auto. rewrite Q. apply in_or_app. right. left. subst. now destruct e. }
    rewrite M. intros C. assert (EE : varr v = A ++ e :: B ++ tl) by (rewrite E, Q, <- app_assoc; reflexivity).
    cbn [negb]. rewrite (ent_mid v A e (B ++ tl)) by auto. cbn [bindr].
    replace (2 ^ 63 <=? snd e + 1) with false by lia.
    rewrite (put_mid v A e (B ++ tl)) by auto. cbn [bindr].
    eexists _, (A ++ (fst e, snd e + 1) :: B). split; [reflexivity|].
    assert (FE : map fst (A ++ (fst e, snd e + 1) :: B) = map fst es) by (rewrite Q, !map_app; reflexivity).
    split; [|split; auto].
    + split; [cbn [varr]; rewrite <- app_assoc; reflexivity|]. split.
      * cbn [vn]. rewrite N, Q, !zlen_app, !zlen_cons. reflexivity.
      * unfold sorted. rewrite FE. exact S.
    + intros k. unfold set. rewrite Q, !mp_app, !mp_cons. cbn [fst snd]. rewrite F.
      assert (MA : mp A id = None).
      { apply mp_none. rewrite Q in S. apply sorted_app in S. destruct S as (_ & _ & S3). intros x Hx.
        specialize (S3 x e Hx (or_introl eq_refl)). lia. }
      destruct (k =? id) eqn:K; auto. apply Z.eqb_eq in K. subst k. now rewrite MA.
  - rewrite mp_none; auto. intros x J. rewrite Q, in_app_iff in J. destruct J as [J|J]; [specialize (L1 _ J)|specialize (L2 _ J)]; lia.
Qed.

Lemma shift_down_ok : forall B v A e t T, varr v = A ++ e :: B ++ t :: T ->
  shift_down (S (length B)) v (zlen A) = Ok (VC (vn v) (A ++ B ++ t :: t :: T)).
Proof.
  induction B as [|b B IH]; intros v A e t T E.
  - cbn [shift_down length app] in *. rewrite (ent_mid v (A ++ [e]) t T) by (rewrite ?E, <- ?app_assoc, ?zlen_app; auto).
    cbn [bindr]. rewrite (put_mid v A e (t :: T)) by auto. reflexivity.
  - change (length (b :: B)) with (S (length B)). remember (S (length B)) as n eqn:Hn. cbn [shift_down].
    rewrite (ent_mid v (A ++ [e]) b (B ++ t :: T)) by (rewrite ?E, <- ?app_assoc, ?zlen_app; auto).
    cbn [bindr]. rewrite (put_mid v A e (b :: B ++ t :: T)) by auto. cbn [bindr].
    specialize (IH (VC (vn v) (A ++ b :: b :: B ++ t :: T)) (A ++ [b]) b t T). cbn [varr vn] in IH.
    rewrite zlen_app, zlen_cons, zlen_nil, Z.add_0_r in IH. subst n. rewrite IH by (rewrite <- app_assoc; reflexivity).
    rewrite <- app_assoc. reflexivity.
Qed.

Lemma mp_split : forall A e B k, sorted (A ++ e :: B) -> mp (A ++ B) k = set (mp (A ++ e :: B)) (fst e) None k.
Proof.
  intros A e B k S. unfold set. rewrite !mp_app, mp_cons. apply sorted_app in S. destruct S as (_ & S2 & S3).
  apply sorted_cons in S2. destruct S2 as (_ & S4).
  destruct (k =? fst e) eqn:K; auto. apply Z.eqb_eq in K. subst k.
  rewrite !mp_none; auto.
  - intros x J. specialize (S4 _ J). lia.
  - intros x J. specialize (S3 _ e J (or_introl eq_refl)). lia.
Qed.

Lemma remove_ok : forall v es tl id, W v es tl -> tl <> [] ->
  match mp es id with
  | None => remove_component_vc v id = Ok (v, -1)
  | Some c => exists v' es' tl', remove_component_vc v id = Ok (v', 0) /\ W v' es' tl'
      /\ zlen (varr v') = zlen (varr v)
      /\ incl es' es /\ forall k, mp es' k = set (mp es) id None k
  end.
Proof.
  intros v es tl id H NT. pose proof H as (E & N & S). unfold remove_component_vc.
  destruct (find_ok v es tl id H) as [(A & e & B & Q & F & R)|(A & B & Q & L1 & L2 & R)]; rewrite R; cbn [bindr negb].
  - assert (M : mp es id = Some (snd e)).
    { apply mp_in; auto. rewrite Q. apply in_or_app. right. left. subst. now destruct e. }
    rewrite M. destruct tl as [|t T]; [easy|].
    replace (Z.to_nat (vn v - zlen A)) with (Datatypes.S (length B)) by (rewrite N, Q, zlen_app, zlen_cons; unfold zlen; lia).
    rewrite (shift_down_ok B v A e t T) by (rewrite E, Q, <- app_assoc; reflexivity). cbn [bindr vn varr].
    eexists _, (A ++ B), (t :: t :: T). split; [reflexivity|]. rewrite Q in S. split; [|split; [|split]].
    + split; [cbn [varr]; now rewrite <- app_assoc|]. split.
      * cbn [vn]. rewrite N, Q, !zlen_app, zlen_cons. lia.
      * apply sorted_app in S. destruct S as (S1 & S2 & S3). apply sorted_cons in S2. apply sorted_app.
        split; [auto|split; [apply S2|]]. intros. apply S3; auto. now right.
    + cbn [varr]. rewrite E, Q, !zlen_app, !zlen_cons. lia.
    + rewrite Q. intros x Hx. rewrite in_app_iff in *. destruct Hx; auto. right. now right.
    + intros k. rewrite Q, <- F. now apply mp_split.
  - rewrite mp_none; auto. intros x J. rewrite Q, in_app_iff in J. destruct J as [J|J]; [specialize (L1 _ J)|specialize (L2 _ J)]; lia.
Qed.

Lemma shift_up_ok : forall B v A t T, varr v = A ++ B ++ t :: T ->
  exists x, shift_up (length B) v (zlen A + zlen B) = Ok (VC (vn v) (A ++ x :: B ++ T)).
Proof.
  induction B as [|b B IH] using rev_ind; intros v A t T E.
  - exists t. cbn. destruct v. cbn in *. now subst.
  - rewrite app_length. cbn [length]. rewrite Nat.add_1_r. cbn [shift_up].
    rewrite (ent_mid v (A ++ B) b (t :: T)) by (rewrite ?E, <- ?app_assoc, ?zlen_app, ?zlen_cons, ?zlen_nil; auto; lia).
    cbn [bindr]. rewrite (put_mid v (A ++ B ++ [b]) t T) by (rewrite ?E, <- ?app_assoc, ?zlen_app, ?zlen_cons, ?zlen_nil; auto; lia).
    cbn [bindr].
    destruct (IH (VC (vn v) ((A ++ B ++ [b]) ++ b :: T)) A b (b :: T)) as (x & X).
    { cbn [varr]. rewrite <- !app_assoc. reflexivity. }
    exists x. rewrite zlen_app, zlen_cons, zlen_nil.
    replace (zlen A + (zlen B + (1 + 0)) - 1) with (zlen A + zlen B) by lia. rewrite X. cbn [vn]. now rewrite <- app_assoc.
Qed.

Section J.
  Variable junk : Z -> Z * Z.

  Lemma fresh_len : forall n, 0 <= n -> zlen (fresh junk n) = n.
  Proof. intros. unfold fresh, zlen. rewrite map_length, seq_length. lia. Qed.

  Lemma blit_fresh : forall n es tl, zlen es <= n ->
    exists tl', blit (fresh junk n) 0 (es ++ tl) 0 (zlen es) = Some (es ++ tl') /\ zlen (es ++ tl') = n.
  Proof.
    intros n es tl H. pose proof (zlen_nn _ es). pose proof (zlen_nn _ tl). unfold blit.
    rewrite fresh_len, zlen_app by lia.
    replace (_ && _)%bool with true by lia. cbn [skipn Z.to_nat firstn app].
    exists (skipn (Z.to_nat (0 + zlen es)) (fresh junk n)). split.
    - f_equal. f_equal. unfold zlen. rewrite Nat2Z.id, firstn_app, Nat.sub_diag, firstn_all. cbn. apply app_nil_r.
    - rewrite zlen_app. unfold zlen at 2. rewrite skipn_length. pose proof (fresh_len n ltac:(lia)). unfold zlen in *. lia.
  Qed.

  Lemma grow_ok : forall v es tl, W v es tl -> es <> [] -> exists v' tl', grow_vc junk v = Ok v' /\ W v' es tl' /\ tl' <> []
     /\ zlen (varr v') = 2 * zlen es.
  Proof.
    intros v es tl (E & N & S) NE. unfold grow_vc. rewrite E, N.
    destruct (blit_fresh (zlen es * 2) es tl) as (tl' & B & L); [pose proof (zlen_nn _ es); lia|].
    rewrite B. cbn [orUB bindr]. exists (VC (zlen es) (es ++ tl')), tl'. split; [reflexivity|]. split; [now repeat split|].
    split; [|cbn [varr]; lia]. intros ->. rewrite app_nil_r in L. destruct es; [easy|]. rewrite zlen_cons in L.
    pose proof (zlen_nn _ es). lia.
  Qed.

  Lemma add_ok : forall v es tl id c, W v es tl -> es <> [] \/ tl <> [] ->
    match mp es id with
    | Some _ => add_component_vc junk v id c = Ok (v, -1)
    | None => exists v' es' tl', add_component_vc junk v id c = Ok (v', 0) /\ W v' es' tl'
        /\ zlen (varr v) <= zlen (varr v')
        /\ (forall x, In x es' <-> x = (id, Z.max c 0) \/ In x es)
        /\ zlen es' = 1 + zlen es
        /\ forall k, mp es' k = set (mp es) id (Some (Z.max c 0)) k
    end.
  Proof.
    intros v es tl id c H NE. pose proof H as (E & N & S). unfold add_component_vc.
    destruct (find_ok v es tl id H) as [(A & e & B & Q & F & R)|(A & B & Q & L1 & L2 & R)]; rewrite R; cbn [bindr].
    - assert (M : mp es id = Some (snd e)).
      { apply mp_in; auto. rewrite Q. apply in_or_app. right. left. subst. now destruct e. }
      now rewrite M.
    - assert (M : mp es id = None).
      { apply mp_none. intros x J. rewrite Q, in_app_iff in J. destruct J as [J|J]; [specialize (L1 _ J)|specialize (L2 _ J)]; lia. }
      rewrite M.
      assert (G : exists v1 tl1, (if vn v =? capacity v then grow_vc junk v else Ok v) = Ok v1 /\ W v1 es tl1 /\ tl1 <> []
                  /\ zlen (varr v) <= zlen (varr v1)).
      { unfold capacity. rewrite N, E, zlen_app. destruct tl as [|t T].
        - rewrite zlen_nil. replace (zlen es =? zlen es + 0) with true by lia.
          destruct (grow_ok v es [] H) as (v1 & tl1 & X & Y & Z & L); [destruct NE; auto|]. exists v1, tl1. repeat split; auto; try apply Y.
          rewrite L. pose proof (zlen_nn _ es). lia.
        - rewrite zlen_cons. pose proof (zlen_nn _ T). replace (zlen es =? zlen es + (1 + zlen T)) with false by lia.
          exists v, (t :: T). split; [reflexivity|]. split; auto. split; [easy|]. rewrite E, zlen_app, zlen_cons. lia. }
      destruct G as (v1 & tl1 & -> & H1 & NE1 & LE). cbn [bindr]. destruct H1 as (E1 & N1 & _).
      destruct tl1 as [|t T]; [easy|].
      replace (zlen A - 1 + 1) with (zlen A) by lia.
      destruct (shift_up_ok B v1 A t T) as (x & X); [rewrite E1, Q, <- app_assoc; reflexivity|].
      replace (Z.to_nat (vn v1 - zlen A)) with (length B) by (rewrite N1, Q, zlen_app; unfold zlen; lia).
      rewrite N1, Q, zlen_app. rewrite X. cbn [bindr].
      rewrite (put_mid _ A x (B ++ T)) by auto. cbn [bindr vn varr].
      replace (if 0 <? c then c else 0) with (Z.max c 0) by (destruct (0 <? c) eqn:?; lia).
      eexists _, (A ++ (id, Z.max c 0) :: B), T. split; [reflexivity|]. rewrite Q in S. apply sorted_app in S. destruct S as (S1 & S2 & S3).
      split; [|split; [|split; [|split]]].
      + split; [cbn [varr]; rewrite <- app_assoc; reflexivity|]. split; [cbn [vn]; rewrite N1, Q, !zlen_app, zlen_cons; lia|].
        apply sorted_app. split; auto. split.
        * apply sorted_cons. split; auto.
        * intros y z Hy [<-|Hz]; cbn [fst]; auto.
      + cbn [varr]. rewrite E1, Q in LE. rewrite !zlen_app, !zlen_cons in *. rewrite zlen_app. lia.
      + intros y. rewrite !in_app_iff. cbn [In]. split.
        * intros [J|[J|J]]; auto.
        * intros [J|[J|J]]; auto.
      + rewrite !zlen_app, zlen_cons. lia.
      + intros k. unfold set. rewrite !mp_app, mp_cons. cbn [fst snd]. destruct (k =? id) eqn:K; auto.
        apply Z.eqb_eq in K. subst k. rewrite mp_none; auto. intros y J. specialize (L1 _ J). lia.
  Qed.

  Lemma scan_ok : forall B fuel v A tl id, varr v = A ++ B ++ tl -> vn v = zlen (A ++ B) -> (length B < fuel)%nat ->
    (forall x, In x B -> fst x < id) ->
    (match tl with [] => False | t :: _ => True end) ->
    scan fuel v id (zlen A) = Ok (zlen A + zlen B).
  Proof.
    induction B as [|b B IH]; intros fuel v A tl id E N F HB HT; (destruct fuel as [|fuel]; [cbn in F; lia|]); cbn [scan].
    - destruct tl as [|t T]; [easy|]. cbn [app] in E. rewrite (ent_mid v A t T) by auto. cbn [bindr].
      rewrite N, app_nil_r. replace (zlen A <? zlen A) with false by lia. rewrite andb_false_r, zlen_nil. f_equal. lia.
    - rewrite (ent_mid v A b (B ++ tl)) by auto. cbn [bindr].
      pose proof (HB b (or_introl eq_refl)). replace (fst b <? id) with true by lia.
      rewrite N, zlen_app, zlen_cons. pose proof (zlen_nn _ B). replace (zlen A <? zlen A + (1 + zlen B)) with true by lia.
      cbn [andb].
      specialize (IH fuel v (A ++ [b]) tl id). rewrite !zlen_app, !zlen_cons, zlen_nil in IH.
      replace (zlen A + 1) with (zlen A + (1 + 0)) by lia. rewrite IH; auto.
      + f_equal. lia.
      + rewrite E, <- app_assoc. reflexivity.
      + rewrite N, !zlen_app, !zlen_cons. lia.
      + cbn in F. lia.
      + intros. apply HB. now right.
  Qed.

  (** stops at the first element that is not smaller *)
  Lemma scan_mid : forall B fuel v A y C id, varr v = A ++ B ++ y :: C -> vn v >= zlen (A ++ B) -> (length B < fuel)%nat ->
    (forall x, In x B -> fst x < id) -> id <= fst y ->
    scan fuel v id (zlen A) = Ok (zlen A + zlen B).
  Proof.
    induction B as [|b B IH]; intros fuel v A y C id E N F HB HY; (destruct fuel as [|fuel]; [cbn in F; lia|]); cbn [scan].
    - cbn [app] in E. rewrite (ent_mid v A y C) by auto. cbn [bindr].
      replace (fst y <? id) with false by lia. cbn [andb]. rewrite zlen_nil. f_equal. lia.
    - rewrite (ent_mid v A b (B ++ y :: C)) by auto. cbn [bindr].
      pose proof (HB b (or_introl eq_refl)). replace (fst b <? id) with true by lia.
      rewrite zlen_app, zlen_cons in N. pose proof (zlen_nn _ B). replace (zlen A <? vn v) with true by lia.
      cbn [andb].
      specialize (IH fuel v (A ++ [b]) y C id). rewrite !zlen_app, !zlen_cons, zlen_nil in IH.
      replace (zlen A + 1) with (zlen A + (1 + 0)) by lia. rewrite IH; auto.
      + f_equal. rewrite zlen_cons. lia.
      + rewrite E, <- app_assoc. reflexivity.
      + lia.
      + cbn in F. lia.
      + intros. apply HB. now right.
  Qed.
End J.

(** Proofs about dict.c: the table invariant and the refinement of the map of S_Dict. *)
From Verif Require Import Base M_Iter S_Iter M_Dict S_Dict M_DictApi P_Base P_Probe.

Lemma zget_range {A} (l : list A) i x : zget l i = Some x -> 0 <= i < zlen l.
Proof.
  unfold zget, zlen. destruct (i <? 0) eqn:E; [discriminate|]. intros H.
  assert (Z.to_nat i < length l)%nat by (apply nth_error_Some; congruence). lia.
Qed.
Lemma zget_some {A} (l : list A) i : 0 <= i < zlen l -> exists x, zget l i = Some x.
Proof.
  intros H. rewrite zget_nat by lia. destruct (nth_error l (Z.to_nat i)) eqn:E; [eauto|].
  apply nth_error_None in E. unfold zlen in H. lia.
Qed.
Lemma zset_get {A} (a : list A) i v : 0 <= i < zlen a ->
  exists a', zset a i v = Some a' /\ zlen a' = zlen a /\
             forall j, zget a' j = if j =? i then Some v else zget a j.
Proof.
  intros H. destruct (zset_spec a i v H) as (a' & H1 & H2 & H3). exists a'. split; [exact H1|].
  split; [unfold zlen; congruence|]. intros j. unfold zget. destruct (j <? 0) eqn:E.
  - destruct (j =? i) eqn:E2; [lia|reflexivity].
  - rewrite H3. destruct (j =? i) eqn:E2, (Z.to_nat j =? Z.to_nat i)%nat eqn:E3; try reflexivity; lia.
Qed.
Lemma zset_split {A} (l : list A) i e : zget l i = Some e ->
  exists l1 l2, l = l1 ++ e :: l2 /\ zlen l1 = i /\ forall e', zset l i e' = Some (l1 ++ e' :: l2).
Proof.
  intros H. pose proof (zget_range _ _ _ H) as R. rewrite zget_nat in H by lia.
  destruct (nth_error_split _ _ H) as (l1 & l2 & E1 & E2). exists l1, l2. split; [exact E1|].
  split; [unfold zlen; lia|]. intros e'. unfold zset. destruct ((0 <=? i) && (i <? zlen l)) eqn:E; [|lia].
  f_equal. rewrite <- E2, E1. f_equal.
  - rewrite firstn_app, Nat.sub_diag, firstn_all. cbn. apply app_nil_r.
  - f_equal. rewrite skipn_app. rewrite skipn_all2 by lia.
    replace (S (length l1) - length l1)%nat with 1%nat by lia. reflexivity.
Qed.
Lemma zget_app1 {A} (l : list A) x j :
  zget (l ++ [x]) j = if j =? zlen l then Some x else zget l j.
Proof.
  unfold zget, zlen. destruct (j <? 0) eqn:E; [destruct (j =? _) eqn:E2; [lia|reflexivity]|].
  destruct (j =? Z.of_nat (length l)) eqn:E2.
  - rewrite nth_error_app2 by lia. replace (Z.to_nat j - length l)%nat with O by lia. reflexivity.
  - destruct (Z.to_nat j <? length l)%nat eqn:E3; [apply nth_error_app1; lia|].
    rewrite (proj2 (nth_error_None l _)) by lia. apply nth_error_None. rewrite app_length. cbn. lia.
Qed.

Lemma skipn_skipn' {A} (l : list A) a b : skipn a (skipn b l) = skipn (b + a) l.
Proof.
  revert l. induction b as [|b IH]; intros l; [reflexivity|]. destruct l as [|x l]; [destruct a; reflexivity|].
  cbn [skipn Nat.add]. apply IH.
Qed.

(** ** The spec's association lists *)
Section Assoc.
Context {K V : Type}.
Variable keq same : K -> K -> bool.
Variable hash : K -> Z.
Hypothesis laws : key_laws keq same hash.

Definition distinct (l : list (K * V)) : Prop :=
  ForallOrdPairs (fun x y => keq (fst x) (fst y) = false) l.
Definition absent (k : K) (l : list (K * V)) : Prop := forall k' v, In (k', v) l -> keq k k' = false.

Lemma lookup_absent k l : absent k l -> lookup keq k l = None.
Proof.
  induction l as [|[k' v'] l IH]; intros H; cbn [lookup]; [reflexivity|].
  rewrite (H k' v' (or_introl eq_refl)). apply IH. intros k2 v2 H2. apply (H k2 v2). right. exact H2.
Qed.
Lemma lookup_none k l : lookup keq k l = None -> absent k l.
Proof.
  induction l as [|[k' v'] l IH]; cbn [lookup]; intros H k2 v2 H2; [destruct H2|].
  destruct (keq k k') eqn:E; [discriminate|]. destruct H2 as [H2|H2].
  - injection H2 as -> ->. exact E.
  - exact (IH H k2 v2 H2).
Qed.
Lemma put_absent k v l : absent k l -> put keq k v l = l ++ [(k, v)].
Proof.
  induction l as [|[k' v'] l IH]; intros H; cbn [put app]; [reflexivity|].
  rewrite (H k' v' (or_introl eq_refl)). f_equal. apply IH. intros k2 v2 H2. apply (H k2 v2). right. exact H2.
Qed.
Lemma del_absent k l : absent k l -> del keq k l = l.
Proof.
  induction l as [|[k' v'] l IH]; intros H; cbn [del]; [reflexivity|].
  rewrite (H k' v' (or_introl eq_refl)). f_equal. apply IH. intros k2 v2 H2. apply (H k2 v2). right. exact H2.
Qed.
Lemma absent_app k l1 l2 : absent k (l1 ++ l2) <-> absent k l1 /\ absent k l2.
Proof.
  unfold absent. split.
  - intros H. split; intros k' v Hi; apply (H k' v), in_or_app; [left|right]; exact Hi.
  - intros [H1 H2] k' v Hi. apply in_app_or in Hi. destruct Hi as [Hi|Hi]; [exact (H1 _ _ Hi)|exact (H2 _ _ Hi)].
Qed.

Lemma fop_app {A} (R : A -> A -> Prop) l1 l2 :
  ForallOrdPairs R (l1 ++ l2) <->
  ForallOrdPairs R l1 /\ ForallOrdPairs R l2 /\ forall x y, In x l1 -> In y l2 -> R x y.
Proof.
  induction l1 as [|a l1 IH]; cbn [app].
  - split; [intros H; repeat split; [constructor|exact H|intros x y []]|intros (_ & H & _); exact H].
  - split.
    + intros H. inversion H as [|? ? H1 H2]; subst. apply IH in H2. destruct H2 as (H2 & H3 & H4).
      rewrite Forall_app in H1. destruct H1 as (H1 & H1').
      repeat split; [constructor; assumption|exact H3|].
      intros x y [->|Hx] Hy; [rewrite Forall_forall in H1'; exact (H1' y Hy)|exact (H4 x y Hx Hy)].
    + intros (H1 & H2 & H3). inversion H1 as [|? ? H4 H5]; subst. constructor.
      * apply Forall_app. split; [exact H4|]. apply Forall_forall. intros y Hy. apply H3; [left; reflexivity|exact Hy].
      * apply IH. repeat split; [exact H5|exact H2|]. intros x y Hx Hy. apply H3; [right; exact Hx|exact Hy].
Qed.

(** What [distinct] gives for a key equal to the one of a pair in the middle. *)
Lemma distinct_before l1 k' v' l2 k : distinct (l1 ++ (k', v') :: l2) -> keq k k' = true -> absent k l1.
Proof.
  intros H E k2 v2 H2. apply fop_app in H. destruct H as (_ & _ & H).
  specialize (H (k2, v2) (k', v') H2 (or_introl eq_refl)). cbn in H.
  destruct (keq k k2) eqn:E2; [|reflexivity]. exfalso.
  apply (kl_sym _ _ _ laws) in E2. rewrite (kl_trans _ _ _ laws _ _ _ E2 E) in H. discriminate.
Qed.
Lemma distinct_after l1 k' v' l2 k : distinct (l1 ++ (k', v') :: l2) -> keq k k' = true -> absent k l2.
Proof.
  intros H E k2 v2 H2. apply fop_app in H. destruct H as (_ & H & _).
  inversion H as [|? ? H1 _]; subst. rewrite Forall_forall in H1. specialize (H1 _ H2). cbn in H1.
  destruct (keq k k2) eqn:E2; [|reflexivity]. exfalso.
  apply (kl_sym _ _ _ laws) in E. rewrite (kl_trans _ _ _ laws _ _ _ E E2) in H1. discriminate.
Qed.

Lemma lookup_at l1 k' v' l2 k : absent k l1 -> keq k k' = true -> lookup keq k (l1 ++ (k', v') :: l2) = Some v'.
Proof.
  intros H E. induction l1 as [|[a b] l1 IH]; cbn [app lookup]; [rewrite E; reflexivity|].
  rewrite (H a b (or_introl eq_refl)). apply IH. intros k2 v2 H2. apply (H k2 v2). right. exact H2.
Qed.
Lemma put_at l1 k' v' l2 k v : absent k l1 -> keq k k' = true ->
  put keq k v (l1 ++ (k', v') :: l2) = l1 ++ (k', v) :: l2.
Proof.
  intros H E. induction l1 as [|[a b] l1 IH]; cbn [app put]; [rewrite E; reflexivity|].
  rewrite (H a b (or_introl eq_refl)). f_equal. apply IH. intros k2 v2 H2. apply (H k2 v2). right. exact H2.
Qed.
Lemma del_at l1 k' v' l2 k : absent k l1 -> keq k k' = true -> del keq k (l1 ++ (k', v') :: l2) = l1 ++ l2.
Proof.
  intros H E. induction l1 as [|[a b] l1 IH]; cbn [app del]; [rewrite E; reflexivity|].
  rewrite (H a b (or_introl eq_refl)). f_equal. apply IH. intros k2 v2 H2. apply (H k2 v2). right. exact H2.
Qed.

Lemma distinct_snoc k v l : distinct l -> absent k l -> distinct (l ++ [(k, v)]).
Proof.
  intros H H1. apply fop_app. repeat split; [exact H|constructor; constructor|].
  intros [a b] y Hx [<-|[]]. cbn. specialize (H1 a b Hx).
  destruct (keq a k) eqn:E; [|reflexivity]. apply (kl_sym _ _ _ laws) in E. congruence.
Qed.
Lemma distinct_mid l1 k v v' l2 : distinct (l1 ++ (k, v) :: l2) -> distinct (l1 ++ (k, v') :: l2).
Proof.
  intros H. apply fop_app in H. destruct H as (H1 & H2 & H3). apply fop_app. split; [exact H1|]. split.
  - inversion H2 as [|? ? H4 H5]; subst. constructor; assumption.
  - intros x y Hx [<-|Hy]; [|apply H3; [exact Hx|right; exact Hy]].
    apply (H3 x (k, v) Hx (or_introl eq_refl)).
Qed.
Lemma distinct_drop l1 x l2 : distinct (l1 ++ x :: l2) -> distinct (l1 ++ l2).
Proof.
  intros H. apply fop_app in H. destruct H as (H1 & H2 & H3). apply fop_app. split; [exact H1|].
  inversion H2; subst. split; [assumption|]. intros a b Ha Hb. apply H3; [exact Ha|right; exact Hb].
Qed.

Lemma absent_dec k l : absent k l \/ exists l1 k' v l2, l = l1 ++ (k', v) :: l2 /\ absent k l1 /\ keq k k' = true.
Proof.
  induction l as [|[a b] l IH].
  - left. intros ? ? [].
  - destruct (keq k a) eqn:E.
    + right. exists [], a, b, l. split; [reflexivity|]. split; [intros ? ? []|exact E].
    + destruct IH as [IH|(l1 & k' & v & l2 & -> & H1 & H2)].
      * left. intros k2 v2 [H2|H2]; [injection H2 as -> ->; exact E|exact (IH _ _ H2)].
      * right. exists ((a, b) :: l1), k', v, l2. split; [reflexivity|]. split; [|exact H2].
        intros k2 v2 [H3|H3]; [injection H3 as -> ->; exact E|exact (H1 _ _ H3)].
Qed.
End Assoc.

Section DictProof.
Context {K V : Type}.
Variable keq same : K -> K -> bool.
Variable hash : K -> Z.
Hypothesis laws : key_laws keq same hash.

Notation entry := (entry K V).
Notation table := (table K V).
Notation dict := (dict K V).
Notation distinct := (distinct (V := V) keq).
Notation absent := (absent (V := V) keq).

(** ** Live entries *)
Definition pairs_of (e : entry) : list (K * V) :=
  match e_val e with Some v => [(e_key e, v)] | None => [] end.
Definition lives (es : list entry) : list (K * V) := flat_map pairs_of es.
Definition lv (es : list entry) (i : Z) : option entry :=
  match zget es i with
  | Some e => match e_val e with Some _ => Some e | None => None end
  | None => None
  end.

Lemma lives_app a b : lives (a ++ b) = lives a ++ lives b.
Proof. apply flat_map_app. Qed.
Lemma lives_len es : (length (lives es) <= length es)%nat.
Proof.
  unfold lives. induction es as [|e es IH]; cbn [flat_map length]; [lia|]. rewrite app_length.
  unfold pairs_of at 1. destruct (e_val e); cbn [length]; lia.
Qed.
Lemma in_lives k v es : In (k, v) (lives es) <-> exists i e, lv es i = Some e /\ e_key e = k /\ e_val e = Some v.
Proof.
  unfold lives. rewrite in_flat_map. split.
  - intros (e & H1 & H2). destruct (In_nth_error _ _ H1) as (n & H3). exists (Z.of_nat n), e.
    unfold lv. rewrite zget_of_nat, H3. unfold pairs_of in H2. destruct (e_val e); [|destruct H2].
    destruct H2 as [H2|[]]. injection H2 as -> ->. repeat split; reflexivity.
  - intros (i & e & H1 & H2 & H3). exists e. unfold lv in H1. destruct (zget es i) as [e'|] eqn:E; [|discriminate].
    destruct (e_val e') eqn:E2; [|discriminate]. injection H1 as ->. split.
    + unfold zget in E. destruct (i <? 0); [discriminate|]. eapply nth_error_In. exact E.
    + unfold pairs_of. rewrite H3. left. rewrite H2. reflexivity.
Qed.

(** ** The index array of a hashed table *)
Definition nonempty (idx : list Z) : Z := zlen (filter (fun x => negb (x =? EMPTY)) idx).

Record hinv (size : Z) (idx : list Z) (L : Z -> option entry) (u : Z) : Prop := {
  h_pow : exists k, size = 2 ^ Z.of_nat k /\ (3 <= k <= 62)%nat;
  h_len : zlen idx = size;
  h_val : forall i x, zget idx i = Some x -> x = EMPTY \/ x = DUMMY \/ (0 <= x /\ L x <> None);
  h_inj : forall i j x, zget idx i = Some x -> zget idx j = Some x -> 0 <= x -> i = j;
  h_reach : forall x e, L x = Some e -> 0 <= x /\ e_hash e = hash (e_key e) /\
              exists n, zget idx (slot size (e_hash e) n) = Some x /\
                        forall m, (m < n)%nat -> zget idx (slot size (e_hash e) m) <> Some EMPTY;
  h_cnt : nonempty idx + u <= 2 * size / 3
}.

Lemma nonempty_app a b : nonempty (a ++ b) = nonempty a + nonempty b.
Proof. unfold nonempty. rewrite filter_app, zlen_app. reflexivity. Qed.
Lemma nonempty_cons x a : nonempty (x :: a) = (if x =? EMPTY then 0 else 1) + nonempty a.
Proof. unfold nonempty. cbn [filter]. destruct (x =? EMPTY); cbn [negb]; [reflexivity|]. unfold zlen. cbn [length]. lia. Qed.
Lemma nonempty_set idx i x y : zget idx i = Some x -> exists idx', zset idx i y = Some idx' /\
  nonempty idx' = nonempty idx + (if x =? EMPTY then 1 else 0) - (if y =? EMPTY then 1 else 0).
Proof.
  intros H. destruct (zset_split idx i x H) as (l1 & l2 & -> & _ & H2). eexists. split; [apply H2|].
  rewrite !nonempty_app, !nonempty_cons. destruct (x =? EMPTY), (y =? EMPTY); lia.
Qed.
Lemma nonempty_repeat n : nonempty (repeat EMPTY n) = 0.
Proof. induction n as [|n IH]; [reflexivity|]. cbn [repeat]. rewrite nonempty_cons, IH. reflexivity. Qed.
Lemma nonempty_nonneg idx : 0 <= nonempty idx.
Proof. apply zlen_nonneg. Qed.
Lemma has_empty idx : nonempty idx < zlen idx -> exists i, zget idx i = Some EMPTY.
Proof.
  induction idx as [|x idx IH]; intros H; [cbn in H; lia|]. rewrite nonempty_cons in H.
  unfold zlen in H. cbn [length] in H. destruct (x =? EMPTY) eqn:E.
  - exists 0. cbn. f_equal. lia.
  - destruct IH as (i & Hi); [unfold zlen; lia|]. pose proof (zget_range _ _ _ Hi). exists (i + 1).
    rewrite zget_nat in * by lia. replace (Z.to_nat (i + 1)) with (S (Z.to_nat i)) by lia. exact Hi.
Qed.

Section WithTable.
Variables (size : Z) (idx : list Z) (L : Z -> option entry) (u : Z).
Hypothesis HI : hinv size idx L u.

Lemma h_pow2 : pow2size size.
Proof. destruct (h_pow _ _ _ _ HI) as (k & E & H). exists k. split; [exact E|lia]. Qed.
Lemma h_size8 : 8 <= size.
Proof.
  destruct (h_pow _ _ _ _ HI) as (k & -> & H). change 8 with (2 ^ 3). apply Z.pow_le_mono_r; lia.
Qed.
Lemma h_zget i : 0 <= i < size -> exists x, zget idx i = Some x.
Proof. intros H. apply zget_some. rewrite (h_len _ _ _ _ HI). exact H. Qed.
Lemma h_slot h n : exists x, zget idx (slot size h n) = Some x.
Proof. apply h_zget, slot_range, h_pow2. Qed.
Lemma h_empty : 0 <= u -> exists s, 0 <= s < size /\ zget idx s = Some EMPTY.
Proof.
  intros Hu. destruct (has_empty idx) as (s & Hs).
  - rewrite (h_len _ _ _ _ HI). pose proof (h_cnt _ _ _ _ HI). pose proof h_size8.
    assert (2 * size / 3 < size) by (apply Z.div_lt_upper_bound; lia). lia.
  - exists s. split; [|exact Hs]. rewrite <- (h_len _ _ _ _ HI). exact (zget_range _ _ _ Hs).
Qed.

(** Placing a new live entry [e] as number [x]. *)
Lemma h_place e x n old : L x = None -> 0 <= x -> e_hash e = hash (e_key e) ->
  zget idx (slot size (e_hash e) n) = Some old -> old = EMPTY \/ old = DUMMY ->
  (forall m, (m < n)%nat -> zget idx (slot size (e_hash e) m) <> Some EMPTY) ->
  exists idx', zset idx (slot size (e_hash e) n) x = Some idx' /\
    hinv size idx' (fun y => if y =? x then Some e else L y) (u - 1).
Proof.
  intros HL Hx He Hold Ho Hm. pose proof (zget_range _ _ _ Hold) as R.
  destruct (zset_get idx _ x R) as (idx' & E1 & E2 & E3).
  destruct (nonempty_set idx _ old x Hold) as (idx2 & E4 & E5). rewrite E1 in E4. injection E4 as <-.
  exists idx'. split; [exact E1|]. set (s := slot size (e_hash e) n) in *.
  assert (Hnox : forall j, zget idx j <> Some x).
  { intros j Hj. destruct (h_val _ _ _ _ HI j x Hj) as [H|[H|[_ H]]]; unfold EMPTY, DUMMY in *; try lia. congruence. }
  constructor.
  - exact (h_pow _ _ _ _ HI).
  - rewrite E2. exact (h_len _ _ _ _ HI).
  - intros i y. rewrite E3. destruct (i =? s) eqn:E.
    + intros H. injection H as <-. right. right. split; [exact Hx|]. rewrite Z.eqb_refl. discriminate.
    + intros H. destruct (h_val _ _ _ _ HI i y H) as [H1|[H1|[H0 H1]]]; [left; exact H1|right; left; exact H1|].
      right. right. split; [exact H0|]. destruct (y =? x); [discriminate|exact H1].
  - intros i j y. rewrite !E3. destruct (i =? s) eqn:Ei, (j =? s) eqn:Ej; intros H1 H2 H3.
    + lia.
    + injection H1 as <-. exfalso. exact (Hnox j H2).
    + injection H2 as <-. exfalso. exact (Hnox i H1).
    + exact (h_inj _ _ _ _ HI i j y H1 H2 H3).
  - intros y e'. destruct (y =? x) eqn:Ey.
    + intros H. injection H as <-. split; [lia|]. split; [exact He|]. exists n. split.
      * fold s. rewrite E3, Z.eqb_refl. f_equal. lia.
      * intros m Hmn. rewrite E3. destruct (_ =? s); [unfold EMPTY; intros H; injection H; lia|exact (Hm m Hmn)].
    + intros H. destruct (h_reach _ _ _ _ HI y e' H) as (H0 & H1 & n' & H2 & H3).
      split; [exact H0|]. split; [exact H1|]. exists n'. split.
      * rewrite E3. destruct (_ =? s) eqn:Es; [|exact H2]. exfalso.
        apply Z.eqb_eq in Es. rewrite Es in H2. rewrite Hold in H2. injection H2 as ->.
        unfold EMPTY, DUMMY in Ho. lia.
      * intros m Hmn. rewrite E3. destruct (_ =? s); [unfold EMPTY; intros H4; injection H4; lia|exact (H3 m Hmn)].
  - rewrite E5. pose proof (h_cnt _ _ _ _ HI). destruct (x =? EMPTY) eqn:Ex; [unfold EMPTY in Ex; lia|].
    destruct (old =? EMPTY); lia.
Qed.

(** Removing the entry [x], whose slot is [i]. *)
Lemma h_kill L' i x : zget idx i = Some x -> 0 <= x ->
  (forall y, L' y = if y =? x then None else L y) ->
  exists idx', zset idx i DUMMY = Some idx' /\ hinv size idx' L' u.
Proof.
  intros Hi Hx HL. pose proof (zget_range _ _ _ Hi) as R.
  destruct (zset_get idx i DUMMY R) as (idx' & E1 & E2 & E3).
  destruct (nonempty_set idx i x DUMMY Hi) as (idx2 & E4 & E5). rewrite E1 in E4. injection E4 as <-.
  exists idx'. split; [exact E1|].
  constructor.
  - exact (h_pow _ _ _ _ HI).
  - rewrite E2. exact (h_len _ _ _ _ HI).
  - intros j y. rewrite E3. destruct (j =? i) eqn:E.
    + intros H. injection H as <-. right. left. reflexivity.
    + intros H. destruct (h_val _ _ _ _ HI j y H) as [H1|[H1|[H0 H1]]]; [left; exact H1|right; left; exact H1|].
      right. right. split; [exact H0|]. rewrite HL. destruct (y =? x) eqn:Ey; [|exact H1].
      apply Z.eqb_eq in Ey. subst y. pose proof (h_inj _ _ _ _ HI i j x Hi H Hx). lia.
  - intros a b y. rewrite !E3. destruct (a =? i) eqn:Ea, (b =? i) eqn:Eb; intros H1 H2 H3.
    + lia.
    + injection H1 as <-. unfold DUMMY in H3. lia.
    + injection H2 as <-. unfold DUMMY in H3. lia.
    + exact (h_inj _ _ _ _ HI a b y H1 H2 H3).
  - intros y e. rewrite HL. destruct (y =? x) eqn:Ey; [discriminate|]. intros H.
    destruct (h_reach _ _ _ _ HI y e H) as (H0 & H1 & n & H2 & H3).
    split; [exact H0|]. split; [exact H1|]. exists n. split.
    + rewrite E3. destruct (_ =? i) eqn:Es; [|exact H2]. exfalso. apply Z.eqb_eq in Es.
      rewrite Es, Hi in H2. injection H2 as ->. lia.
    + intros m Hm. rewrite E3. destruct (_ =? i); [unfold EMPTY, DUMMY; intros H4; injection H4; lia|exact (H3 m Hm)].
  - rewrite E5. pose proof (h_cnt _ _ _ _ HI). destruct (x =? EMPTY) eqn:Ex; [unfold EMPTY in Ex; lia|].
    replace (DUMMY =? EMPTY) with false by reflexivity. lia.
Qed.

(** [lookdict_index] finds the slot of a live entry. *)
Lemma h_find_slot x e : L x = Some e ->
  exists n, zget idx (slot size (e_hash e) n) = Some x /\
    probe_from size (e_hash e) (fun i => (do y <- orUB (zget idx i);
      Ok (if y =? x then Some i else if y =? EMPTY then Some EMPTY else None))) = Ok (slot size (e_hash e) n).
Proof.
  intros H. destruct (h_reach _ _ _ _ HI x e H) as (H0 & H1 & n & H2 & H3).
  pose proof (kl_u64 _ _ _ laws (e_key e)) as Hh. rewrite <- H1 in Hh.
  destruct (probe_stops (fun i => do y <- orUB (zget idx i);
      Ok (if y =? x then Some i else if y =? EMPTY then Some EMPTY else None)) size (e_hash e)
      (slot size (e_hash e) n) h_pow2 Hh (slot_range _ _ _ h_pow2)) as (n' & r & P1 & P2 & P3).
  - intros i Hi. destruct (h_zget i Hi) as (y & Hy). rewrite Hy. cbn [orUB bindr]. eexists. reflexivity.
  - rewrite H2. cbn [orUB bindr]. rewrite Z.eqb_refl. eexists. reflexivity.
  - assert (Hnn : (n' <= n)%nat).
    { destruct (le_lt_dec n' n) as [Hl|Hl]; [exact Hl|]. specialize (P2 n Hl). rewrite H2 in P2.
      cbn [orUB bindr] in P2. rewrite Z.eqb_refl in P2. discriminate. }
    destruct (h_slot (e_hash e) n') as (y & Hy). rewrite Hy in P1. cbn [orUB bindr] in P1.
    destruct (y =? x) eqn:Ey.
    + apply Z.eqb_eq in Ey. subst y. injection P1 as <-. exists n'. split; [exact Hy|exact P3].
    + exfalso. destruct (y =? EMPTY) eqn:Ee; [|discriminate]. apply Z.eqb_eq in Ee. subst y.
      destruct (Nat.eq_dec n' n) as [->|Hne].
      * rewrite H2 in Hy. injection Hy as ->. lia.
      * apply (H3 n' ltac:(lia)). exact Hy.
Qed.

(** A free slot for a new key. *)
Lemma h_free h : 0 <= u -> 0 <= h < 2 ^ 64 -> exists n old,
  zget idx (slot size h n) = Some old /\ (old = EMPTY \/ old = DUMMY) /\
    (forall m, (m < n)%nat -> zget idx (slot size h m) <> Some EMPTY) /\
    probe_from size h (fun i => do ix <- orUB (zget idx i); Ok (if ix >=? 0 then None else Some i)) = Ok (slot size h n).
Proof.
  intros Hu Hh. destruct (h_empty Hu) as (s & Hs & Es).
  destruct (probe_stops (fun i => do ix <- orUB (zget idx i); Ok (if ix >=? 0 then None else Some i))
     size h s h_pow2 Hh Hs) as (n & r & P1 & P2 & P3).
  - intros i Hi. destruct (h_zget i Hi) as (y & Hy). rewrite Hy. cbn [orUB bindr]. eexists. reflexivity.
  - rewrite Es. eexists. reflexivity.
  - destruct (h_slot h n) as (y & Hy). rewrite Hy in P1. cbn [orUB bindr] in P1.
    destruct (y >=? 0) eqn:Ey; [discriminate|]. injection P1 as <-.
    exists n, y. split; [exact Hy|]. split.
    + destruct (h_val _ _ _ _ HI _ _ Hy) as [H|[H|[H _]]]; [left; exact H|right; exact H|lia].
    + split; [|exact P3]. intros m Hm Hc. specialize (P2 m Hm). rewrite Hc in P2. discriminate.
Qed.
(** The slot taken by [build_indices]. *)
Lemma h_free_build h : 0 <= u -> 0 <= h < 2 ^ 64 -> exists n,
  zget idx (slot size h n) = Some EMPTY /\
    (forall m, (m < n)%nat -> zget idx (slot size h m) <> Some EMPTY) /\
    probe_from size h (fun i => do x <- orUB (zget idx i); Ok (if x =? EMPTY then Some i else None)) = Ok (slot size h n).
Proof.
  intros Hu Hh. destruct (h_empty Hu) as (s & Hs & Es).
  destruct (probe_stops (fun i => do x <- orUB (zget idx i); Ok (if x =? EMPTY then Some i else None))
     size h s h_pow2 Hh Hs) as (n & r & P1 & P2 & P3).
  - intros i Hi. destruct (h_zget i Hi) as (y & Hy). rewrite Hy. cbn [orUB bindr]. eexists. reflexivity.
  - rewrite Es. eexists. reflexivity.
  - destruct (h_slot h n) as (y & Hy). rewrite Hy in P1. cbn [orUB bindr] in P1.
    destruct (y =? EMPTY) eqn:Ey; [|discriminate]. injection P1 as <-.
    exists n. split; [rewrite Hy; f_equal; lia|]. split; [|exact P3].
    intros m Hm Hc. specialize (P2 m Hm). rewrite Hc in P2. discriminate.
Qed.
End WithTable.

Lemma hinv_ext size idx L L' u : (forall x, L x = L' x) -> hinv size idx L u -> hinv size idx L' u.
Proof.
  intros H [H1 H2 H3 H4 H5 H6]. constructor; [exact H1|exact H2| |exact H4| |exact H6].
  - intros i x. rewrite <- H. apply H3.
  - intros x e. rewrite <- H. apply H5.
Qed.
Lemma hinv_weaken size idx L u u' : u' <= u -> hinv size idx L u -> hinv size idx L u'.
Proof. intros H [H1 H2 H3 H4 H5 H6]. constructor; try assumption. lia. Qed.

Lemma lv_snoc es e i : e_val e <> None -> lv (es ++ [e]) i = if i =? zlen es then Some e else lv es i.
Proof.
  intros H. unfold lv. rewrite zget_app1. destruct (i =? zlen es); [|reflexivity].
  destruct (e_val e); [reflexivity|congruence].
Qed.
Lemma lv_len es : lv es (zlen es) = None.
Proof.
  unfold lv. destruct (zget es (zlen es)) eqn:E; [|reflexivity]. pose proof (zget_range _ _ _ E). lia.
Qed.
Lemma lv_some es i e : lv es i = Some e <-> zget es i = Some e /\ e_val e <> None.
Proof.
  unfold lv. destruct (zget es i) as [e'|]; [|split; [discriminate|intros [H _]; discriminate]].
  destruct (e_val e') eqn:E; split.
  - intros H. injection H as ->. split; [reflexivity|congruence].
  - intros [H _]. exact H.
  - discriminate.
  - intros [H1 H2]. injection H1 as ->. congruence.
Qed.

(** ** build_indices *)
Definition rehash (e : entry) : entry := mkEntry (hash (e_key e)) (e_key e) (e_val e).
Lemma lives_rehash es : lives (map rehash es) = lives es.
Proof. unfold lives. induction es as [|e es IH]; [reflexivity|]. cbn [map flat_map]. rewrite IH. reflexivity. Qed.

Lemma build_ok size oldsize es : forall pre idx u,
  hinv size idx (lv pre) u -> zlen es <= u ->
  Forall (fun e => e_val e <> None /\ (oldsize >? INIT_SIZE = true -> e_hash e = hash (e_key e))) es ->
  exists idx', build_indices hash oldsize size idx (zlen pre) es = Ok (idx', map rehash es) /\
    hinv size idx' (lv (pre ++ map rehash es)) (u - zlen es).
Proof.
  induction es as [|e es IH]; intros pre idx u HI Hu HF.
  - exists idx. split; [reflexivity|]. cbn [map]. rewrite app_nil_r. replace (u - zlen []) with u by (cbn; lia). exact HI.
  - inversion HF as [|? ? [He1 He2] HF']; subst. cbn [build_indices].
    assert (Eh : (if oldsize >? INIT_SIZE then e_hash e else hash (e_key e)) = hash (e_key e)).
    { destruct (oldsize >? INIT_SIZE); [apply He2|]; reflexivity. }
    rewrite Eh. assert (Hz : zlen (e :: es) = 1 + zlen es) by (unfold zlen; cbn [length]; lia).
    rewrite Hz in *. pose proof (zlen_nonneg es).
    destruct (h_free_build _ _ _ _ HI (hash (e_key e)) ltac:(lia) (kl_u64 _ _ _ laws _)) as (n & F1 & F2 & F3).
    rewrite F3. cbn [bindr].
    destruct (h_place _ _ _ _ HI (rehash e) (zlen pre) n EMPTY (lv_len pre) (zlen_nonneg pre) eq_refl F1
                (or_introl eq_refl) F2) as (idx' & E1 & E2).
    cbn [rehash e_hash] in E1. rewrite E1. cbn [orUB bindr].
    destruct (IH (pre ++ [rehash e]) idx' (u - 1)) as (idx2 & B1 & B2).
    + eapply hinv_ext; [|exact E2]. intros x. symmetry. apply lv_snoc. exact He1.
    + lia.
    + exact HF'.
    + rewrite zlen_app in B1. change (zlen [rehash e]) with 1 in B1. rewrite B1. cbn [bindr].
      exists idx2. split; [reflexivity|]. rewrite <- app_assoc in B2. cbn [map]. cbn [app] in B2.
      replace (u - (1 + zlen es)) with (u - 1 - zlen es) by lia. exact B2.
Qed.


(** ** The table invariant *)
Record sinv (t : table) : Prop := {
  s_size : tb_size t = INIT_SIZE;
  s_len : zlen (tb_idx t) = 4;
  s_2 : zget (tb_idx t) 2 = Some EMPTY;
  s_hi : tb_hi t = 0 \/ (tb_hi t = DUMMY /\ tb_usable t = 0)
}.
Definition hashed (t : table) : Prop :=
  hinv (tb_size t) (tb_idx t) (lv (tb_ents t)) (tb_usable t) /\ tb_hi t = 0.
Record tinv (t : table) : Prop := {
  t_use : 0 <= tb_usable t;
  t_cap : zlen (tb_ents t) + tb_usable t <= 2 * tb_size t / 3;
  t_kind : sinv t \/ hashed t
}.
Definition dinv (d : dict) (l : list (K * V)) : Prop :=
  d_num d = zlen l /\ distinct l /\
  match d_tab d with
  | None => l = []
  | Some t => tinv t /\ lives (tb_ents t) = l
  end.
Definition oobd (d : dict) : bool := match d_tab d with Some t => tb_oob t | None => false end.

Lemma hashed_gt t : hashed t -> tb_size t > INIT_SIZE.
Proof. intros [H _]. pose proof (h_size8 _ _ _ _ H). unfold INIT_SIZE. lia. Qed.
Lemma tinv_hi t : tinv t -> 0 < tb_usable t -> tb_hi t = 0.
Proof. intros [H1 H2 [[_ _ _ [H|[_ H]]]|[_ H]]] Hu; [exact H|lia|exact H]. Qed.

(** ** dictresize *)
Lemma new_size_ok n : 0 <= n <= 2 ^ 28 ->
  exists k, new_size 62 INIT_SIZE (3 * n) = Ok (2 ^ Z.of_nat k) /\ (2 <= k <= 62)%nat /\
            3 * n <= 2 ^ Z.of_nat k /\ (k = 2%nat \/ 2 ^ Z.of_nat k < 6 * n).
Proof.
  intros Hn.
  assert (G : forall fuel j, (2 <= j)%nat -> (fuel + j = 64)%nat -> (j <= 62)%nat ->
    (j = 2%nat \/ 2 ^ Z.of_nat j < 6 * n) ->
    exists k, new_size fuel (2 ^ Z.of_nat j) (3 * n) = Ok (2 ^ Z.of_nat k) /\ (2 <= k <= 62)%nat /\
            3 * n <= 2 ^ Z.of_nat k /\ (k = 2%nat \/ 2 ^ Z.of_nat k < 6 * n)).
  { induction fuel as [|fuel IH]; intros j H1 H2 H3 H4; [lia|]. cbn [new_size].
    destruct (2 ^ Z.of_nat j <? 3 * n) eqn:E.
    - rewrite Z.shiftl_mul_pow2 by lia. change (2 ^ 1) with 2.
      replace (2 ^ Z.of_nat j * 2) with (2 ^ Z.of_nat (S j)) by (rewrite Nat2Z.inj_succ, Z.pow_succ_r by lia; ring).
      assert (Hj : (j <= 40)%nat).
      { destruct (le_lt_dec j 40) as [H|H]; [exact H|]. exfalso.
        assert (2 ^ 40 <= 2 ^ Z.of_nat j) by (apply Z.pow_le_mono_r; lia).
        change (2 ^ 40) with 1099511627776 in *. change (2 ^ 28) with 268435456 in *. lia. }
      apply IH; [lia|lia|lia|]. right. rewrite Nat2Z.inj_succ, Z.pow_succ_r by lia. lia.
    - exists j. repeat split; [lia|lia|lia|exact H4]. }
  apply (G 62%nat 2%nat); [lia|lia|lia|left; reflexivity].
Qed.

Definition liveb (e : entry) : bool := match e_val e with Some _ => true | None => false end.
Lemma filter_lives es : lives (filter liveb es) = lives es.
Proof.
  induction es as [|e es IH]; [reflexivity|]. cbn [filter]. unfold liveb at 1.
  change (lives (e :: es)) with (pairs_of e ++ lives es). unfold pairs_of at 1.
  destruct (e_val e) eqn:E; [|exact IH].
  change (lives (e :: filter liveb es)) with (pairs_of e ++ lives (filter liveb es)).
  unfold pairs_of at 1. rewrite E, IH. reflexivity.
Qed.
Lemma filter_len es : zlen (filter liveb es) = zlen (lives es).
Proof.
  unfold zlen. f_equal. induction es as [|e es IH]; [reflexivity|]. cbn [filter]. unfold liveb at 1.
  change (lives (e :: es)) with (pairs_of e ++ lives es). unfold pairs_of at 1. rewrite app_length.
  destruct (e_val e); cbn [length]; lia.
Qed.
Lemma filter_full es : length (filter liveb es) = length es -> filter liveb es = es.
Proof.
  assert (G : forall es, (length (filter liveb es) <= length es)%nat).
  { induction es0 as [|e es0 IH]; [reflexivity|]. cbn [filter]. destruct (liveb e); cbn [length]; lia. }
  induction es as [|e es IH]; intros H; [reflexivity|]. cbn [filter] in *.
  destruct (liveb e); cbn [length] in *; [f_equal; apply IH; lia|]. specialize (G es). lia.
Qed.
Lemma copy_live_ok es : copy_live (length (filter liveb es)) es = Ok (filter liveb es).
Proof.
  induction es as [|e es IH]; [reflexivity|]. cbn [filter]. destruct (liveb e) eqn:E.
  - cbn [length copy_live]. unfold liveb in E. destruct (e_val e); [|discriminate]. rewrite IH. reflexivity.
  - destruct (length (filter liveb es)) as [|n] eqn:En.
    + cbn [copy_live]. destruct (filter liveb es); [reflexivity|discriminate].
    + cbn [copy_live] in *. unfold liveb in E. destruct (e_val e); [discriminate|]. exact IH.
Qed.

Lemma hinv_fresh k : (3 <= k <= 62)%nat ->
  hinv (2 ^ Z.of_nat k) (repeat EMPTY (Z.to_nat (2 ^ Z.of_nat k))) (lv []) (2 * 2 ^ Z.of_nat k / 3).
Proof.
  intros Hk. assert (0 < 2 ^ Z.of_nat k) by (apply Z.pow_pos_nonneg; lia).
  assert (G : forall i x, zget (repeat EMPTY (Z.to_nat (2 ^ Z.of_nat k))) i = Some x -> x = EMPTY).
  { intros i x. unfold zget. destruct (i <? 0); [discriminate|]. intros H1. apply nth_error_In in H1.
    exact (repeat_spec _ _ _ H1). }
  constructor.
  - exists k. split; [reflexivity|exact Hk].
  - unfold zlen. rewrite repeat_length. lia.
  - intros i x H1. left. exact (G i x H1).
  - intros i j x H1 _ H2. pose proof (G i x H1). unfold EMPTY in *. lia.
  - intros x e H1. exfalso. unfold lv, zget in H1. destruct (x <? 0); [discriminate|].
    destruct (Z.to_nat x); discriminate.
  - rewrite nonempty_repeat. lia.
Qed.

Lemma zget_repeat_in {A} (x : A) n i : 0 <= i < Z.of_nat n -> zget (repeat x n) i = Some x.
Proof.
  intros H. rewrite zget_nat by lia. rewrite ne_repeat. destruct (_ <? _)%nat eqn:E; [reflexivity|lia].
Qed.

Lemma use_pos s n : 4 <= s -> 3 * n <= s -> 0 <= n -> n + 1 <= 2 * s / 3.
Proof. intros. apply Z.div_le_lower_bound; lia. Qed.

(** An empty dict gets a fresh small table, whatever the old one. *)
Lemma resize0 d : d_num d = 0 -> exists d', dictresize hash d = Ok d' /\ dinv d' [] /\ oobd d' = oobd d /\
  exists t, d_tab d' = Some t /\ tb_size t = INIT_SIZE /\ 0 < tb_usable t.
Proof.
  intros H. unfold dictresize. rewrite H.
  change (new_size 62 INIT_SIZE (3 * 0)) with (Ok 4). cbn [bindr]. change (0 >? 0) with false. cbn [bindr].
  eexists. split; [reflexivity|]. split.
  - split; [reflexivity|]. split; [constructor|]. cbn [d_tab]. split; [|reflexivity].
    constructor; cbn [tb_usable tb_ents tb_size]; [vm_compute; discriminate|vm_compute; discriminate|].
    left. constructor; cbn [tb_usable tb_ents tb_size tb_idx tb_hi]; try reflexivity. left. reflexivity.
  - split; [reflexivity|]. eexists. split; [reflexivity|]. split; [reflexivity|vm_compute; reflexivity].
Qed.

Lemma resize_ok d l : dinv d l -> zlen l <= 2 ^ 28 ->
  exists d' t, dictresize hash d = Ok d' /\ dinv d' l /\ oobd d' = oobd d /\ d_tab d' = Some t /\
    0 < tb_usable t /\ (8 < tb_size t -> 3 <= zlen l).
Proof.
  intros Hd Hn. destruct (Z.eq_dec (zlen l) 0) as [H0|H0].
  { destruct Hd as (Hd & _). destruct (resize0 d ltac:(lia)) as (d' & E1 & E2 & E3 & t & E4 & E5 & E6).
    exists d', t. assert (l = []) by (destruct l; [reflexivity|unfold zlen in H0; cbn in H0; lia]). subst l.
    repeat split; try assumption; [apply E2|apply E2|apply E2|]. rewrite E5. unfold INIT_SIZE. lia. }
  pose proof (zlen_nonneg l). destruct Hd as (Hd & HD & Ht).
  destruct (d_tab d) as [t|] eqn:Et; [|subst l; cbn in H0; lia]. destruct Ht as (Ht & Hl).
  assert (Es : (if nent_long t =? zlen l
                then if zlen l <=? zlen (tb_ents t) then Ok (firstn (Z.to_nat (zlen l)) (tb_ents t)) else UB
                else copy_live (Z.to_nat (zlen l)) (tb_ents t)) = Ok (filter liveb (tb_ents t))).
  { assert (El : Z.to_nat (zlen l) = length (filter liveb (tb_ents t))).
    { rewrite <- Hl, <- filter_len. unfold zlen. lia. }
    destruct (nent_long t =? zlen l) eqn:E; [|rewrite El; apply copy_live_ok].
    unfold nent_long in E.
    assert (Hhi : tb_hi t = 0).
    { destruct (t_kind _ Ht) as [Hs|[_ Hs]]; [|exact Hs]. destruct (s_hi _ Hs) as [Hs'|[Hs1 Hs2]]; [exact Hs'|].
      exfalso. pose proof (t_cap _ Ht) as Hc. rewrite (s_size _ Hs) in Hc. change (2 * INIT_SIZE / 3) with 2 in Hc.
      rewrite Hs1 in E. unfold DUMMY in E. lia. }
    rewrite Hhi in E. destruct (zlen l <=? zlen (tb_ents t)) eqn:E2; [|lia].
    rewrite filter_full; [|unfold zlen in *; lia].
    f_equal. apply firstn_all2. unfold zlen in *. lia. }
  destruct (new_size_ok (zlen l) ltac:(lia)) as (k & K1 & K2 & K3 & K4).
  unfold dictresize. rewrite Hd, K1. cbn [bindr]. rewrite Et. cbn [orUB bindr].
  destruct (zlen l >? 0) eqn:E0; [|lia]. cbn [bindr]. rewrite Es. cbn [bindr].
  assert (Hu : zlen l + 1 <= 2 * 2 ^ Z.of_nat k / 3).
  { apply use_pos; [|lia|lia]. change 4 with (2 ^ 2). apply Z.pow_le_mono_r; lia. }
  pose proof (filter_len (tb_ents t)) as Hfl. rewrite Hl in Hfl.
  destruct (Nat.eq_dec k 2) as [->|Hk].
  - change (2 ^ Z.of_nat 2) with 4 in *. change (4 >? INIT_SIZE) with false. cbn [bindr].
    eexists. eexists. split; [reflexivity|]. split.
    + split; [reflexivity|]. split; [exact HD|]. cbn [d_tab tb_ents]. split.
      * constructor; cbn [tb_usable tb_size tb_ents]; [lia|lia|]. left.
        constructor; cbn [tb_size tb_idx tb_hi tb_usable]; try reflexivity. left. reflexivity.
      * rewrite filter_lives. exact Hl.
    + split; [unfold oobd; rewrite Et; reflexivity|]. split; [reflexivity|]. cbn [tb_usable tb_size]. lia.
  - assert (Hg : 2 ^ Z.of_nat k >? INIT_SIZE = true).
    { assert (2 ^ 3 <= 2 ^ Z.of_nat k) by (apply Z.pow_le_mono_r; lia). unfold INIT_SIZE. change (2 ^ 3) with 8 in *. lia. }
    rewrite Hg. 
    destruct (build_ok (2 ^ Z.of_nat k) (tb_size t) (filter liveb (tb_ents t)) [] _ _ (hinv_fresh k ltac:(lia)))
      as (idx' & B1 & B2).
    + lia.
    + apply Forall_forall. intros e He. apply filter_In in He. destruct He as [He1 He2]. split.
      * unfold liveb in He2. destruct (e_val e); discriminate.
      * intros Hsz. destruct (t_kind _ Ht) as [Hs|[Hs _]].
        -- rewrite (s_size _ Hs) in Hsz. discriminate.
        -- destruct (In_nth_error _ _ He1) as (j & Hj). apply (h_reach _ _ _ _ Hs (Z.of_nat j)).
           unfold lv. rewrite zget_of_nat, Hj. unfold liveb in He2. destruct (e_val e); [reflexivity|discriminate].
    + change (zlen (@nil entry)) with 0 in B1. rewrite B1. cbn [bindr app] in *.
      eexists. eexists. split; [reflexivity|].
      assert (Hml : zlen (map rehash (filter liveb (tb_ents t))) = zlen l).
      { unfold zlen in *. rewrite map_length. exact Hfl. }
      split.
      * split; [reflexivity|]. split; [exact HD|]. cbn [d_tab tb_ents]. split.
        -- constructor; cbn [tb_usable tb_size tb_ents]; [lia|lia|]. right.
           split; cbn [tb_size tb_idx tb_hi tb_usable tb_ents]; [|reflexivity]. rewrite <- Hfl. exact B2.
        -- rewrite lives_rehash, filter_lives. exact Hl.
      * split; [unfold oobd; rewrite Et; reflexivity|]. split; [reflexivity|]. cbn [tb_usable tb_size]. split; [lia|].
        destruct K4 as [K4|K4]; [lia|]. intros H8.
        destruct (Nat.eq_dec k 3) as [->|Hk3]; [exfalso; change (2 ^ Z.of_nat 3) with 8 in H8; lia|].
        assert (2 ^ 4 <= 2 ^ Z.of_nat k) by (apply Z.pow_le_mono_r; lia). change (2 ^ 4) with 16 in *. lia.
Qed.

(** ** lookdict *)
Lemma match_keq (e : entry) key : (same (e_key e) key || keq key (e_key e)) = keq key (e_key e).
Proof.
  destruct (same (e_key e) key) eqn:E; [|reflexivity]. apply (kl_same _ _ _ laws) in E. rewrite <- E.
  rewrite (kl_refl _ _ _ laws). reflexivity.
Qed.
Lemma match_hash (e : entry) key h : e_hash e = hash (e_key e) -> h = hash key ->
  (same (e_key e) key || ((e_hash e =? h) && keq key (e_key e))) = keq key (e_key e).
Proof.
  intros H1 H2. destruct (same (e_key e) key) eqn:E.
  - apply (kl_same _ _ _ laws) in E. rewrite <- E. rewrite (kl_refl _ _ _ laws). reflexivity.
  - cbn [orb]. destruct (keq key (e_key e)) eqn:E2; [|apply andb_false_r].
    apply (kl_hash _ _ _ laws) in E2. rewrite H1, H2, E2, Z.eqb_refl. reflexivity.
Qed.

Definition found (t : table) (key : K) (r : option (Z * V)) : Prop :=
  match r with
  | None => absent key (lives (tb_ents t))
  | Some (ix, v) => exists e, zget (tb_ents t) ix = Some e /\ e_val e = Some v /\ keq key (e_key e) = true
  end.

Lemma linear_ok key es : forall pre, 
  match linear keq same key (zlen pre) es with
  | None => absent key (lives es)
  | Some (ix, v) => exists e, zget (pre ++ es) ix = Some e /\ e_val e = Some v /\ keq key (e_key e) = true
  end.
Proof.
  induction es as [|e es IH]; intros pre; cbn [linear].
  - intros ? ? [].
  - specialize (IH (pre ++ [e])). rewrite zlen_app, <- app_assoc in IH. change (zlen [e]) with 1 in IH. cbn [app] in IH.
    destruct (e_val e) as [v|] eqn:Ev.
    + rewrite match_keq. destruct (keq key (e_key e)) eqn:Ek.
      * exists e. split; [|split; assumption]. unfold zlen. rewrite zget_of_nat.
        rewrite nth_error_app2 by lia. rewrite Nat.sub_diag. reflexivity.
      * destruct (linear keq same key (zlen pre + 1) es) as [[ix w]|]; [exact IH|].
        change (lives (e :: es)) with (pairs_of e ++ lives es). unfold pairs_of. rewrite Ev.
        intros k2 v2 [H|H]; [injection H as <- <-; exact Ek|exact (IH _ _ H)].
    + destruct (linear keq same key (zlen pre + 1) es) as [[ix w]|]; [exact IH|].
      change (lives (e :: es)) with (pairs_of e ++ lives es). unfold pairs_of. rewrite Ev. exact IH.
Qed.

Lemma lookdict_ok d t h key : d_tab d = Some t -> tinv t -> (hashed t -> h = hash key) ->
  exists r, lookdict keq same d h key = Ok r /\ found t key r.
Proof.
  intros Ed Ht Hh. unfold lookdict. rewrite Ed.
  destruct (t_kind _ Ht) as [Hs|Hs].
  - rewrite (s_size _ Hs), Z.eqb_refl. eexists. split; [reflexivity|].
    apply (linear_ok key (tb_ents t) []).
  - pose proof (hashed_gt _ Hs). specialize (Hh Hs). destruct Hs as [Hs Hhi].
    destruct (tb_size t =? INIT_SIZE) eqn:E; [lia|].
    destruct (h_empty _ _ _ _ Hs (t_use _ Ht)) as (s & Hs1 & Hs2).
    match goal with |- context [probe_from _ _ ?v] => set (visit := v) end.
    assert (Hvis : forall i, 0 <= i < tb_size t -> exists x, zget (tb_idx t) i = Some x /\
       visit i = (if x =? EMPTY then Ok (Some None)
                  else match lv (tb_ents t) x with
                       | Some e => if keq key (e_key e)
                                   then Ok (Some (match e_val e with Some v => Some (x, v) | None => None end))
                                   else Ok None
                       | None => Ok None
                       end)).
    { intros i Hi. destruct (h_zget _ _ _ _ Hs i Hi) as (x & Hx). exists x. split; [exact Hx|].
      unfold visit. rewrite Hx. cbn [orUB bindr]. destruct (x =? EMPTY) eqn:Ex; [reflexivity|].
      destruct (h_val _ _ _ _ Hs i x Hx) as [Hv|[Hv|[Hv0 Hv]]].
      - lia.
      - subst x. reflexivity.
      - destruct (x >=? 0) eqn:Ex0; [|lia]. destruct (lv (tb_ents t) x) as [e|] eqn:El; [|congruence].
        destruct (h_reach _ _ _ _ Hs x e El) as (_ & Hr & _).
        apply lv_some in El. destruct El as [El El2]. rewrite El. cbn [orUB bindr].
        destruct (e_val e) as [v|]; [|congruence]. rewrite (match_hash _ _ _ Hr Hh).
        destruct (keq key (e_key e)); reflexivity. }
    destruct (probe_stops visit (tb_size t) h s (h_pow2 _ _ _ _ Hs)) as (n & r & P1 & P2 & P3).
    + rewrite Hh. apply (kl_u64 _ _ _ laws).
    + exact Hs1.
    + intros i Hi. destruct (Hvis i Hi) as (x & _ & ->). destruct (x =? EMPTY); [eexists; reflexivity|].
      destruct (lv (tb_ents t) x) as [e|]; [destruct (keq key (e_key e))|]; eexists; reflexivity.
    + destruct (Hvis s Hs1) as (x & Hx & ->). rewrite Hs2 in Hx. injection Hx as <-. eexists. reflexivity.
    + exists r. split; [exact P3|].
      destruct (Hvis _ (slot_range _ h n (h_pow2 _ _ _ _ Hs))) as (x & Hx1 & Hx2). rewrite Hx2 in P1.
      destruct (x =? EMPTY) eqn:Ex.
      * injection P1 as <-. apply Z.eqb_eq in Ex. subst x. cbn [found]. intros k' v Hin.
        apply in_lives in Hin. destruct Hin as (i & e & Hl & <- & Hv).
        destruct (keq key (e_key e)) eqn:Ek; [|reflexivity]. exfalso.
        destruct (h_reach _ _ _ _ Hs i e Hl) as (R0 & R1 & m & R2 & R3).
        assert (Eh : e_hash e = h) by (rewrite R1, Hh; symmetry; apply (kl_hash _ _ _ laws); exact Ek).
        rewrite Eh in *. destruct (lt_eq_lt_dec m n) as [[Hm| ->]|Hm].
        -- specialize (P2 m Hm). destruct (Hvis _ (slot_range _ h m (h_pow2 _ _ _ _ Hs))) as (y & Hy1 & Hy2).
           rewrite P2 in Hy2. rewrite R2 in Hy1. injection Hy1 as <-.
           destruct (i =? EMPTY) eqn:Ei; [unfold EMPTY in Ei; lia|]. rewrite Hl, Ek in Hy2. discriminate.
        -- rewrite R2 in Hx1. injection Hx1 as ->. unfold EMPTY in R0. lia.
        -- exact (R3 n Hm Hx1).
      * destruct (lv (tb_ents t) x) as [e|] eqn:El; [|discriminate].
        destruct (keq key (e_key e)) eqn:Ek; [|discriminate]. injection P1 as <-.
        apply lv_some in El. destruct El as [El El2]. destruct (e_val e) as [v|] eqn:Ev; [|congruence].
        cbn [found]. exists e. repeat split; assumption.
Qed.

(** The pair found, in the list of live pairs. *)
Lemma found_split t key ix v l : lives (tb_ents t) = l -> distinct l -> found t key (Some (ix, v)) ->
  exists e l1 l2 a b, tb_ents t = l1 ++ e :: l2 /\ zlen l1 = ix /\ e_val e = Some v /\
    (forall e', zset (tb_ents t) ix e' = Some (l1 ++ e' :: l2)) /\ zget (tb_ents t) ix = Some e /\
    a = lives l1 /\ b = lives l2 /\ l = a ++ (e_key e, v) :: b /\ keq key (e_key e) = true /\ absent key a /\
    absent key b.
Proof.
  intros Hl HD (e & H1 & H2 & H3). destruct (zset_split _ _ _ H1) as (l1 & l2 & E1 & E2 & E3).
  assert (El : l = lives l1 ++ (e_key e, v) :: lives l2).
  { rewrite <- Hl, E1, lives_app. change (lives (e :: l2)) with (pairs_of e ++ lives l2).
    unfold pairs_of. rewrite H2. reflexivity. }
  exists e, l1, l2, (lives l1), (lives l2). repeat (split; [first [assumption|reflexivity]|]).
  rewrite El in HD.
  split; [eapply distinct_before|eapply distinct_after]; eassumption.
Qed.

(** ** insertdict *)
Lemma lv_update (es l1 l2 : list entry) (e e' : entry) :
  es = l1 ++ e :: l2 -> forall y, lv (l1 ++ e' :: l2) y =
    if y =? zlen l1 then (match e_val e' with Some _ => Some e' | None => None end) else lv es y.
Proof.
  intros -> y. unfold lv, zget, zlen. destruct (y <? 0) eqn:E.
  - destruct (y =? _) eqn:E2; [lia|reflexivity].
  - destruct (y =? Z.of_nat (length l1)) eqn:E2.
    + rewrite nth_error_app2 by lia. replace (Z.to_nat y - length l1)%nat with O by lia. reflexivity.
    + rewrite !ne_app. destruct (_ <? _)%nat eqn:E3; [reflexivity|].
      destruct (Z.to_nat y - length l1)%nat eqn:E4; [lia|]. reflexivity.
Qed.

(** Changing the value of a live entry keeps the index array valid. *)
Lemma hinv_value size idx es l1 l2 e u w : hinv size idx (lv es) u -> es = l1 ++ e :: l2 -> e_val e <> None ->
  hinv size idx (lv (l1 ++ mkEntry (e_hash e) (e_key e) (Some w) :: l2)) u.
Proof.
  intros [H1 H2 H3 H4 H5 H6] Ees He. set (e' := mkEntry (e_hash e) (e_key e) (Some w)).
  assert (G : forall y, lv (l1 ++ e' :: l2) y = if y =? zlen l1 then Some e' else lv es y)
    by (intros y; rewrite (lv_update es l1 l2 e e' Ees); reflexivity).
  assert (Ge : lv es (zlen l1) = Some e).
  { apply lv_some. split; [|exact He]. rewrite Ees. unfold zlen. rewrite zget_of_nat, nth_error_app2 by lia.
    rewrite Nat.sub_diag. reflexivity. }
  constructor; [exact H1|exact H2| |exact H4| |exact H6].
  - intros i x Hi. destruct (H3 i x Hi) as [H|[H|[H0 H]]]; [left; exact H|right; left; exact H|].
    right. right. split; [exact H0|]. rewrite G. destruct (x =? zlen l1); [discriminate|exact H].
  - intros x e2. rewrite G. destruct (x =? zlen l1) eqn:E; [|apply H5].
    intros H. injection H as <-. apply Z.eqb_eq in E. subst x. exact (H5 _ e Ge).
Qed.

Lemma insert_ok d l h key v : dinv d l -> zlen l <= 2 ^ 28 ->
  (forall t, d_tab d = Some t -> hashed t -> h = hash key) ->
  exists d', insertdict keq same hash d h key v = Ok d' /\ dinv d' (put keq key v l) /\ oobd d' = oobd d.
Proof.
  intros Hd Hn Hh. unfold insertdict.
  match goal with |- context [bindr ?r0 _] => set (r := r0) end.
  assert (Hr : exists d1 t1, r = Ok d1 /\ dinv d1 l /\ oobd d1 = oobd d /\ d_tab d1 = Some t1 /\
      0 < tb_usable t1 /\ (hashed t1 -> (if tb_size t1 =? 2 * INIT_SIZE then hash key else h) = hash key)).
  { destruct (d_tab d) as [t|] eqn:Et.
    - destruct (tb_usable t <=? 0) eqn:Eu.
      + destruct (resize_ok d l Hd ltac:(lia)) as (d' & t' & E1 & E2 & E3 & E4 & E5 & E6).
        exists d', t'. repeat (split; [first [exact E1|exact E2|exact E3|exact E4|exact E5]|]).
        intros Hs. destruct (tb_size t' =? 2 * INIT_SIZE) eqn:E8; [reflexivity|].
        apply (Hh t eq_refl). destruct Hd as (_ & _ & Hd). rewrite Et in Hd. destruct Hd as (Ht & Hl).
        destruct (t_kind _ Ht) as [Hsm|Hs']; [|exact Hs']. exfalso.
        pose proof (t_cap _ Ht) as Hc. rewrite (s_size _ Hsm) in Hc. change (2 * INIT_SIZE / 3) with 2 in Hc.
        pose proof (t_use _ Ht). destruct Hs as [Hs _]. pose proof (h_size8 _ _ _ _ Hs).
        unfold INIT_SIZE in E8. specialize (E6 ltac:(lia)). pose proof (lives_len (tb_ents t)) as Hll.
        rewrite Hl in Hll. unfold zlen in *. lia.
      + exists d, t. split; [reflexivity|]. split; [exact Hd|]. split; [reflexivity|]. split; [exact Et|].
        split; [lia|]. intros Hs. rewrite (Hh t eq_refl Hs). destruct (_ =? _); reflexivity.
    - destruct Hd as (Hd1 & Hd2 & Hd3). rewrite Et in Hd3. subst l.
      destruct (resize0 d Hd1) as (d' & E1 & E2 & E3 & t' & E4 & E5 & E6).
      exists d', t'. repeat (split; [first [exact E1|exact E2|exact E3|exact E4|exact E6]|]).
      intros Hs. pose proof (hashed_gt _ Hs). lia. }
  destruct Hr as (d1 & t1 & -> & Hd1 & Ho & Et1 & Hu & Hh1). cbn [bindr]. rewrite Et1. cbn [orUB bindr].
  set (h1 := if tb_size t1 =? 2 * INIT_SIZE then hash key else h) in *. clearbody h1.
  destruct Hd1 as (D1 & D2 & D3). rewrite Et1 in D3. destruct D3 as (Ht & Hl).
  destruct (lookdict_ok d1 t1 h1 key Et1 Ht Hh1) as (r & -> & Hf). cbn [bindr].
  destruct r as [[ix v0]|].
  - destruct (found_split t1 key ix v0 l Hl D2 Hf) as (e & l1 & l2 & a & b & F1 & F2 & F3 & F4 & F5 & Ha & Hb & F6 & F7 & F8 & F9).
    rewrite F5. cbn [orUB bindr]. rewrite F4. cbn [orUB bindr].
    eexists. split; [reflexivity|]. split.
    + rewrite F6, put_at by assumption. rewrite F6 in D2. split; [|split].
      * cbn [d_num]. rewrite D1, F6. rewrite !zlen_app. unfold zlen. cbn [length]. reflexivity.
      * eapply distinct_mid. exact D2.
      * cbn [d_tab tb_ents]. split.
        -- destruct Ht as [T1 T2 T3]. assert (Hz : zlen (l1 ++ mkEntry (e_hash e) (e_key e) (Some v) :: l2) = zlen (tb_ents t1)).
           { rewrite F1, !zlen_app. unfold zlen. cbn [length]. reflexivity. }
           constructor; cbn [tb_usable tb_size tb_ents]; [exact T1|rewrite Hz; exact T2|].
           destruct T3 as [[S1 S2 S3 S4]|[S1 S2]].
           ++ left. constructor; assumption.
           ++ right. split; [|exact S2]. cbn [tb_size tb_idx tb_ents tb_usable].
              eapply hinv_value; [exact S1|exact F1|congruence].
        -- rewrite lives_app. change (lives (mkEntry (e_hash e) (e_key e) (Some v) :: l2)) with ((e_key e, v) :: lives l2).
           rewrite Ha, Hb. reflexivity.
    + rewrite <- Ho. unfold oobd. rewrite Et1. reflexivity.
  - cbn [found] in Hf. rewrite Hl in Hf.
    pose proof (tinv_hi t1 Ht Hu) as Hhi.
    assert (Hnl : nent_long t1 = zlen (tb_ents t1)) by (unfold nent_long; rewrite Hhi; lia).
    pose proof (t_cap _ Ht) as Hcap. pose proof (zlen_nonneg (tb_ents t1)) as Hen.
    assert (Hw : exists i t2, find_empty_slot t1 h1 = Ok i /\ write_index t1 i (zlen (tb_ents t1)) = Ok t2 /\
       tb_size t2 = tb_size t1 /\ tb_usable t2 = tb_usable t1 /\ tb_ents t2 = tb_ents t1 /\ tb_oob t2 = tb_oob t1 /\
       tb_hi t2 = 0 /\
       ((tb_size t1 = INIT_SIZE /\ zlen (tb_idx t2) = 4 /\ zget (tb_idx t2) 2 = Some EMPTY) \/
        hinv (tb_size t1) (tb_idx t2) (lv (tb_ents t1 ++ [mkEntry h1 key (Some v)])) (tb_usable t1 - 1))).
    { unfold find_empty_slot, write_index. destruct (t_kind _ Ht) as [Hs|Hs].
      - rewrite (s_size _ Hs) in *. rewrite Z.eqb_refl. change (2 * INIT_SIZE / 3) with 2 in Hcap.
        exists (nent_long t1). rewrite Hnl. destruct (zlen (tb_ents t1) =? -1) eqn:E; [lia|].
        destruct (zset_get (tb_idx t1) (zlen (tb_ents t1)) (zlen (tb_ents t1))) as (idx' & Z1 & Z2 & Z3).
        { rewrite (s_len _ Hs). lia. }
        rewrite Z1. cbn [orUB bindr]. eexists. split; [reflexivity|]. split; [reflexivity|].
        cbn [tb_size tb_usable tb_ents tb_oob tb_hi tb_idx]. repeat (split; [first [reflexivity|exact Hhi]|]).
        left. split; [reflexivity|]. split; [rewrite Z2; exact (s_len _ Hs)|].
        rewrite Z3. destruct (2 =? zlen (tb_ents t1)) eqn:E2; [lia|exact (s_2 _ Hs)].
      - pose proof (hashed_gt _ Hs). specialize (Hh1 Hs). destruct Hs as [Hs _].
        destruct (tb_size t1 =? INIT_SIZE) eqn:E; [lia|].
        destruct (h_free _ _ _ _ Hs h1 ltac:(lia)) as (n & old & F1 & F2 & F3 & F4).
        { rewrite Hh1. apply (kl_u64 _ _ _ laws). }
        exists (slot (tb_size t1) h1 n). rewrite F4.
        pose proof (slot_range (tb_size t1) h1 n (h_pow2 _ _ _ _ Hs)) as Hsr.
        destruct (slot (tb_size t1) h1 n =? -1) eqn:E1; [lia|].
        destruct (h_place _ _ _ _ Hs (mkEntry h1 key (Some v)) (zlen (tb_ents t1)) n old (lv_len _) Hen Hh1 F1 F2 F3)
          as (idx' & P1 & P2). cbn [e_hash] in P1. rewrite P1. cbn [orUB bindr].
        eexists. split; [reflexivity|]. split; [reflexivity|].
        cbn [tb_size tb_usable tb_ents tb_oob tb_hi tb_idx]. repeat (split; [first [reflexivity|exact Hhi]|]).
        right. eapply hinv_ext; [|exact P2]. intros x. symmetry. apply lv_snoc. discriminate. }
    destruct Hw as (i & t2 & -> & W2 & W3 & W4 & W5 & W6 & W7 & W8). cbn [bindr]. rewrite Hnl.
    destruct ((0 <=? zlen (tb_ents t1)) && (zlen (tb_ents t1) <? 2 * tb_size t1 / 3)) eqn:Eb; [|lia].
    rewrite W2. cbn [bindr]. eexists. split; [reflexivity|]. split.
    + rewrite put_absent by exact Hf. split; [|split].
      * cbn [d_num]. rewrite D1, zlen_app. reflexivity.
      * apply (distinct_snoc keq same hash laws); assumption.
      * cbn [d_tab tb_ents]. rewrite W5. split.
        -- constructor; cbn [tb_usable tb_size tb_ents]; [lia|rewrite W3, W4, zlen_app; change (zlen [mkEntry h1 key (Some v)]) with 1; lia|].
           destruct W8 as [(S1 & S2 & S3)|S1].
           ++ left. constructor; cbn [tb_size tb_idx tb_hi tb_usable]; [congruence|exact S2|exact S3|left; exact W7].
           ++ right. split; cbn [tb_size tb_idx tb_hi tb_usable tb_ents]; [|exact W7]. rewrite W3, W4. exact S1.
        -- rewrite lives_app, Hl. reflexivity.
    + rewrite <- Ho. unfold oobd. rewrite Et1. cbn [d_tab tb_oob]. exact W6.
Qed.

(** ** Removal *)
Lemma key_hash_ok t key : hashed t -> key_hash hash t key = hash key.
Proof. intros H. pose proof (hashed_gt _ H). unfold key_hash. destruct (tb_size t >? INIT_SIZE) eqn:E; [reflexivity|lia]. Qed.

Lemma num0 d l : dinv d l -> (d_num d =? 0) = true -> l = [].
Proof. intros (H & _) E. destruct l; [reflexivity|]. unfold zlen in H. cbn in H. lia. Qed.
Lemma num1 d l : dinv d l -> (d_num d =? 0) = false -> exists t, d_tab d = Some t /\ tinv t /\ lives (tb_ents t) = l.
Proof.
  intros (H & _ & H2) E. destruct (d_tab d) as [t|]; [exists t; split; [reflexivity|exact H2]|].
  subst l. cbn in H. lia.
Qed.

(** The slots visited in a small table from hash 0: 0, 1, 2. *)
Lemma small_index t ix : sinv t -> 0 <= ix ->
  exists i, lookdict_index t 0 ix = Ok i /\ -1 <= i < 2.
Proof.
  intros Hs Hx. unfold lookdict_index, probe_from. rewrite (s_size _ Hs).
  pose proof (s_2 _ Hs) as H2. pose proof (s_len _ Hs) as Hl.
  destruct (zget_some (tb_idx t) 0 ltac:(lia)) as (x0 & H0).
  destruct (zget_some (tb_idx t) 1 ltac:(lia)) as (x1 & H1).
  change (Z.to_nat INIT_SIZE + 14)%nat with 18%nat.
  change (Z.land 0 (INIT_SIZE - 1)) with 0. cbn [probe]. rewrite H0. cbn [orUB bindr].
  destruct (x0 =? ix); [eexists; split; [reflexivity|lia]|].
  destruct (x0 =? EMPTY); [eexists; split; [reflexivity|unfold EMPTY; lia]|].
  change (Z.land (wrapU 64 (0 * 5 + Z.shiftr 0 5 + 1)) (INIT_SIZE - 1)) with 1. rewrite H1. cbn [orUB bindr].
  destruct (x1 =? ix); [eexists; split; [reflexivity|lia]|].
  destruct (x1 =? EMPTY); [eexists; split; [reflexivity|unfold EMPTY; lia]|].
  change (Z.land (wrapU 64 (1 * 5 + Z.shiftr (Z.shiftr 0 5) 5 + 1)) (INIT_SIZE - 1)) with 2. rewrite H2. cbn [orUB bindr].
  destruct (EMPTY =? ix) eqn:E; [unfold EMPTY in E; lia|].
  eexists. split; [reflexivity|unfold EMPTY; lia].
Qed.

Lemma remove_ok d l key : dinv d l -> zlen l <= 2 ^ 28 ->
  exists d', dict_remove keq same hash d key = Ok (lookup keq key l, d') /\ dinv d' (del keq key l) /\
    (lookup keq key l = None \/ 3 <= zlen l -> oobd d' = oobd d).
Proof.
  intros Hd Hn. unfold dict_remove. destruct (d_num d =? 0) eqn:E0.
  { pose proof (num0 d l Hd E0). subst l. exists d. split; [reflexivity|]. split; [exact Hd|]. reflexivity. }
  destruct (num1 d l Hd E0) as (t & Et & Ht & Hl). rewrite Et. cbn [orUB bindr].
  destruct (lookdict_ok d t (key_hash hash t key) key Et Ht (key_hash_ok t key)) as (r & -> & Hf). cbn [bindr].
  destruct Hd as (D1 & D2 & D3).
  destruct r as [[ix v0]|].
  2:{ cbn [found] in Hf. rewrite Hl in Hf. rewrite lookup_absent, del_absent by exact Hf. exists d.
      split; [reflexivity|]. split; [|reflexivity]. split; [exact D1|]. split; [exact D2|exact D3]. }
  destruct (found_split t key ix v0 l Hl D2 Hf)
    as (e & l1 & l2 & a & b & F1 & F2 & F3 & F4 & F5 & Ha & Hb & F6 & F7 & F8 & F9).
  rewrite F5. cbn [orUB bindr]. pose proof (zlen_nonneg l1) as Hix.
  assert (Hlk : lookup keq key l = Some v0) by (rewrite F6; apply lookup_at; assumption).
  assert (Hdl : del keq key l = a ++ b) by (rewrite F6; apply del_at; assumption).
  assert (Hzl : zlen l = zlen (a ++ b) + 1) by (rewrite F6, !zlen_app; unfold zlen; cbn [length]; lia).
  assert (Hdist : distinct (a ++ b)) by (rewrite F6 in D2; eapply distinct_drop; exact D2).
  set (e' := mkEntry (e_hash e) (e_key e) None).
  assert (Hlv : lives (l1 ++ e' :: l2) = a ++ b) by (rewrite lives_app, Ha, Hb; reflexivity).
  assert (Hlen : zlen (l1 ++ e' :: l2) = zlen (tb_ents t)) by (rewrite F1, !zlen_app; unfold zlen; cbn [length]; lia).
  assert (Hw : exists i t1, lookdict_index t (key_hash hash t key) ix = Ok i /\ write_index t i DUMMY = Ok t1 /\
     tb_ents t1 = tb_ents t /\ (3 <= zlen l -> tb_oob t1 = tb_oob t) /\
     let d2 := mkDict (d_num d - 1) (Some (mkTable (tb_size t1) (tb_usable t1) (tb_hi t1) (tb_idx t1)
                 (l1 ++ e' :: l2) (tb_oob t1))) in
     (dinv d2 (a ++ b) \/ d_num d2 = 0 /\ 0 < tb_size t1)).
  { pose proof (lives_len (tb_ents t)) as Hll. rewrite Hl in Hll. pose proof (t_cap _ Ht) as Hcap.
    pose proof (t_use _ Ht) as Huse.
    destruct (t_kind _ Ht) as [Hs|Hs].
    - pose proof (s_size _ Hs) as Hsz. rewrite Hsz in Hcap. change (2 * INIT_SIZE / 3) with 2 in Hcap.
      unfold key_hash. rewrite Hsz. change (INIT_SIZE >? INIT_SIZE) with false. cbv iota.
      destruct (small_index t ix Hs ltac:(lia)) as (i & I1 & I2). exists i. rewrite I1.
      unfold write_index. destruct (i =? -1) eqn:Ei.
      + eexists. split; [reflexivity|]. split; [reflexivity|]. cbn [tb_ents tb_oob tb_size tb_usable tb_hi tb_idx].
        split; [reflexivity|]. split; [unfold zlen in *; lia|].
        destruct (Z.eq_dec (zlen l) 1) as [H1|H1]; [right; cbn [d_num]; split; [lia|rewrite Hsz; reflexivity]|].
        left. split; [cbn [d_num]; lia|]. split; [exact Hdist|]. cbn [d_tab tb_ents]. split; [|exact Hlv].
        assert (2 <= zlen l) by (rewrite Hzl in *; pose proof (zlen_nonneg (a ++ b)); lia).
        constructor; cbn [tb_usable tb_size tb_ents]; [exact Huse|rewrite Hlen, Hsz; exact Hcap|].
        left. constructor; cbn [tb_size tb_idx tb_hi tb_usable]; [exact Hsz|exact (s_len _ Hs)|exact (s_2 _ Hs)|].
        right. split; [reflexivity|]. unfold zlen in *. lia.
      + destruct (zset_get (tb_idx t) i DUMMY) as (idx' & Z1 & Z2 & Z3); [rewrite (s_len _ Hs); lia|].
        rewrite Z1. cbn [orUB bindr]. eexists. split; [reflexivity|]. split; [reflexivity|].
        cbn [tb_ents tb_oob tb_size tb_usable tb_hi tb_idx]. split; [reflexivity|]. split; [reflexivity|].
        left. split; [cbn [d_num]; lia|]. split; [exact Hdist|]. cbn [d_tab tb_ents]. split; [|exact Hlv].
        constructor; cbn [tb_usable tb_size tb_ents]; [exact Huse|rewrite Hlen, Hsz; exact Hcap|].
        left. constructor; cbn [tb_size tb_idx tb_hi tb_usable];
          [exact Hsz|rewrite Z2; exact (s_len _ Hs)| |exact (s_hi _ Hs)].
        rewrite Z3. destruct (2 =? i) eqn:E2; [lia|exact (s_2 _ Hs)].
    - rewrite (key_hash_ok t key Hs). destruct Hs as [Hs Hhi].
      assert (Hlx : lv (tb_ents t) ix = Some e) by (apply lv_some; split; [exact F5|congruence]).
      destruct (h_reach _ _ _ _ Hs ix e Hlx) as (_ & R1 & _).
      assert (Eh : e_hash e = hash key) by (rewrite R1; symmetry; apply (kl_hash _ _ _ laws); exact F7).
      destruct (h_find_slot _ _ _ _ Hs ix e Hlx) as (n & S1 & S2). rewrite Eh in *.
      exists (slot (tb_size t) (hash key) n). unfold lookdict_index. rewrite S2.
      pose proof (slot_range (tb_size t) (hash key) n (h_pow2 _ _ _ _ Hs)) as Hsr.
      unfold write_index. destruct (slot (tb_size t) (hash key) n =? -1) eqn:E1; [lia|].
      destruct (h_kill _ _ _ _ Hs (lv (l1 ++ e' :: l2)) _ ix S1 ltac:(lia)) as (idx' & K1 & K2).
      { intros y. rewrite (lv_update (tb_ents t) l1 l2 e e' F1). rewrite F2. reflexivity. }
      rewrite K1. cbn [orUB bindr]. eexists. split; [reflexivity|]. split; [reflexivity|].
      cbn [tb_ents tb_oob tb_size tb_usable tb_hi tb_idx]. split; [reflexivity|]. split; [reflexivity|].
      left. split; [cbn [d_num]; lia|]. split; [exact Hdist|]. cbn [d_tab tb_ents]. split; [|exact Hlv].
      constructor; cbn [tb_usable tb_size tb_ents]; [exact Huse|rewrite Hlen; exact Hcap|].
      right. split; [exact K2|exact Hhi]. }
  destruct Hw as (i & t1 & -> & W2 & W3 & W4 & W5). cbn [bindr]. rewrite W2. cbn [bindr]. rewrite W3.
  fold e'. rewrite F4. cbn [orUB bindr]. cbv zeta in W5.
  match type of W5 with dinv ?d0 _ \/ _ => set (d2 := d0) in * end.
  cbn [d_num tb_size]. change (d_num d - 1) with (d_num d2). rewrite Hlk, Hdl, F3.
  assert (Hood : 3 <= zlen l -> oobd d2 = oobd d).
  { intros H3. unfold oobd, d2. rewrite Et. cbn [d_tab tb_oob]. apply W4. exact H3. }
  destruct (10 * d_num d2 <? tb_size t1) eqn:E10.
  - destruct W5 as [W5|[W5 _]].
    + destruct (resize_ok d2 (a ++ b) W5 ltac:(lia)) as (d' & t' & E1 & E2 & E3 & _). rewrite E1. cbn [bindr].
      exists d'. split; [reflexivity|]. split; [exact E2|]. intros [H|H]; [discriminate|]. rewrite E3. apply Hood. exact H.
    + destruct (resize0 d2 W5) as (d' & E1 & E2 & E3 & _). rewrite E1. cbn [bindr].
      exists d'. split; [reflexivity|]. split.
      * assert (Hab : a ++ b = []).
        { assert (zlen (a ++ b) = 0) by (unfold d2 in W5; cbn [d_num] in W5; lia).
          destruct (a ++ b); [reflexivity|]. unfold zlen in *. cbn [length] in *. lia. }
        rewrite Hab. exact E2.
      * intros [H|H]; [discriminate|]. rewrite E3. apply Hood. exact H.
  - cbn [bindr]. exists d2. split; [reflexivity|]. split.
    + destruct W5 as [W5|[W5 W6]]; [exact W5|lia].
    + intros [H|H]; [discriminate|]. apply Hood. exact H.
Qed.

(** ** popitem *)
Lemma lv_firstn es n y : lv (firstn n es) y = if (0 <=? y) && (y <? Z.of_nat n) then lv es y else None.
Proof.
  unfold lv, zget. destruct (y <? 0) eqn:E; [destruct (_ && _); reflexivity|]. rewrite ne_firstn.
  destruct (_ <? _)%nat eqn:E2, (_ && _) eqn:E3; try reflexivity; lia.
Qed.

Lemma popitem_loop_ok d l t : dinv d l -> d_tab d = Some t -> forall n rest,
  tb_ents t = firstn n (tb_ents t) ++ rest -> (n <= length (tb_ents t))%nat -> lives rest = [] ->
  l <> [] ->
  exists l' k v d', l = l' ++ [(k, v)] /\ popitem_loop hash d t n = Ok (Some (k, v), d') /\ dinv d' l' /\ oobd d' = oobd d.
Proof.
  intros (D1 & D2 & D3) Et. rewrite Et in D3. destruct D3 as (Ht & Hl).
  induction n as [|n IH]; intros rest Hr Hn Hrest Hne.
  - cbn [firstn app] in Hr. rewrite Hr, Hrest in Hl. congruence.
  - cbn [popitem_loop]. destruct (nth_error (tb_ents t) n) as [e|] eqn:En; [|apply nth_error_None in En; lia].
    cbn [orUB bindr].
    assert (Efs : firstn (S n) (tb_ents t) = firstn n (tb_ents t) ++ [e]).
    { destruct (nth_error_split _ _ En) as (a & b & E1 & E2). rewrite E1, <- E2.
      rewrite !firstn_app. replace (S (length a) - length a)%nat with 1%nat by lia. rewrite Nat.sub_diag.
      change (firstn 1 (e :: b)) with [e]. rewrite firstn_O, app_nil_r. rewrite !firstn_all2 by lia. reflexivity. }
    destruct (e_val e) as [v|] eqn:Ev.
    2:{ apply (IH (e :: rest)); [rewrite Efs, <- app_assoc in Hr; exact Hr|lia| |exact Hne].
        change (lives (e :: rest)) with (pairs_of e ++ lives rest). unfold pairs_of. rewrite Ev. exact Hrest. }
    rewrite Efs, <- app_assoc in Hr. cbn [app] in Hr.
    set (pre := firstn n (tb_ents t)) in *.
    assert (Epre : length pre = n) by (unfold pre; rewrite firstn_length; lia).
    assert (El : l = lives pre ++ [(e_key e, v)]).
    { rewrite <- Hl, Hr, lives_app. change (lives (e :: rest)) with (pairs_of e ++ lives rest).
      unfold pairs_of. rewrite Ev, Hrest. reflexivity. }
    assert (Hdist : distinct (lives pre)).
    { rewrite El in D2. apply fop_app in D2. apply D2. }
    assert (Hzl : zlen l = zlen (lives pre) + 1) by (rewrite El, zlen_app; reflexivity).
    assert (Hcap : zlen pre + tb_usable t <= 2 * tb_size t / 3).
    { pose proof (t_cap _ Ht) as Hc. rewrite Hr, zlen_app in Hc. pose proof (zlen_nonneg (e :: rest)). lia. }
    exists (lives pre), (e_key e), v.
    destruct (t_kind _ Ht) as [Hs|Hs].
    + rewrite (s_size _ Hs). change (INIT_SIZE >? INIT_SIZE) with false. cbn [bindr]. eexists.
      split; [exact El|]. split; [reflexivity|]. split; [|unfold oobd; rewrite Et; reflexivity].
      split; [cbn [d_num]; lia|]. split; [exact Hdist|]. cbn [d_tab tb_ents]. fold pre. split; [|reflexivity].
      constructor; cbn [tb_usable tb_size tb_ents]; [exact (t_use _ Ht)|exact Hcap|].
      left. constructor; cbn [tb_size tb_idx tb_hi tb_usable];
        [exact (s_size _ Hs)|exact (s_len _ Hs)|exact (s_2 _ Hs)|left; reflexivity].
    + pose proof (hashed_gt _ Hs). destruct (tb_size t >? INIT_SIZE) eqn:Egt; [|lia].
      destruct Hs as [Hs Hhi].
      assert (Hlx : lv (tb_ents t) (Z.of_nat n) = Some e).
      { apply lv_some. split; [rewrite zget_of_nat; exact En|congruence]. }
      destruct (h_reach _ _ _ _ Hs _ e Hlx) as (_ & R1 & _).
      destruct (h_find_slot _ _ _ _ Hs _ e Hlx) as (m & S1 & S2). rewrite R1 in *.
      unfold lookdict_index. rewrite S2. cbn [bindr].
      pose proof (slot_range (tb_size t) (hash (e_key e)) m (h_pow2 _ _ _ _ Hs)) as Hsr.
      unfold write_index. destruct (slot (tb_size t) (hash (e_key e)) m =? -1) eqn:E1; [lia|].
      destruct (h_kill _ _ _ _ Hs (lv pre) _ _ S1 ltac:(lia)) as (idx' & K1 & K2).
      { intros y. unfold pre. rewrite lv_firstn. destruct (y =? Z.of_nat n) eqn:Ey.
        - destruct (_ && _) eqn:E2; [lia|reflexivity].
        - destruct ((0 <=? y) && (y <? Z.of_nat n)) eqn:E2; [reflexivity|].
          destruct (lv (tb_ents t) y) as [e2|] eqn:E3; [|reflexivity]. exfalso.
          apply lv_some in E3. destruct E3 as [E3 E4].
          pose proof (zget_range _ _ _ E3) as Hy. rewrite zget_nat in E3 by lia.
          rewrite Hr in E3. rewrite nth_error_app2 in E3 by lia.
          destruct (Z.to_nat y - length pre)%nat as [|j] eqn:Ej; [lia|]. cbn [nth_error] in E3.
          apply nth_error_In in E3. destruct (e_val e2) as [w|] eqn:Ew; [|congruence].
          assert (Hin : In (e_key e2, w) (lives rest)).
          { unfold lives. apply in_flat_map. exists e2. split; [exact E3|]. unfold pairs_of. rewrite Ew. left. reflexivity. }
          rewrite Hrest in Hin. destruct Hin. }
      rewrite K1. cbn [orUB bindr]. eexists. split; [exact El|]. split; [reflexivity|].
      split; [|unfold oobd; rewrite Et; reflexivity].
      cbn [tb_ents tb_oob tb_size tb_usable tb_hi tb_idx].
      split; [cbn [d_num]; lia|]. split; [exact Hdist|]. cbn [d_tab tb_ents]. fold pre. split; [|reflexivity].
      constructor; cbn [tb_usable tb_size tb_ents]; [exact (t_use _ Ht)|exact Hcap|].
      right. split; [exact K2|reflexivity].
Qed.

Lemma popitem_ok d l : dinv d l ->
  exists d', dict_popitem hash d = Ok (match rev l with [] => None | kv :: _ => Some kv end, d') /\
    dinv d' (match rev l with [] => [] | _ :: r => rev r end) /\ oobd d' = oobd d.
Proof.
  intros Hd. unfold dict_popitem. destruct (d_num d =? 0) eqn:E0.
  { pose proof (num0 d l Hd E0). subst l. exists d. split; [reflexivity|]. split; [exact Hd|]. reflexivity. }
  destruct (num1 d l Hd E0) as (t & Et & Ht & Hl). rewrite Et. cbn [orUB bindr].
  assert (Hne : l <> []).
  { intros ->. destruct Hd as (Hd & _). cbn in Hd. lia. }
  destruct (popitem_loop_ok d l t Hd Et (Z.to_nat (nent_int t)) []) as (l' & k & v & d' & -> & P1 & P2 & P3).
  - unfold nent_int, zlen. rewrite Nat2Z.id, firstn_all, app_nil_r. reflexivity.
  - unfold nent_int, zlen. lia.
  - reflexivity.
  - exact Hne.
  - exists d'. rewrite P1. rewrite rev_app_distr. cbn [rev app]. rewrite rev_involutive. split; [reflexivity|].
    split; [exact P2|exact P3].
Qed.

(** ** Lookups *)
Lemma lookdict_lookup d l t h key : dinv d l -> d_tab d = Some t -> (hashed t -> h = hash key) ->
  exists r, lookdict keq same d h key = Ok r /\ option_map snd r = lookup keq key l.
Proof.
  intros (D1 & D2 & D3) Et Hh. rewrite Et in D3. destruct D3 as (Ht & Hl).
  destruct (lookdict_ok d t h key Et Ht Hh) as (r & E & Hf). exists r. split; [exact E|].
  destruct r as [[ix v]|].
  - destruct (found_split t key ix v l Hl D2 Hf)
      as (e & l1 & l2 & a & b & F1 & F2 & F3 & F4 & F5 & Ha & Hb & F6 & F7 & F8 & F9).
    rewrite F6, lookup_at by assumption. reflexivity.
  - cbn [found] in Hf. rewrite Hl in Hf. rewrite lookup_absent by exact Hf. reflexivity.
Qed.

Lemma get_ok d l key : dinv d l -> dict_get keq same hash d key = Ok (lookup keq key l).
Proof.
  intros Hd. unfold dict_get. destruct (d_tab d) as [t|] eqn:Et.
  - destruct (lookdict_lookup d l t _ key Hd Et (key_hash_ok t key)) as (r & -> & E). cbn [bindr]. rewrite <- E.
    destruct r as [[ix v]|]; reflexivity.
  - destruct Hd as (_ & _ & Hd). rewrite Et in Hd. subst l. reflexivity.
Qed.
Lemma get_def_ok d l key v0 : dinv d l ->
  dict_get_def keq same hash d key v0 = Ok (match lookup keq key l with Some x => x | None => v0 end).
Proof.
  intros Hd. unfold dict_get_def. destruct (d_tab d) as [t|] eqn:Et.
  - destruct (lookdict_lookup d l t _ key Hd Et (key_hash_ok t key)) as (r & -> & E). cbn [bindr]. rewrite <- E.
    destruct r as [[ix v]|]; reflexivity.
  - destruct Hd as (_ & _ & Hd). rewrite Et in Hd. subst l. reflexivity.
Qed.
Lemma dictD_get_ok d l key v0 : dinv d l ->
  dictD_get keq same hash d key v0 = Ok (match lookup keq key l with Some x => x | None => v0 end).
Proof.
  intros Hd. unfold dictD_get. destruct (d_num d =? 0) eqn:E0.
  - pose proof (num0 d l Hd E0). subst l. reflexivity.
  - destruct (num1 d l Hd E0) as (t & Et & _). rewrite Et. cbn [orUB bindr].
    destruct (lookdict_lookup d l t _ key Hd Et (key_hash_ok t key)) as (r & -> & E). cbn [bindr]. rewrite <- E.
    destruct r as [[ix v]|]; reflexivity.
Qed.
Lemma getitem_ok d l key : dinv d l ->
  dict_getitem keq same hash d key = match lookup keq key l with Some x => Ok x | None => Exn KeyError end.
Proof.
  intros Hd. unfold dict_getitem. destruct (d_num d =? 0) eqn:E0.
  - pose proof (num0 d l Hd E0). subst l. reflexivity.
  - destruct (num1 d l Hd E0) as (t & Et & _). rewrite Et. cbn [orUB bindr].
    destruct (lookdict_lookup d l t _ key Hd Et (key_hash_ok t key)) as (r & -> & E). cbn [bindr]. rewrite <- E.
    destruct r as [[ix v]|]; reflexivity.
Qed.
Lemma contains_ok d l key : dinv d l ->
  dict_contains keq same hash d key = Ok (match lookup keq key l with Some _ => true | None => false end).
Proof.
  intros Hd. unfold dict_contains. destruct (d_num d =? 0) eqn:E0.
  - pose proof (num0 d l Hd E0). subst l. reflexivity.
  - destruct (num1 d l Hd E0) as (t & Et & _). rewrite Et. cbn [orUB bindr].
    destruct (lookdict_lookup d l t _ key Hd Et (key_hash_ok t key)) as (r & -> & E). cbn [bindr]. rewrite <- E.
    destruct r as [[ix v]|]; reflexivity.
Qed.

Lemma put_len k v l : zlen (put keq k v l : list (K * V)) <= zlen l + 1.
Proof.
  unfold zlen. induction l as [|[a b] l IH]; cbn [put length]; [lia|].
  destruct (keq k a); cbn [length]; lia.
Qed.
Lemma setitem_ok d l key v : dinv d l -> zlen l <= 2 ^ 28 ->
  exists d', dict_setitem keq same hash d key v = Ok d' /\ dinv d' (put keq key v l) /\ oobd d' = oobd d.
Proof.
  intros Hd Hn. unfold dict_setitem. apply insert_ok; [exact Hd|exact Hn|].
  intros t Et Hs. rewrite Et. apply key_hash_ok. exact Hs.
Qed.
Lemma update_ok kvs : forall d l, dinv d l -> zlen l + zlen kvs <= 2 ^ 28 ->
  exists d', dict_update keq same hash d kvs = Ok d' /\
    dinv d' (fold_left (fun l kv => put keq (fst kv) (snd kv) l) kvs l) /\ oobd d' = oobd d.
Proof.
  induction kvs as [|[k v] kvs IH]; intros d l Hd Hn; cbn [dict_update fold_left].
  - exists d. split; [reflexivity|]. split; [exact Hd|reflexivity].
  - assert (Hz : zlen ((k, v) :: kvs) = 1 + zlen kvs) by (unfold zlen; cbn [length]; lia).
    pose proof (zlen_nonneg kvs).
    destruct (setitem_ok d l k v Hd ltac:(lia)) as (d1 & -> & E2 & E3). cbn [bindr fst snd].
    destruct (IH d1 (put keq k v l) E2) as (d2 & E4 & E5 & E6).
    + pose proof (put_len k v l). lia.
    + exists d2. split; [exact E4|]. split; [exact E5|]. congruence.
Qed.
Lemma setdefault_ok d l key v : dinv d l -> zlen l <= 2 ^ 28 ->
  exists d', dict_setdefault keq same hash d key v =
      Ok (match lookup keq key l with Some x => x | None => v end, d') /\
    dinv d' (match lookup keq key l with Some x => l | None => l ++ [(key, v)] end) /\ oobd d' = oobd d.
Proof.
  intros Hd Hn. unfold dict_setdefault.
  assert (Hr : exists r, lookdict keq same d (hash key) key = Ok r /\ option_map snd r = lookup keq key l).
  { destruct (d_tab d) as [t|] eqn:Et.
    - exact (lookdict_lookup d l t (hash key) key Hd Et (fun _ => eq_refl)).
    - exists None. unfold lookdict. rewrite Et. split; [reflexivity|].
      destruct Hd as (_ & _ & Hd). rewrite Et in Hd. subst l. reflexivity. }
  destruct Hr as (r & -> & E). cbn [bindr]. rewrite <- E. destruct r as [[ix w]|]; cbn [option_map snd].
  - exists d. split; [reflexivity|]. split; [exact Hd|reflexivity].
  - destruct (insert_ok d l (hash key) key v Hd Hn (fun _ _ _ => eq_refl)) as (d' & -> & E2 & E3). cbn [bindr].
    exists d'. split; [reflexivity|]. split; [|exact E3].
    rewrite <- (put_absent keq key v l); [exact E2|]. apply lookup_none. symmetry. exact E.
Qed.

(** ** Iteration *)
Lemma next_live_ok es : forall i,
  match lives es with
  | [] => next_live es i = Exn StopIteration
  | kv :: r => exists j, (j < length es)%nat /\ next_live es i = Ok (kv, i + Z.of_nat j + 1) /\ lives (skipn (S j) es) = r
  end.
Proof.
  induction es as [|e es IH]; intros i; [reflexivity|].
  change (lives (e :: es)) with (pairs_of e ++ lives es). unfold pairs_of. cbn [next_live].
  destruct (e_val e) as [v|].
  - cbn [app]. exists O. split; [cbn; lia|]. split; [|reflexivity]. do 2 f_equal. lia.
  - cbn [app]. specialize (IH (i + 1)). destruct (lives es) as [|kv r]; [exact IH|].
    destruct IH as (j & H1 & H2 & H3). exists (S j). cbn [length]. split; [lia|]. split; [|exact H3].
    rewrite H2. do 2 f_equal. lia.
Qed.

Lemma items_produces_from d t n : d_tab d = Some t ->
  produces (dict_items_next d) (Z.of_nat n) (lives (skipn n (tb_ents t))).
Proof.
  intros Et. remember (lives (skipn n (tb_ents t))) as l eqn:El. revert n El.
  induction l as [|kv l IH]; intros n El.
  - constructor. unfold dict_items_next. rewrite Et, Nat2Z.id.
    pose proof (next_live_ok (skipn n (tb_ents t)) (Z.of_nat n)) as H. rewrite <- El in H. exact H.
  - pose proof (next_live_ok (skipn n (tb_ents t)) (Z.of_nat n)) as H. rewrite <- El in H.
    destruct H as (j & H1 & H2 & H3). econstructor.
    + unfold dict_items_next. rewrite Et, Nat2Z.id. exact H2.
    + replace (Z.of_nat n + Z.of_nat j + 1) with (Z.of_nat (n + S j)) by lia. apply IH.
      rewrite <- H3. rewrite skipn_skipn'. reflexivity.
Qed.
Lemma items_produces d l : dinv d l -> produces (dict_items_next d) 0 l.
Proof.
  intros (_ & _ & H). destruct (d_tab d) as [t|] eqn:Et.
  - destruct H as [_ <-]. exact (items_produces_from d t 0 Et).
  - subst l. constructor. unfold dict_items_next. rewrite Et. reflexivity.
Qed.
Lemma produces_map {S A B} (nx : S -> res (A * S)) (f : A -> B) s l : produces nx s l ->
  produces (fun s => do r <- nx s; Ok (f (fst r), snd r)) s (map f l).
Proof.
  induction 1 as [s H|s x s' l H H1 IH]; cbn [map].
  - constructor. rewrite H. reflexivity.
  - econstructor; [rewrite H; reflexivity|]. exact IH.
Qed.
Lemma keys_produces d l : dinv d l -> produces (dict_keys_next d) 0 (map fst l).
Proof. intros H. exact (produces_map (dict_items_next d) fst 0 l (items_produces d l H)). Qed.
Lemma values_produces d l : dinv d l -> produces (dict_values_next d) 0 (map snd l).
Proof. intros H. exact (produces_map (dict_items_next d) snd 0 l (items_produces d l H)). Qed.

Lemma drain_ok {A} (nx : Z -> res (A * Z)) s l : produces nx s l -> forall fuel, (length l < fuel)%nat ->
  drain fuel nx s = Ok l.
Proof.
  induction 1 as [s H|s x s' l H H1 IH]; intros fuel Hf; (destruct fuel as [|fuel]; [cbn in Hf; lia|]); cbn [drain].
  - rewrite H. reflexivity.
  - rewrite H. rewrite IH by (cbn [length] in Hf; lia). reflexivity.
Qed.
Lemma drain_dict_ok {A} (nx : dict -> Z -> res (A * Z)) d l xs : dinv d l -> length xs = length l ->
  produces (nx d) 0 xs -> drain_dict nx d = Ok xs.
Proof.
  intros (_ & _ & H) Hx Hp. unfold drain_dict. apply (drain_ok _ 0 xs Hp). rewrite Hx.
  destruct (d_tab d) as [t|].
  - destruct H as [_ <-]. pose proof (lives_len (tb_ents t)). lia.
  - subst l. cbn. lia.
Qed.

(** ** Histories *)
Lemma step_ok d l op : dinv d l -> zlen l <= 2 ^ 28 -> dop_small l op ->
  fst (dict_step keq same hash d op) = fst (dict_spec keq l op) /\
  dinv (snd (dict_step keq same hash d op)) (snd (dict_spec keq l op)) /\
  (del_big keq l op -> oobd (snd (dict_step keq same hash d op)) = oobd d).
Proof.
  intros Hd Hn Ho. destruct op as [k v|k|k|k v| |k v|kvs|k|k v|k|k|k| | | | |]; cbn [dict_step dict_spec fst snd del_big].
  - destruct (setitem_ok d l k v Hd Hn) as (d' & -> & E2 & E3). cbn. split; [reflexivity|]. split; [exact E2|].
    intros _. exact E3.
  - destruct (remove_ok d l k Hd ltac:(lia)) as (d' & -> & E2 & E3). cbn. split; [reflexivity|]. split; [exact E2|exact E3].
  - destruct (remove_ok d l k Hd ltac:(lia)) as (d' & -> & E2 & E3). cbn. split; [reflexivity|]. split; [exact E2|exact E3].
  - destruct (remove_ok d l k Hd ltac:(lia)) as (d' & -> & E2 & E3). cbn. split; [reflexivity|]. split; [exact E2|exact E3].
  - destruct (popitem_ok d l Hd) as (d' & -> & E2 & E3). cbn [dupd fst snd].
    destruct (rev l) as [|kv r]; cbn [fst snd]; (split; [reflexivity|]); (split; [exact E2|intros _; exact E3]).
  - destruct (setdefault_ok d l k v Hd Hn) as (d' & -> & E2 & E3). cbn [dupd fst snd].
    destruct (lookup keq k l); cbn [fst snd]; (split; [reflexivity|]); (split; [exact E2|intros _; exact E3]).
  - cbn [dop_small] in Ho. destruct (update_ok kvs d l Hd Ho) as (d' & -> & E2 & E3). cbn [dunit fst snd].
    split; [reflexivity|]. split; [exact E2|]. intros _. exact E3.
  - rewrite (get_ok d l k Hd). split; [reflexivity|]. split; [exact Hd|reflexivity].
  - rewrite (get_def_ok d l k v Hd). split; [reflexivity|]. split; [exact Hd|reflexivity].
  - rewrite (getitem_ok d l k Hd). split; [destruct (lookup keq k l); reflexivity|]. split; [exact Hd|reflexivity].
  - rewrite (contains_ok d l k Hd). split; [reflexivity|]. split; [exact Hd|reflexivity].
  - rewrite (contains_ok d l k Hd). split; [destruct (lookup keq k l); reflexivity|]. split; [exact Hd|reflexivity].
  - split; [|split; [exact Hd|reflexivity]]. destruct Hd as (-> & _). reflexivity.
  - split; [|split; [exact Hd|reflexivity]]. destruct Hd as (-> & _). destruct l; [reflexivity|].
    reflexivity.
  - rewrite (drain_dict_ok dict_keys_next d l (map fst l) Hd (map_length _ _) (keys_produces d l Hd)).
    split; [reflexivity|]. split; [exact Hd|reflexivity].
  - rewrite (drain_dict_ok dict_values_next d l (map snd l) Hd (map_length _ _) (values_produces d l Hd)).
    split; [reflexivity|]. split; [exact Hd|reflexivity].
  - rewrite (drain_dict_ok dict_items_next d l l Hd eq_refl (items_produces d l Hd)).
    split; [reflexivity|]. split; [exact Hd|reflexivity].
Qed.

Lemma run_ok ops : forall d l, dinv d l -> zlen l <= 2 ^ 28 -> dhistory_ok keq l ops ->
  fst (run_dict keq same hash d ops) = fst (run_dspec keq l ops) /\
  dinv (snd (run_dict keq same hash d ops)) (snd (run_dspec keq l ops)) /\
  (dels_big keq l ops -> oobd (snd (run_dict keq same hash d ops)) = oobd d).
Proof.
  induction ops as [|op ops IH]; intros d l Hd Hn H; cbn [run_dict run_dspec].
  - split; [reflexivity|]. split; [exact Hd|reflexivity].
  - cbn [dhistory_ok] in H. destruct H as (H1 & H2 & H3).
    destruct (step_ok d l op Hd Hn H1) as (E1 & E2 & E3).
    destruct (dict_step keq same hash d op) as [o1 d1]. destruct (dict_spec keq l op) as [o2 l1] eqn:Es.
    cbn [fst snd] in *. destruct (IH d1 l1 E2 H2 H3) as (E4 & E5 & E6).
    destruct (run_dict keq same hash d1 ops) as [os1 d2]. destruct (run_dspec keq l1 ops) as [os2 l2].
    cbn [fst snd] in *. split; [congruence|]. split; [exact E5|].
    intros [B1 B2]. rewrite Es in B2. cbn [snd] in B2. rewrite (E6 B2). exact (E3 B1).
Qed.

Lemma new_inv : dinv dict_new [].
Proof. split; [reflexivity|]. split; [constructor|]. reflexivity. Qed.

(** ** Comparison *)
Lemma lookup_cong k k2 l : keq k k2 = true -> lookup keq k l = lookup keq k2 (l : list (K * V)).
Proof.
  intros E. induction l as [|[a b] l IH]; cbn [lookup]; [reflexivity|].
  destruct (keq k a) eqn:E1, (keq k2 a) eqn:E2; try reflexivity; [| |exact IH]; exfalso.
  - apply (kl_sym _ _ _ laws) in E. rewrite (kl_trans _ _ _ laws _ _ _ E E1) in E2. discriminate.
  - rewrite (kl_trans _ _ _ laws _ _ _ E E2) in E1. discriminate.
Qed.
Lemma lookup_in k v l : distinct l -> In (k, v) l -> lookup keq k l = Some v.
Proof.
  intros HD Hi. destruct (in_split _ _ Hi) as (a & b & ->).
  pose proof (kl_refl _ _ _ laws k) as R. apply lookup_at; [|exact R].
  eapply distinct_before; [exact laws|exact HD|exact R].
Qed.
Lemma lookup_some_in k v l : lookup keq k l = Some v -> exists k', In (k', v) (l : list (K * V)) /\ keq k k' = true.
Proof.
  induction l as [|[a b] l IH]; cbn [lookup]; [discriminate|]. destruct (keq k a) eqn:E.
  - intros H. injection H as ->. exists a. split; [left; reflexivity|exact E].
  - intros H. destruct (IH H) as (k' & H1 & H2). exists k'. split; [right; exact H1|exact H2].
Qed.

Definition dom_in (a b : list (K * V)) : Prop := forall k, lookup keq k a <> None -> lookup keq k b <> None.

Lemma lookup_drop q b1 k' v' b2 : keq q k' = false ->
  lookup keq q (b1 ++ (k', v') :: b2) = lookup keq q (b1 ++ b2 : list (K * V)).
Proof.
  intros E. induction b1 as [|[x y] b1 IH]; cbn [app lookup]; [rewrite E; reflexivity|].
  destruct (keq q x); [reflexivity|exact IH].
Qed.

Lemma dom_len a : forall b, distinct a -> distinct b -> dom_in a b ->
  (length a <= length b)%nat /\ (length a = length b -> dom_in b a).
Proof.
  induction a as [|[k v] a IH]; intros b Da Db H.
  - split; [cbn; lia|]. intros E. destruct b; [|discriminate]. intros q Hq. exact Hq.
  - assert (Hk : lookup keq k b <> None).
    { apply H. cbn [lookup]. rewrite (kl_refl _ _ _ laws). discriminate. }
    destruct (absent_dec keq k b) as [Ha|(b1 & k' & v' & b2 & -> & A1 & A2)].
    { rewrite (lookup_absent keq k b Ha) in Hk. congruence. }
    inversion Da as [|? ? Da1 Da2]; subst.
    destruct (IH (b1 ++ b2) Da2 (distinct_drop keq _ _ _ Db)) as (I1 & I2).
    { intros q Hq. destruct (keq q k') eqn:Eq.
      - exfalso. destruct (lookup keq q a) as [w|] eqn:El; [|congruence].
        destruct (lookup_some_in q w a El) as (k2 & H1 & H2).
        rewrite Forall_forall in Da1. specialize (Da1 _ H1). cbn in Da1.
        assert (keq k k2 = true); [|congruence].
        apply (kl_trans _ _ _ laws k k' k2 A2). apply (kl_trans _ _ _ laws k' q k2); [|exact H2].
        apply (kl_sym _ _ _ laws). exact Eq.
      - rewrite <- (lookup_drop q b1 k' v' b2 Eq). apply H. cbn [lookup].
        destruct (keq q k); [discriminate|exact Hq]. }
    rewrite app_length in *. cbn [length]. split; [lia|]. intros El q Hq. cbn [lookup].
    destruct (keq q k) eqn:Eq; [discriminate|]. apply I2; [lia|].
    rewrite <- (lookup_drop q b1 k' v' b2); [exact Hq|].
    destruct (keq q k') eqn:Eq'; [|reflexivity]. exfalso.
    apply (kl_sym _ _ _ laws) in A2. rewrite (kl_trans _ _ _ laws _ _ _ Eq' A2) in Eq. discriminate.
Qed.

Section Cmp.
Variable veq : V -> V -> bool.
Hypothesis veq_sym : forall v w, veq v w = true -> veq w v = true.
Notation vne := (fun v w => negb (veq v w)).

Lemma submap_dom a b : submap keq veq a b -> dom_in a b.
Proof.
  intros H k Hk. destruct (lookup keq k a) as [v|] eqn:E; [|congruence].
  destruct (H k v E) as (w & -> & _). discriminate.
Qed.
Lemma submap_back a b : submap keq veq a b -> dom_in b a -> submap keq veq b a.
Proof.
  intros H D k w Hk. destruct (lookup keq k a) as [v|] eqn:E; [|exfalso; apply (D k); congruence].
  exists v. split; [reflexivity|]. destruct (H k v E) as (w' & E1 & E2). rewrite Hk in E1. injection E1 as <-.
  apply veq_sym. exact E2.
Qed.
Lemma submap_len a b : distinct a -> distinct b -> submap keq veq a b ->
  zlen a <= zlen b /\ (zlen a = zlen b <-> submap keq veq b a).
Proof.
  intros Da Db H. destruct (dom_len a b Da Db (submap_dom a b H)) as (L1 & L2).
  unfold zlen. split; [lia|]. split.
  - intros E. apply submap_back; [exact H|]. apply L2. lia.
  - intros H2. destruct (dom_len b a Db Da (submap_dom b a H2)). lia.
Qed.

(** The comparison loop, for dicts whose tables agree on the hash to use. *)
Definition hash_agree (a b : dict) : Prop :=
  match d_tab a, d_tab b with Some ta, Some tb => tb_size ta > INIT_SIZE \/ tb_size tb <= INIT_SIZE | _, _ => True end.

Lemma lookup_rep b lb (ta : table) key : dinv b lb ->
  (match d_tab b with Some tb => tb_size ta > INIT_SIZE \/ tb_size tb <= INIT_SIZE | None => True end) ->
  exists r, lookdict keq same b (key_hash hash ta key) key = Ok r /\ option_map snd r = lookup keq key lb.
Proof.
  intros Hb Hh. destruct (d_tab b) as [tb|] eqn:Eb.
  - apply (lookdict_lookup b lb tb _ key Hb Eb). intros Hs. pose proof (hashed_gt _ Hs). unfold key_hash.
    destruct (tb_size ta >? INIT_SIZE) eqn:E; [reflexivity|lia].
  - exists None. unfold lookdict. rewrite Eb. split; [reflexivity|].
    destruct Hb as (_ & _ & Hb). rewrite Eb in Hb. subst lb. reflexivity.
Qed.

Lemma rel_loop_ok a la b lb ta : dinv a la -> dinv b lb -> d_tab a = Some ta -> hash_agree a b ->
  forall es, (forall kv, In kv (lives es) -> In kv la) ->
  exists r, dictrel_loop keq same hash vne a b ta es = Ok r /\
    (r = true <-> forall k v, In (k, v) (lives es) -> exists w, lookup keq k lb = Some w /\ veq v w = true).
Proof.
  intros Ha Hb Et Hag. assert (Da : distinct la) by apply Ha.
  unfold hash_agree in Hag. rewrite Et in Hag.
  induction es as [|e es IH]; intros Hin; cbn [dictrel_loop].
  - exists true. split; [reflexivity|]. split; [intros _ k v []|reflexivity].
  - change (lives (e :: es)) with (pairs_of e ++ lives es) in *. unfold pairs_of in *.
    destruct (e_val e) as [v|]; [|exact (IH Hin)]. cbn [app] in *.
    destruct (lookup_rep a la ta (e_key e) Ha) as (ra & -> & Ra); [rewrite Et; lia|]. cbn [bindr].
    destruct (lookup_rep b lb ta (e_key e) Hb Hag) as (rb & -> & Rb). cbn [bindr].
    rewrite (lookup_in (e_key e) v la Da (Hin _ (or_introl eq_refl))) in Ra.
    destruct IH as (r & Er & IH); [intros kv Hkv; apply Hin; right; exact Hkv|].
    destruct rb as [[ixb vb]|]; cbn [option_map snd] in Rb.
    + rewrite Ra. cbn [orUB bindr]. destruct (veq v vb) eqn:Ev; cbn [negb].
      * exists r. split; [exact Er|]. rewrite IH. split.
        -- intros H k w [Hk|Hk]; [|exact (H k w Hk)]. injection Hk as <- <-. exists vb. split; [symmetry; exact Rb|exact Ev].
        -- intros H k w Hk. apply H. right. exact Hk.
      * exists false. split; [reflexivity|]. split; [discriminate|]. intros H.
        destruct (H _ _ (or_introl eq_refl)) as (w & H1 & H2). rewrite H1 in Rb. injection Rb as ->. congruence.
    + exists false. split; [reflexivity|]. split; [discriminate|]. intros H.
      destruct (H _ _ (or_introl eq_refl)) as (w & H1 & H2). congruence.
Qed.

Lemma dictrel_ok a la b lb : dinv a la -> dinv b lb -> hash_agree a b ->
  exists r, dictrel keq same hash vne false a b = Ok r /\ (r = true <-> submap keq veq la lb).
Proof.
  intros Ha Hb Hag. unfold dictrel. destruct (d_num a =? 0) eqn:E0.
  - pose proof (num0 a la Ha E0). subst la. exists true. split; [reflexivity|]. split; [|reflexivity].
    intros _ k v H. discriminate.
  - destruct (num1 a la Ha E0) as (ta & Et & Ht & Hl). rewrite Et. cbn [orUB bindr].
    destruct (rel_loop_ok a la b lb ta Ha Hb Et Hag (tb_ents ta)) as (r & Er & H).
    + intros kv. rewrite Hl. auto.
    + exists r. split; [exact Er|]. rewrite H, Hl. assert (Da : distinct la) by apply Ha. split.
      * intros G k v Hk. destruct (lookup_some_in k v la Hk) as (k' & H1 & H2).
        destruct (G k' v H1) as (w & H3 & H4). exists w. split; [|exact H4]. rewrite <- H3. apply lookup_cong. exact H2.
      * intros G k v Hk. apply G. apply lookup_in; assumption.
Qed.

Lemma eq_ok a la b lb : dinv a la -> dinv b lb -> hash_agree a b ->
  exists r, dict_eq keq same hash vne a b = Ok r /\ (r = true <-> submap keq veq la lb /\ submap keq veq lb la).
Proof.
  intros Ha Hb Hag. unfold dict_eq. destruct Ha as (A1 & A2 & A3) eqn:EA. destruct Hb as (B1 & B2 & B3) eqn:EB.
  rewrite A1, B1. destruct (zlen la =? zlen lb) eqn:E; cbn [negb].
  - destruct (dictrel_ok a la b lb Ha Hb Hag) as (r & Er & H). exists r. split; [exact Er|]. rewrite H.
    split; [|intros [G _]; exact G]. intros G. split; [exact G|]. apply (submap_len la lb A2 B2 G). lia.
  - exists false. split; [reflexivity|]. split; [discriminate|]. intros [G1 G2].
    destruct (submap_len la lb A2 B2 G1) as [_ G3]. apply G3 in G2. lia.
Qed.
Lemma lt_ok a la b lb : dinv a la -> dinv b lb -> hash_agree a b ->
  exists r, dict_lt keq same hash vne a b = Ok r /\ (r = true <-> submap keq veq la lb /\ ~ submap keq veq lb la).
Proof.
  intros Ha Hb Hag. unfold dict_lt. destruct Ha as (A1 & A2 & A3) eqn:EA. destruct Hb as (B1 & B2 & B3) eqn:EB.
  rewrite A1, B1. destruct (zlen la >=? zlen lb) eqn:E.
  - exists false. split; [reflexivity|]. split; [discriminate|]. intros [G1 G2]. exfalso. apply G2.
    destruct (submap_len la lb A2 B2 G1) as [G3 G4]. apply G4. lia.
  - destruct (dictrel_ok a la b lb Ha Hb Hag) as (r & Er & H). exists r. split; [exact Er|]. rewrite H.
    split; [|intros [G _]; exact G]. intros G. split; [exact G|]. intros G2.
    destruct (submap_len la lb A2 B2 G) as [_ G3]. apply G3 in G2. lia.
Qed.
Lemma le_ok a la b lb : dinv a la -> dinv b lb -> hash_agree a b ->
  exists r, dict_le keq same hash vne a b = Ok r /\ (r = true <-> submap keq veq la lb).
Proof.
  intros Ha Hb Hag. unfold dict_le. destruct Ha as (A1 & A2 & A3) eqn:EA. destruct Hb as (B1 & B2 & B3) eqn:EB.
  rewrite A1, B1. destruct (zlen la >? zlen lb) eqn:E.
  - exists false. split; [reflexivity|]. split; [discriminate|]. intros G. exfalso.
    destruct (submap_len la lb A2 B2 G) as [G3 _]. lia.
  - apply dictrel_ok; assumption.
Qed.
End Cmp.

Lemma big_hashed d l : dinv d l -> 3 <= zlen l -> forall t, d_tab d = Some t -> tb_size t > INIT_SIZE.
Proof.
  intros (_ & _ & H) H3 t Et. rewrite Et in H. destruct H as (Ht & Hl).
  destruct (t_kind _ Ht) as [Hs|Hs]; [|apply hashed_gt; exact Hs]. exfalso.
  pose proof (t_cap _ Ht) as Hc. rewrite (s_size _ Hs) in Hc. change (2 * INIT_SIZE / 3) with 2 in Hc.
  pose proof (t_use _ Ht). pose proof (lives_len (tb_ents t)) as Hll. rewrite Hl in Hll. unfold zlen in *. lia.
Qed.
End DictProof.

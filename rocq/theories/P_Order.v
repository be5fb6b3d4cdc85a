From Verif Require Import Base M_Order S_Order P_Base.

Section L.
Context {A : Type} (eq ne lt : A -> A -> bool) (R : A -> A -> Prop).
Hypothesis W : total_witness eq ne lt R.

Lemma list_eq_spec a b : list_eq ne a b = true <-> a = b.
Proof.
  unfold list_eq. split.
  - destruct (Nat.eqb (length a) (length b)) eqn:E; [|discriminate]. cbn [negb].
    apply Nat.eqb_eq in E. revert b E.
    induction a as [|x a IH]; intros [|y b] E H; cbn in E; try discriminate; [reflexivity|].
    cbn in H. rewrite (tw_ne _ _ _ _ W) in H. destruct (eq x y) eqn:E2; [|discriminate].
    apply (tw_eq _ _ _ _ W) in E2. subst. f_equal. apply IH; [lia|assumption].
  - intros <-. rewrite Nat.eqb_refl. cbn [negb].
    induction a as [|x a IH]; [reflexivity|]. cbn. rewrite (tw_ne _ _ _ _ W).
    assert (eq x x = true) as -> by (apply (tw_eq _ _ _ _ W); reflexivity). exact IH.
Qed.

(** The scan finds the length of the longest common prefix. *)
Lemma scan_spec a b n i :
  (i + n = Nat.min (length a) (length b))%nat -> firstn i a = firstn i b ->
  let j := scan eq a b n i in
  (i <= j <= i + n)%nat /\ firstn j a = firstn j b /\
  ((j = i + n)%nat \/ exists x y, nth_error a j = Some x /\ nth_error b j = Some y /\ x <> y).
Proof.
  revert i. induction n as [|n IH]; intros i Hn Hp; cbn [scan].
  - repeat split; try lia. assumption.
  - destruct (nth_error a i) as [x|] eqn:Ea; [|apply nth_error_None in Ea; lia].
    destruct (nth_error b i) as [y|] eqn:Eb; [|apply nth_error_None in Eb; lia].
    destruct (eq x y) eqn:E.
    + apply (tw_eq _ _ _ _ W) in E. subst y.
      assert (Hp' : firstn (S i) a = firstn (S i) b).
      { rewrite <- (firstn_skipn i a), <- (firstn_skipn i b).
        apply list_ext. intros k. rewrite !ne_firstn, !ne_app, !firstn_length.
        destruct (Nat.ltb k (S i)) eqn:Ek; [|reflexivity].
        apply Nat.ltb_lt in Ek. rewrite !ne_skipn.
        replace (Nat.min i (length a)) with i by lia. replace (Nat.min i (length b)) with i by lia.
        destruct (Nat.ltb k i) eqn:Ek2.
        - rewrite !ne_firstn, Ek2. apply Nat.ltb_lt in Ek2.
          assert (nth_error (firstn i a) k = nth_error (firstn i b) k) by (rewrite Hp; reflexivity).
          rewrite !ne_firstn in H. replace (Nat.ltb k i) with true in H by (symmetry; apply Nat.ltb_lt; lia).
          exact H.
        - apply Nat.ltb_ge in Ek2. replace (i + (k - i))%nat with i by lia. congruence. }
      specialize (IH (S i) ltac:(lia) Hp'). cbn zeta in IH.
      destruct IH as (I1 & I2 & I3). repeat split; try lia; [exact I2|].
      destruct I3 as [I3|I3]; [left; lia|right; exact I3].
    + repeat split; try lia; [assumption|]. right. exists x, y. repeat split; try assumption.
      intros ->. assert (eq y y = true) by (apply (tw_eq _ _ _ _ W); reflexivity). congruence.
Qed.

Lemma nth_split_first (a : list A) i x : nth_error a i = Some x -> a = firstn i a ++ x :: skipn (S i) a.
Proof.
  revert i. induction a as [|y a IH]; intros [|i] H; cbn in *; try discriminate.
  - congruence.
  - f_equal. apply IH. assumption.
Qed.

Lemma lex_at a b i x y :
  firstn i a = firstn i b -> nth_error a i = Some x -> nth_error b i = Some y -> x <> y ->
  (lex R a b <-> R x y).
Proof.
  intros Hp Ha Hb Hne. split.
  - intros [(z & t & ->)|(p & u & v & s & t & -> & -> & HR)].
    + exfalso. assert (i < length a)%nat by (apply nth_error_Some; congruence).
      rewrite nth_error_app1 in Hb by assumption. congruence.
    + destruct (Nat.lt_trichotomy i (length p)) as [Hl|[Hl|Hl]].
      * rewrite nth_error_app1 in Ha, Hb by assumption. congruence.
      * subst i. rewrite nth_error_app2 in Ha, Hb by lia. rewrite Nat.sub_diag in Ha, Hb.
        cbn in Ha, Hb. congruence.
      * exfalso.
        assert (E : nth_error (firstn i (p ++ u :: s)) (length p) = nth_error (firstn i (p ++ v :: t)) (length p))
          by (rewrite Hp; reflexivity).
        rewrite !ne_firstn in E. replace (Nat.ltb (length p) i) with true in E by (symmetry; apply Nat.ltb_lt; lia).
        rewrite !nth_error_app2, Nat.sub_diag in E by lia. cbn in E. injection E as ->.
        eapply (tw_irr _ _ _ _ W). exact HR.
  - intros HR. right. exists (firstn i a), x, y, (skipn (S i) a), (skipn (S i) b).
    repeat split; [apply nth_split_first; assumption| |assumption].
    rewrite Hp. apply nth_split_first; assumption.
Qed.

Lemma lex_prefix a t : lex R a (a ++ t) <-> t <> [].
Proof.
  split.
  - intros [(y & s & E)|(p & x & y & s & s' & -> & E & HR)].
    + apply app_inv_head in E. subst. discriminate.
    + rewrite <- app_assoc in E. apply app_inv_head in E. cbn in E. injection E as -> _.
      exfalso. eapply (tw_irr _ _ _ _ W). exact HR.
  - destruct t as [|y t]; [congruence|]. intros _. left. eauto.
Qed.

Lemma lex_prefix_rev b t : ~ lex R (b ++ t) b.
Proof.
  intros [(y & s & E)|(p & x & y & s & s' & E & -> & HR)].
  - apply (f_equal (@length A)) in E. rewrite !app_length in E. cbn in E. lia.
  - rewrite <- app_assoc in E. apply app_inv_head in E. cbn in E. injection E as -> _.
    eapply (tw_irr _ _ _ _ W). exact HR.
Qed.

Lemma min_if a b : (if Nat.ltb a b then a else b) = Nat.min a b.
Proof. destruct (Nat.ltb a b) eqn:E; [apply Nat.ltb_lt in E|apply Nat.ltb_ge in E]; lia. Qed.

Lemma list_lt_spec a b : exists r, list_lt eq lt a b = Ok r /\ (r = true <-> lex R a b).
Proof.
  unfold list_lt. rewrite min_if.
  pose proof (scan_spec a b (Nat.min (length a) (length b)) 0 ltac:(lia) eq_refl) as H. cbn zeta in H.
  set (j := scan eq a b _ 0) in *. destruct H as (Hj & Hp & Hd).
  destruct (Nat.eqb j (length a)) eqn:E1.
  - apply Nat.eqb_eq in E1. eexists; split; [reflexivity|].
    assert (Eb : b = a ++ skipn j b).
    { rewrite <- (firstn_skipn j b) at 1. rewrite <- Hp, E1, firstn_all. reflexivity. }
    rewrite Eb at 2. rewrite lex_prefix, Nat.ltb_lt.
    assert (length (skipn j b) = length b - j)%nat by apply skipn_length.
    destruct (skipn j b); cbn in *; split; intros; try lia; try congruence.
  - apply Nat.eqb_neq in E1. destruct (Nat.eqb j (length b)) eqn:E2.
    + apply Nat.eqb_eq in E2. eexists; split; [reflexivity|].
      assert (Ea : a = b ++ skipn j a).
      { rewrite <- (firstn_skipn j a) at 1. rewrite Hp, E2, firstn_all. reflexivity. }
      rewrite Ea. split; [discriminate|]. intros Hl. exfalso. eapply lex_prefix_rev. exact Hl.
    + apply Nat.eqb_neq in E2. destruct Hd as [Hd|(x & y & Ha & Hb & Hne)]; [lia|].
      unfold lt_at. rewrite Ha, Hb. eexists; split; [reflexivity|].
      rewrite (lex_at a b j x y) by assumption. apply (tw_lt _ _ _ _ W).
Qed.

Lemma list_le_spec a b : exists r, list_le eq lt a b = Ok r /\ (r = true <-> lex R a b \/ a = b).
Proof.
  unfold list_le. rewrite min_if.
  pose proof (scan_spec a b (Nat.min (length a) (length b)) 0 ltac:(lia) eq_refl) as H. cbn zeta in H.
  set (j := scan eq a b _ 0) in *. destruct H as (Hj & Hp & Hd).
  destruct (Nat.eqb j (length a)) eqn:E1.
  - apply Nat.eqb_eq in E1. eexists; split; [reflexivity|].
    assert (Eb : b = a ++ skipn j b).
    { rewrite <- (firstn_skipn j b) at 1. rewrite <- Hp, E1, firstn_all. reflexivity. }
    split.
    + intros _. rewrite Eb. rewrite lex_prefix. destruct (skipn j b); [right|left; discriminate].
      rewrite app_nil_r. reflexivity.
    + intros _. apply Nat.leb_le. lia.
  - apply Nat.eqb_neq in E1. destruct (Nat.eqb j (length b)) eqn:E2.
    + apply Nat.eqb_eq in E2. eexists; split; [reflexivity|].
      assert (Ea : a = b ++ skipn j a).
      { rewrite <- (firstn_skipn j a) at 1. rewrite Hp, E2, firstn_all. reflexivity. }
      split; [discriminate|]. intros [Hl|Hl]; exfalso.
      * rewrite Ea in Hl. eapply lex_prefix_rev. exact Hl.
      * subst. lia.
    + apply Nat.eqb_neq in E2. destruct Hd as [Hd|(x & y & Ha & Hb & Hne)]; [lia|].
      unfold lt_at. rewrite Ha, Hb. eexists; split; [reflexivity|].
      rewrite (lex_at a b j x y) by assumption. rewrite (tw_lt _ _ _ _ W). split; [auto|].
      intros [?| ->]; [assumption|congruence].
Qed.
End L.

(** lex is a strict total order *)
Section LexOrder.
Context {A : Type} (eq ne lt : A -> A -> bool) (R : A -> A -> Prop).
Hypothesis W : total_witness eq ne lt R.

Lemma lex_cons x y xs ys : lex R (x :: xs) (y :: ys) <-> R x y \/ (x = y /\ lex R xs ys).
Proof.
  split.
  - intros [(z & t & E)|(p & u & v & s & t & E1 & E2 & HR)].
    + cbn in E. injection E as -> ->. right. split; [reflexivity|]. left. eauto.
    + destruct p as [|w p]; cbn in E1, E2; injection E1 as -> ->; injection E2 as -> ->; [left; assumption|].
      right. split; [reflexivity|]. right. repeat eexists. assumption.
  - intros [HR|[<- [(z & t & ->)|(p & u & v & s & t & -> & -> & HR)]]].
    + right. exists [], x, y, xs, ys. auto.
    + left. exists z, t. reflexivity.
    + right. exists (x :: p), u, v, s, t. auto.
Qed.
Lemma lex_nil_l ys : lex R [] ys <-> ys <> [].
Proof.
  split.
  - intros [(z & t & ->)|(p & u & v & s & t & E & _ & _)]; [discriminate|]. destruct p; discriminate.
  - destruct ys as [|y ys]; [congruence|]. intros _. left. exists y, ys. reflexivity.
Qed.
Lemma lex_nil_r xs : ~ lex R xs [].
Proof. intros [(z & t & E)|(p & u & v & s & t & _ & E & _)]; [destruct xs|destruct p]; discriminate. Qed.

Lemma lex_irr xs : ~ lex R xs xs.
Proof.
  induction xs as [|x xs IH]; [apply lex_nil_r|]. rewrite lex_cons. intros [H|[_ H]]; [|auto].
  eapply (tw_irr _ _ _ _ W); eassumption.
Qed.
Lemma lex_trans xs ys zs : lex R xs ys -> lex R ys zs -> lex R xs zs.
Proof.
  revert ys zs. induction xs as [|x xs IH]; intros ys zs H1 H2.
  - apply lex_nil_l. intros ->. eapply lex_nil_r; eassumption.
  - destruct ys as [|y ys]; [exfalso; eapply lex_nil_r; eassumption|].
    destruct zs as [|z zs]; [exfalso; eapply lex_nil_r; eassumption|].
    rewrite lex_cons in *. destruct H1 as [H1|[-> H1]], H2 as [H2|[-> H2]]; auto.
    + left. eapply (tw_trans _ _ _ _ W); eassumption.
    + right. split; [reflexivity|]. eapply IH; eassumption.
Qed.
Lemma lex_total xs ys : lex R xs ys \/ xs = ys \/ lex R ys xs.
Proof.
  revert ys. induction xs as [|x xs IH]; intros [|y ys].
  - auto.
  - left. apply lex_nil_l. discriminate.
  - right. right. apply lex_nil_l. discriminate.
  - rewrite !lex_cons. destruct (tw_total _ _ _ _ W x y) as [H|[->|H]]; auto.
    destruct (IH ys) as [H|[->|H]]; auto.
Qed.
End LexOrder.

Section T.
Context {W : Type}.

Lemma tuple_eq_spec (wits : list (owit W)) a b :
  length a = length wits -> length b = length wits ->
  (forall i w, nth_error wits i = Some w -> forall x y, w_eq w x y = true <-> x = y) ->
  exists r, tuple_eq wits a b = Ok r /\ (r = true <-> a = b).
Proof.
  revert a b. induction wits as [|w ws IH]; intros [|x a] [|y b] La Lb H; cbn in La, Lb; try discriminate.
  - exists true. split; [reflexivity|tauto].
  - cbn [tuple_eq]. pose proof (H 0%nat w eq_refl x y) as Hw.
    destruct (w_eq w x y) eqn:E; cbn [negb].
    + destruct (IH a b ltac:(lia) ltac:(lia)) as (r & E1 & E2).
      { intros i w' Hi. apply (H (S i)). assumption. }
      exists r. split; [assumption|]. rewrite E2. destruct Hw as [Hw _]. rewrite (Hw eq_refl).
      split; [intros ->; reflexivity|congruence].
    + exists false. split; [reflexivity|]. split; [discriminate|]. intros E2. injection E2 as -> ->.
      assert (false = true) by (apply Hw; reflexivity). discriminate.
Qed.

Lemma tuple_lex_spec (wits : list (owit W)) (Rs : nat -> W -> W -> Prop) a b strict :
  length a = length wits -> length b = length wits ->
  (forall i w, nth_error wits i = Some w -> total_witness (w_eq w) (w_ne w) (w_lt w) (Rs i)) ->
  exists r, tuple_lex wits a b strict = Ok r /\
    (r = true <-> tuple_less Rs a b \/ (strict = false /\ a = b)).
Proof.
  revert Rs a b. induction wits as [|w ws IH]; intros Rs [|x a] [|y b] La Lb H; cbn in La, Lb; try discriminate.
  - exists (negb strict). split; [reflexivity|]. destruct strict; cbn; split; intros; try discriminate; auto.
    destruct H0 as [(i & x & y & _ & E & _)|[? _]]; [|discriminate]. destruct i; discriminate.
  - cbn [tuple_lex]. pose proof (H 0%nat w eq_refl) as Hw.
    destruct (w_lt w x y) eqn:E1.
    { exists true. split; [reflexivity|]. split; [|reflexivity]. intros _. left.
      exists 0%nat, x, y. repeat split. apply (tw_lt _ _ _ _ Hw). assumption. }
    destruct (w_ne w x y) eqn:E2.
    + exists false. split; [reflexivity|]. split; [discriminate|].
      assert (Hne : x <> y).
      { intros ->. rewrite (tw_ne _ _ _ _ Hw) in E2.
        assert (w_eq w y y = true) as E3 by (apply (tw_eq _ _ _ _ Hw); reflexivity). rewrite E3 in E2. discriminate. }
      intros [(i & u & v & Hp & Hu & Hv & HR)|[_ E]]; [|congruence].
      destruct i as [|i]; [|cbn in Hp; congruence].
      cbn in Hu, Hv. injection Hu as ->. injection Hv as ->.
      apply (tw_lt _ _ _ _ Hw) in HR. congruence.
    + assert (x = y) as ->.
      { apply (tw_eq _ _ _ _ Hw). rewrite (tw_ne _ _ _ _ Hw) in E2. destruct (w_eq w x y); [reflexivity|discriminate]. }
      destruct (IH (fun i => Rs (S i)) a b ltac:(lia) ltac:(lia)) as (r & E3 & E4).
      { intros i w' Hi. apply (H (S i)). assumption. }
      exists r. split; [assumption|]. rewrite E4. split.
      * intros [(i & u & v & Hp & Hu & Hv & HR)|[-> ->]]; [left|right; auto].
        exists (S i), u, v. repeat split; try assumption. cbn. congruence.
      * intros [(i & u & v & Hp & Hu & Hv & HR)|[-> E]]; [left|right; split; congruence].
        destruct i as [|i].
        -- cbn in Hu, Hv. exfalso. assert (u = v) by congruence. subst. eapply (tw_irr _ _ _ _ Hw). exact HR.
        -- exists i, u, v. cbn in Hp. repeat split; try assumption. congruence.
Qed.
End T.

Section TT.
Context {W : Type}.
Lemma tuple_comparison (wits : list (owit W)) (Rs : nat -> W -> W -> Prop) (a b : list W) :
  length a = length wits -> length b = length wits ->
  (forall i w, nth_error wits i = Some w -> total_witness (w_eq w) (w_ne w) (w_lt w) (Rs i)) ->
  (exists r, tuple_eq wits a b = Ok r /\ (r = true <-> a = b)) /\
  (exists r, tuple_ne wits a b = Ok r /\ (r = true <-> a <> b)) /\
  (exists r, tuple_lt wits a b = Ok r /\ (r = true <-> tuple_less Rs a b)) /\
  (exists r, tuple_le wits a b = Ok r /\ (r = true <-> tuple_less Rs a b \/ a = b)) /\
  (exists r, tuple_gt wits a b = Ok r /\ (r = true <-> tuple_less Rs b a)) /\
  (exists r, tuple_ge wits a b = Ok r /\ (r = true <-> tuple_less Rs b a \/ a = b)).
Proof.
  intros La Lb H.
  destruct (tuple_eq_spec wits a b La Lb) as (re & E1 & E2).
  { intros i w Hi. apply (tw_eq _ _ _ _ (H i w Hi)). }
  pose proof (tuple_lex_spec wits Rs a b true La Lb H) as (r1 & A1 & A2).
  pose proof (tuple_lex_spec wits Rs a b false La Lb H) as (r2 & B1 & B2).
  pose proof (tuple_lex_spec wits Rs b a true Lb La H) as (r3 & C1 & C2).
  pose proof (tuple_lex_spec wits Rs b a false Lb La H) as (r4 & D1 & D2).
  repeat split.
  - exists re. auto.
  - exists (negb re). unfold tuple_ne. rewrite E1. split; [reflexivity|].
    destruct re; cbn; split; intros; try discriminate; try reflexivity.
    + exfalso. apply H0. apply E2. reflexivity.
    + intros E. apply E2 in E. discriminate.
  - exists r1. split; [assumption|]. rewrite A2. split; [intros [?|[? _]]; [assumption|discriminate]|auto].
  - exists r2. split; [assumption|]. rewrite B2. split; [intros [?|[_ ?]]; auto|intros [?|?]; auto].
  - exists r3. split; [assumption|]. rewrite C2. split; [intros [?|[? _]]; [assumption|discriminate]|auto].
  - exists r4. split; [assumption|]. rewrite D2. split; [intros [?|[_ ?]]; auto|intros [?|?]; auto].
Qed.

Lemma tuple_less_cons (Rs : nat -> W -> W -> Prop) x y a b :
  (forall z, ~ Rs 0%nat z z) ->
  tuple_less Rs (x :: a) (y :: b) <-> Rs 0%nat x y \/ (x = y /\ tuple_less (fun i => Rs (S i)) a b).
Proof.
  intros Hirr. split.
  - intros (i & u & v & Hp & Hu & Hv & HR). destruct i as [|i].
    + left. cbn in Hu, Hv. congruence.
    + right. cbn in Hp. split; [congruence|]. exists i, u, v. repeat split; try assumption. congruence.
  - intros [HR|[<- (i & u & v & Hp & Hu & Hv & HR)]].
    + exists 0%nat, x, y. auto.
    + exists (S i), u, v. repeat split; try assumption. cbn. congruence.
Qed.

Lemma tuple_less_nil (Rs : nat -> W -> W -> Prop) b : ~ tuple_less Rs [] b.
Proof. intros (i & u & v & _ & E & _). destruct i; discriminate. Qed.

Lemma tuple_total (wits : list (owit W)) (Rs : nat -> W -> W -> Prop) (a b c : list W) :
  length a = length wits -> length b = length wits -> length c = length wits ->
  (forall i w, nth_error wits i = Some w -> total_witness (w_eq w) (w_ne w) (w_lt w) (Rs i)) ->
  ~ tuple_less Rs a a /\ (tuple_less Rs a b -> tuple_less Rs b c -> tuple_less Rs a c) /\
  (tuple_less Rs a b \/ a = b \/ tuple_less Rs b a).
Proof.
  revert Rs a b c. induction wits as [|w ws IH]; intros Rs [|x a] [|y b] [|z c] La Lb Lc H;
    cbn in La, Lb, Lc; try discriminate.
  - repeat split; auto using tuple_less_nil.
  - pose proof (H 0%nat w eq_refl) as Hw.
    pose proof (tw_irr _ _ _ _ Hw) as Hi.
    destruct (IH (fun i => Rs (S i)) a b c ltac:(lia) ltac:(lia) ltac:(lia)) as (I1 & I2 & I3).
    { intros i v Hv. apply (H (S i)). assumption. }
    repeat rewrite tuple_less_cons by assumption. split; [|split].
    + intros [HR|[_ HR]]; [eapply Hi; eassumption|auto].
    + intros [H1|[-> H1]] [H2|[-> H2]]; auto. left. eapply (tw_trans _ _ _ _ Hw); eassumption.
    + destruct (tw_total _ _ _ _ Hw x y) as [?|[->|?]]; auto.
      destruct I3 as [?|[->|?]]; auto.
Qed.
End TT.

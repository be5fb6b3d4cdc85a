From Verif Require Import Base M_Timsort S_Iter S_Sort P_Base P_TimArr P_TimRuns.
From Coq Require Import Sorted Permutation.
Local Open Scope nat_scope.

Section P.
Context {A : Type}.
Variable lt eq : A -> A -> bool.
Hypothesis W : weak_order lt.
Hypothesis HE : forall x y, eq x y = equiv lt x y.

Notation EQ := (equiv lt).
Definition le (x y : A) : Prop := lt y x = false.
Definition gt (x y : A) : Prop := lt y x = true.
Notation SS := (StronglySorted le).
Notation SD := (StronglySorted gt).

Lemma le_trans x y z : le x y -> le y z -> le x z.
Proof. unfold le. intros H1 H2. eapply (wo_negtrans lt W); eassumption. Qed.
Lemma gt_trans x y z : gt x y -> gt y z -> gt x z.
Proof. unfold gt. intros H1 H2. eapply (wo_trans lt W); eassumption. Qed.
Lemma lt_asym x y : lt x y = true -> lt y x = false.
Proof.
  intros H. destruct (lt y x) eqn:E; [|reflexivity].
  pose proof (wo_trans lt W _ _ _ H E) as H2. rewrite (wo_irrefl lt W) in H2. discriminate.
Qed.
Lemma lt_le x y z : lt x y = true -> le y z -> lt x z = true.
Proof.
  intros H1 H2. destruct (lt x z) eqn:E; [reflexivity|].
  rewrite (wo_negtrans lt W _ _ _ E H2) in H1. discriminate.
Qed.
Lemma le_lt x y z : le x y -> lt y z = true -> lt x z = true.
Proof.
  intros H1 H2. destruct (lt x z) eqn:E; [reflexivity|].
  rewrite (wo_negtrans lt W _ _ _ H1 E) in H2. discriminate.
Qed.

Lemma cmp_lt x y : (cmp lt eq x y <? 0)%Z = lt x y.
Proof. unfold cmp. destruct (lt x y); [reflexivity|]. destruct (eq x y); reflexivity. Qed.
Lemma cmp_le x y : (cmp lt eq x y <=? 0)%Z = negb (lt y x).
Proof.
  unfold cmp. rewrite HE. unfold equiv. destruct (lt x y) eqn:E; cbn.
  - rewrite lt_asym by assumption. reflexivity.
  - destruct (lt y x); reflexivity.
Qed.
Lemma cmp_gt x y : (0 <? cmp lt eq x y)%Z = lt y x.
Proof.
  unfold cmp. rewrite HE. unfold equiv. destruct (lt x y) eqn:E; cbn.
  - rewrite lt_asym by assumption. reflexivity.
  - destruct (lt y x); reflexivity.
Qed.

Lemma equiv_refl x : EQ x x = true.
Proof. unfold equiv. rewrite (wo_irrefl lt W). reflexivity. Qed.
Lemma equiv_sym x y : EQ x y = EQ y x.
Proof. unfold equiv. apply andb_comm. Qed.
Lemma equiv_trans x y z : EQ x y = true -> EQ y z = EQ x z.
Proof.
  unfold equiv. intros H. destruct (lt x y) eqn:E1; [discriminate|]. destruct (lt y x) eqn:E2; [discriminate|].
  assert (lt y z = lt x z).
  { destruct (lt x z) eqn:E.
    - eapply le_lt; eassumption.
    - eapply (wo_negtrans lt W); eassumption. }
  assert (lt z y = lt z x).
  { destruct (lt z x) eqn:E.
    - eapply lt_le; eassumption.
    - eapply (wo_negtrans lt W); eassumption. }
  congruence.
Qed.
Lemma equiv_lt x y : lt x y = true -> EQ x y = false.
Proof. unfold equiv. intros ->. reflexivity. Qed.
Lemma equiv_gt x y : lt y x = true -> EQ x y = false.
Proof. unfold equiv. intros ->. apply andb_false_r. Qed.

(** ** Stable permutations *)
Definition SP (xs ys : list A) : Prop := forall x, filter (EQ x) xs = filter (EQ x) ys.

Lemma SP_refl xs : SP xs xs. Proof. intros x. reflexivity. Qed.
Lemma SP_sym xs ys : SP xs ys -> SP ys xs. Proof. intros H x. symmetry. apply H. Qed.
Lemma SP_trans xs ys zs : SP xs ys -> SP ys zs -> SP xs zs.
Proof. intros H1 H2 x. rewrite H1. apply H2. Qed.
Lemma SP_app xs ys xs' ys' : SP xs xs' -> SP ys ys' -> SP (xs ++ ys) (xs' ++ ys').
Proof. intros H1 H2 x. rewrite !filter_app, H1, H2. reflexivity. Qed.
Lemma SP_cons x xs ys : SP xs ys -> SP (x :: xs) (x :: ys).
Proof. intros H. apply (SP_app [x] xs [x] ys); [apply SP_refl|assumption]. Qed.

Lemma filter_none x l : Forall (fun y => EQ x y = false) l -> filter (EQ x) l = [].
Proof. induction 1 as [|y l H _ IH]; cbn; [reflexivity|]. rewrite H. exact IH. Qed.

Lemma filter_class x y l : EQ x y = true -> filter (EQ y) l = filter (EQ x) l.
Proof. intros H. apply filter_ext. intros z. apply equiv_trans. assumption. Qed.

Lemma SP_move x l : Forall (fun y => EQ x y = false) l -> SP (l ++ [x]) (x :: l).
Proof.
  intros H z. rewrite filter_app. cbn. destruct (EQ z x) eqn:E; [|apply app_nil_r].
  rewrite (filter_class x z) by (rewrite equiv_sym; assumption).
  rewrite filter_none by assumption. reflexivity.
Qed.

Lemma filter_split (p : A -> bool) l x t :
  filter p l = x :: t -> exists l1 l2, l = l1 ++ x :: l2 /\ Forall (fun y => p y = false) l1 /\ filter p l2 = t.
Proof.
  induction l as [|y l IH]; cbn; [discriminate|]. destruct (p y) eqn:E.
  - intros H. injection H as -> <-. exists [], l. repeat split. constructor.
  - intros H. destruct (IH H) as (l1 & l2 & -> & H1 & H2). exists (y :: l1), l2. repeat split; auto.
Qed.

Lemma SP_perm xs : forall ys, SP xs ys -> Permutation xs ys.
Proof.
  induction xs as [|x xs IH]; intros ys H.
  - destruct ys as [|y ys]; [constructor|]. specialize (H y). cbn in H. rewrite equiv_refl in H. discriminate.
  - pose proof (H x) as Hx. cbn in Hx. rewrite equiv_refl in Hx. symmetry in Hx.
    destruct (filter_split _ _ _ _ Hx) as (l1 & l2 & -> & H1 & H2).
    apply Permutation_cons_app. apply IH. intros z. specialize (H z).
    rewrite filter_app in *. cbn in H. destruct (EQ z x) eqn:E; [|assumption].
    rewrite (filter_class x z l1) in * by (rewrite equiv_sym; assumption).
    rewrite (filter_none x l1) in * by assumption. cbn in *. injection H as H. assumption.
Qed.

Lemma SP_length xs ys : SP xs ys -> length xs = length ys.
Proof. intros H. apply Permutation_length, SP_perm, H. Qed.
Lemma SP_Forall P xs ys : SP xs ys -> Forall P xs -> Forall P ys.
Proof. intros H. apply Permutation_Forall, SP_perm, H. Qed.

Lemma SP_rev l : SD l -> SP (rev l) l.
Proof.
  induction 1 as [|x l H IH Hx]; cbn; [apply SP_refl|].
  apply SP_trans with (x :: rev l).
  - apply SP_move. apply Forall_rev. revert Hx. apply Forall_impl. intros y Hy. apply equiv_gt. exact Hy.
  - apply SP_cons. exact IH.
Qed.

(** ** Sorted lists *)
Lemma SSg_app {R} (l1 l2 : list A) :
  StronglySorted R l1 -> StronglySorted R l2 -> Forall (fun x => Forall (R x) l2) l1 ->
  StronglySorted R (l1 ++ l2).
Proof.
  induction 1 as [|x l H IH Hx]; intros H2 H3; cbn; [assumption|].
  inversion H3; subst. constructor; [apply IH; assumption|].
  apply Forall_app. split; assumption.
Qed.
Lemma SSg_app_inv {R} (l1 l2 : list A) : StronglySorted R (l1 ++ l2) ->
  StronglySorted R l1 /\ StronglySorted R l2 /\ Forall (fun x => Forall (R x) l2) l1.
Proof.
  induction l1 as [|x l1 IH]; cbn; intros H.
  - repeat split; [constructor|assumption|constructor].
  - inversion H as [|? ? H1 H2]; subst. destruct (IH H1) as (I1 & I2 & I3).
    apply Forall_app in H2 as [H2 H4]. repeat split; try constructor; assumption.
Qed.
Lemma SSg_one {R} (x : A) : StronglySorted R [x]. Proof. repeat constructor. Qed.

Lemma SSg_snoc {R : A -> A -> Prop} (Rt : forall x y z, R x y -> R y z -> R x z) l a x :
  StronglySorted R (l ++ [a]) -> R a x -> StronglySorted R ((l ++ [a]) ++ [x]).
Proof.
  intros H Hx. apply SSg_app; [assumption|apply SSg_one|].
  apply SSg_app_inv in H as (_ & _ & H). apply Forall_app. split.
  - revert H. apply Forall_impl. intros y Hy. inversion Hy; subst. constructor; [|constructor]. eauto.
  - constructor; [|constructor]. constructor; [assumption|constructor].
Qed.

Lemma SD_rev l : SD l -> SS (rev l).
Proof.
  induction 1 as [|x l H IH Hx]; cbn; [constructor|].
  apply SSg_app; [assumption|apply SSg_one|]. apply Forall_rev.
  revert Hx. apply Forall_impl. intros y Hy. constructor; [|constructor].
  unfold le, gt in *. apply lt_asym. assumption.
Qed.

(** ** Merging *)
Lemma merge_left_spec n : forall p junk ys s sto a0 xs d i j k la e,
  d = p ++ junk ++ ys ++ s -> sto = a0 ++ xs -> i = length a0 -> la = length sto ->
  length junk = length xs -> j = length p + length junk -> k = length p ->
  e = j + length ys -> n = length xs + length ys -> SS xs -> SS ys ->
  exists zs, merge_left_loop lt eq n d sto i j k la e = Ok (p ++ zs ++ s) /\ SS zs /\ SP zs (xs ++ ys).
Proof.
  induction n as [|n IH]; intros p junk ys s sto a0 xs d i j k la e -> -> -> -> Hjx -> -> -> Hn Hx Hy.
  - assert (xs = []) as -> by (apply length0; lia). assert (ys = []) as -> by (apply length0; lia).
    assert (junk = []) as -> by (apply length0; cbn in Hjx; lia).
    exists []. cbn. repeat split; [constructor].
  - cbn [merge_left_loop]. destruct xs as [|x xs].
    + assert (junk = []) as -> by (apply length0; cbn in Hjx; lia).
      rewrite app_nil_r, Nat.ltb_irrefl. cbn [andb]. exists ys. repeat split; assumption.
    + destruct junk as [|z junk]; [discriminate|]. cbn [length] in Hjx.
      destruct (length a0 <? length (a0 ++ x :: xs)) eqn:E1; [|lens]. cbn [andb].
      rewrite (aget_at (a0 ++ x :: xs) (length a0) a0 x xs eq_refl eq_refl).
      destruct ys as [|y ys].
      * dlt E2; [lens|]. cbn [bindr].
        rewrite (aset_at _ (length p) p z x (junk ++ [] ++ s)) by lists. cbn [bindr].
        destruct (IH (p ++ [x]) junk [] s (a0 ++ x :: xs) (a0 ++ [x]) xs
                     (p ++ x :: junk ++ [] ++ s) (length a0 + 1) (length p + length (z :: junk)) (length p + 1)
                     (length (a0 ++ x :: xs)) (length p + length (z :: junk) + length (@nil A)))
          as (zs & E3 & Hs & Hp); try lists; try lens.
        { inversion Hx; assumption. }
        { constructor. }
        rewrite E3. exists (x :: zs). split; [f_equal; lists|]. split.
        -- constructor; [assumption|]. inversion Hx; subst. rewrite app_nil_r in Hp.
           eapply SP_Forall; [apply SP_sym; exact Hp|assumption].
        -- apply SP_cons. assumption.
      * dlt E2; [|lens]. cbn [bindr].
        rewrite (aget_at _ (length p + length (z :: junk)) (p ++ z :: junk) y (ys ++ s)) by (lists || lens).
        cbn [bindr]. rewrite cmp_le. destruct (lt y x) eqn:El; cbn [negb].
        -- rewrite (aset_at _ (length p) p z y (junk ++ (y :: ys) ++ s)) by lists. cbn [bindr].
           destruct (IH (p ++ [y]) (junk ++ [y]) ys s (a0 ++ x :: xs) a0 (x :: xs)
                     (p ++ y :: junk ++ (y :: ys) ++ s) (length a0) (length p + length (z :: junk) + 1) (length p + 1)
                     (length (a0 ++ x :: xs)) (length p + length (z :: junk) + length (y :: ys)))
             as (zs & E3 & Hs & Hp); try lists; try lens; try assumption.
           { inversion Hy; assumption. }
           rewrite E3. exists (y :: zs). split; [f_equal; lists|].
           inversion Hx as [|? ? Hx1 Hx2]; subst. inversion Hy as [|? ? Hy1 Hy2]; subst.
           assert (Hxy : Forall (fun w => lt y w = true) (x :: xs)).
           { constructor; [assumption|]. revert Hx2. apply Forall_impl. intros w Hw. eapply lt_le; eassumption. }
           split.
           ++ constructor; [assumption|]. eapply SP_Forall; [apply SP_sym; exact Hp|].
              apply Forall_app. split; [|assumption].
              revert Hxy. apply Forall_impl. intros w Hw. apply lt_asym. assumption.
           ++ apply SP_trans with (y :: (x :: xs) ++ ys); [apply SP_cons; assumption|].
              change (y :: (x :: xs) ++ ys) with ((y :: x :: xs) ++ ys).
              replace ((x :: xs) ++ y :: ys) with (((x :: xs) ++ [y]) ++ ys) by lists.
              apply SP_app; [|apply SP_refl]. apply SP_sym, SP_move.
              revert Hxy. apply Forall_impl. intros w Hw. apply equiv_lt. assumption.
        -- rewrite (aset_at _ (length p) p z x (junk ++ (y :: ys) ++ s)) by lists. cbn [bindr].
           destruct (IH (p ++ [x]) junk (y :: ys) s (a0 ++ x :: xs) (a0 ++ [x]) xs
                     (p ++ x :: junk ++ (y :: ys) ++ s) (length a0 + 1) (length p + length (z :: junk)) (length p + 1)
                     (length (a0 ++ x :: xs)) (length p + length (z :: junk) + length (y :: ys)))
             as (zs & E3 & Hs & Hp); try lists; try lens; try assumption.
           { inversion Hx; assumption. }
           rewrite E3. exists (x :: zs). split; [f_equal; lists|].
           inversion Hx as [|? ? Hx1 Hx2]; subst. inversion Hy as [|? ? Hy1 Hy2]; subst.
           split.
           ++ constructor; [assumption|]. eapply SP_Forall; [apply SP_sym; exact Hp|].
              apply Forall_app. split; [assumption|]. constructor; [assumption|].
              revert Hy2. apply Forall_impl. intros w Hw. eapply le_trans; eassumption.
           ++ cbn [app]. apply SP_cons. assumption.
Qed.

Lemma merge_right_spec n : forall p xs junk s sto ys b0 d i j curr,
  d = p ++ xs ++ junk ++ s -> sto = ys ++ b0 -> i = length ys ->
  length junk = length ys -> j = length p + length xs -> curr = length p ->
  n = length xs + length ys -> SS xs -> SS ys ->
  exists zs, merge_right_loop lt eq n d sto i j curr = Ok (p ++ zs ++ s) /\ SS zs /\ SP zs (xs ++ ys).
Proof.
  induction n as [|n IH]; intros p xs junk s sto ys b0 d i j curr -> -> -> Hjy -> -> Hn Hx Hy.
  - assert (xs = []) as -> by (apply length0; lia). assert (ys = []) as -> by (apply length0; lia).
    assert (junk = []) as -> by (apply length0; cbn in Hjy; lia).
    exists []. cbn. repeat split; [constructor].
  - cbn [merge_right_loop]. destruct (snoc_cases ys) as [->|(ys1 & y & ->)].
    + assert (junk = []) as -> by (apply length0; cbn in Hjy; lia).
      cbn [length Nat.ltb Nat.leb andb]. exists xs. rewrite app_nil_r. split; [reflexivity|].
      split; [assumption|apply SP_refl].
    + destruct (snoc_cases junk) as [->|(junk1 & z & ->)]; [lens|].
      destruct (0 <? length (ys1 ++ [y])) eqn:E1; [|lens]. cbn [andb].
      rewrite (aget_at _ (length (ys1 ++ [y]) - 1) ys1 y b0) by (lists || lens).
      destruct (snoc_cases xs) as [->|(xs1 & x & ->)].
      * dlt E2; [lens|]. cbn [bindr].
        rewrite (aset_at _ (length p + n) (p ++ junk1) z y s) by (lists || lens). cbn [bindr].
        apply SSg_app_inv in Hy as (Hy1 & _ & Hy2).
        destruct (IH p [] junk1 (y :: s) ((ys1 ++ [y]) ++ b0) ys1 ([y] ++ b0)
                     ((p ++ junk1) ++ y :: s) (length (ys1 ++ [y]) - 1) (length p + length (@nil A)) (length p))
          as (zs & E3 & Hs & Hp); try lists; try lens; try assumption.
        rewrite E3. exists (zs ++ [y]). split; [f_equal; lists|]. split.
        -- apply SSg_app; [assumption|apply SSg_one|]. eapply SP_Forall; [apply SP_sym; exact Hp|assumption].
        -- cbn [app] in *. apply SP_app; [assumption|apply SP_refl].
      * dlt E2; [|lens]. cbn [bindr].
        rewrite (aget_at _ (length p + length (xs1 ++ [x]) - 1) (p ++ xs1) x ((junk1 ++ [z]) ++ s)) by (lists || lens).
        cbn [bindr]. rewrite cmp_gt.
        pose proof Hx as Hx'. pose proof Hy as Hy'.
        apply SSg_app_inv in Hx' as (Hx1 & _ & Hx2). apply SSg_app_inv in Hy' as (Hy1 & _ & Hy2).
        destruct (lt y x) eqn:El.
        -- rewrite (aset_at _ (length p + n) (p ++ (xs1 ++ [x]) ++ junk1) z x s) by (lists || lens). cbn [bindr].
           destruct (IH p xs1 ([x] ++ junk1) (x :: s) ((ys1 ++ [y]) ++ b0) (ys1 ++ [y]) b0
                     ((p ++ (xs1 ++ [x]) ++ junk1) ++ x :: s) (length (ys1 ++ [y]))
                     (length p + length (xs1 ++ [x]) - 1) (length p))
             as (zs & E3 & Hs & Hp); try lists; try lens; try assumption.
           assert (Hyx : Forall (fun w => lt w x = true) (ys1 ++ [y])).
           { apply Forall_app. split; [|constructor; [assumption|constructor]].
             revert Hy2. apply Forall_impl. intros w Hw. inversion Hw; subst. eapply le_lt; eassumption. }
           rewrite E3. exists (zs ++ [x]). split; [f_equal; lists|]. split.
           ++ apply SSg_app; [assumption|apply SSg_one|]. eapply SP_Forall; [apply SP_sym; exact Hp|].
              apply Forall_app. split; [assumption|]. revert Hyx. apply Forall_impl. intros w Hw.
              constructor; [|constructor]. apply lt_asym. assumption.
           ++ apply SP_trans with ((xs1 ++ (ys1 ++ [y])) ++ [x]); [apply SP_app; [assumption|apply SP_refl]|].
              replace ((xs1 ++ (ys1 ++ [y])) ++ [x]) with (xs1 ++ ((ys1 ++ [y]) ++ [x])) by lists.
              replace ((xs1 ++ [x]) ++ ys1 ++ [y]) with (xs1 ++ (x :: (ys1 ++ [y]))) by lists.
              apply SP_app; [apply SP_refl|]. apply SP_move.
              revert Hyx. apply Forall_impl. intros w Hw. apply equiv_gt. assumption.
        -- rewrite (aset_at _ (length p + n) (p ++ (xs1 ++ [x]) ++ junk1) z y s) by (lists || lens). cbn [bindr].
           destruct (IH p (xs1 ++ [x]) junk1 (y :: s) ((ys1 ++ [y]) ++ b0) ys1 ([y] ++ b0)
                     ((p ++ (xs1 ++ [x]) ++ junk1) ++ y :: s) (length (ys1 ++ [y]) - 1)
                     (length p + length (xs1 ++ [x])) (length p))
             as (zs & E3 & Hs & Hp); try lists; try lens; try assumption.
           rewrite E3. exists (zs ++ [y]). split; [f_equal; lists|]. split.
           ++ apply SSg_app; [assumption|apply SSg_one|]. eapply SP_Forall; [apply SP_sym; exact Hp|].
              apply Forall_app. split; [|assumption]. apply Forall_app. split.
              ** revert Hx2. apply Forall_impl. intros w Hw. inversion Hw; subst.
                 constructor; [|constructor]. eapply le_trans; eassumption.
              ** constructor; [|constructor]. constructor; [assumption|constructor].
           ++ replace ((xs1 ++ [x]) ++ ys1 ++ [y]) with (((xs1 ++ [x]) ++ ys1) ++ [y]) by lists.
              apply SP_app; [assumption|apply SP_refl].
Qed.

Lemma merge_spec p xs ys s a b :
  r_start a = length p -> r_len a = length xs -> r_len b = length ys -> SS xs -> SS ys ->
  exists zs, merge lt eq (p ++ xs ++ ys ++ s) a b = Ok (p ++ zs ++ s) /\ SS zs /\ SP zs (xs ++ ys).
Proof.
  intros Ha La Lb Hx Hy. unfold merge. rewrite Ha, La, Lb.
  destruct (length xs <? length ys) eqn:E.
  - rewrite (copy_out_at _ (length p) (length xs) p xs (ys ++ s)) by lists. cbn [bindr].
    apply merge_left_spec with (junk := xs) (a0 := []) (ys := ys); try reflexivity; try assumption.
  - rewrite (copy_out_at _ (length p + length xs) (length ys) (p ++ xs) ys s) by (lists || lens). cbn [bindr].
    apply merge_right_spec with (junk := ys) (b0 := []) (xs := xs); try reflexivity; try assumption.
    rewrite app_nil_r. reflexivity.
Qed.

(** ** Binary insertion *)
Lemma find_loop_spec fuel d x : forall l r,
  r - l < fuel -> l < r < length d ->
  (forall a, nth_error d l = Some a -> le a x) -> (forall a, nth_error d r = Some a -> lt x a = true) ->
  exists loc, find_loop lt eq fuel d x l (l + Nat.div2 (r - l)) r = Ok loc /\ 1 <= loc <= r /\
    (forall a, nth_error d (loc - 1) = Some a -> le a x) /\ (forall a, nth_error d loc = Some a -> lt x a = true).
Proof.
  induction fuel as [|fuel IH]; intros l r Hf Hlr Hl Hr; [lia|].
  cbn [find_loop]. set (c := l + Nat.div2 (r - l)).
  assert (Hc : l <= c < r /\ (2 <= r - l -> l < c)).
  { unfold c. destruct (Nat.le_gt_cases 2 (r - l)) as [H|H].
    - pose proof (div2_bound (r - l) H). lia.
    - replace (r - l) with 1 by lia. cbn. lia. }
  destruct (aget_in d c ltac:(lia)) as (cx & -> & Ec). cbn [bindr]. rewrite cmp_lt.
  destruct (lt x cx) eqn:E.
  - assert (l < c).
    { destruct (Nat.eq_dec l c) as [El|]; [|lia]. rewrite <- El in Ec. apply Hl in Ec. unfold le in Ec. congruence. }
    destruct (c - l <=? 1) eqn:E1.
    + exists c. split; [reflexivity|]. split; [lia|]. split.
      * replace (c - 1) with l by lia. exact Hl.
      * intros a Ha. congruence.
    + destruct (IH l c) as (loc & H1 & H2 & H3); [clear -Hf Hc H; lia|clear -Hlr Hc H; lia| | |].
      * exact Hl.
      * intros a Ha. congruence.
      * exists loc. split; [exact H1|]. split; [lia|exact H3].
  - destruct (r - c <=? 1) eqn:E1.
    + exists (c + 1). split; [reflexivity|]. split; [lia|]. split.
      * replace (c + 1 - 1) with c by lia. intros a Ha. unfold le. congruence.
      * replace (c + 1) with r by lia. exact Hr.
    + destruct (IH c r) as (loc & H1 & H2 & H3); [lia|lia| | |].
      * intros a Ha. unfold le. congruence.
      * exact Hr.
      * exists loc. split; [exact H1|]. split; [lia|exact H3].
Qed.

Lemma SS_nth l i j a b : SS l -> i <= j -> nth_error l i = Some a -> nth_error l j = Some b -> le a b.
Proof.
  intros H. revert i j. induction H as [|x l H IH Hx]; intros i j Hij Hi Hj; [destruct i; discriminate|].
  destruct i as [|i], j as [|j]; cbn in Hi, Hj.
  - injection Hi as ->. injection Hj as ->. apply (wo_irrefl lt W).
  - injection Hi as ->. eapply Forall_forall in Hx; [exact Hx|]. eapply nth_error_In; eassumption.
  - lia.
  - eapply IH; [|eassumption|eassumption]. lia.
Qed.

(** The found position splits the sorted prefix. *)
Lemma find_spec fuel so rest x l0 la :
  so = l0 ++ [la] -> SS so -> lt x la = true -> length so < fuel ->
  exists p q, so = p ++ q /\ binary_insertion_find lt eq fuel (so ++ rest) x (length so) = Ok (length p) /\
    Forall (fun a => le a x) p /\ Forall (fun a => lt x a = true) q.
Proof.
  intros Hso HS Hla Hf. unfold binary_insertion_find, usub.
  assert (Hlen : length so = length l0 + 1) by (rewrite Hso; lens).
  destruct (1 <=? length so) eqn:E1; [|lia]. cbn [bindr].
  set (d := so ++ rest).
  assert (Hd : length so <= length d) by (unfold d; lens).
  destruct (aget_in d 0 ltac:(lia)) as (d0 & -> & E0). cbn [bindr]. rewrite cmp_lt.
  assert (Hnth : forall i, i < length so -> nth_error d i = nth_error so i).
  { intros i Hi. unfold d. apply nth_error_app1. assumption. }
  assert (Er : nth_error so (length so - 1) = Some la).
  { rewrite Hso at 1. rewrite nth_error_app2 by lia. replace (length so - 1 - length l0) with 0 by lia. reflexivity. }
  destruct (lt x d0) eqn:El0.
  - exists [], so. split; [reflexivity|]. split; [reflexivity|]. split; [constructor|].
    apply Forall_forall. intros a Ha. apply In_nth_error in Ha as (i & Hi).
    eapply lt_le; [exact El0|]. rewrite Hnth in E0 by lia.
    exact (SS_nth so 0 i d0 a HS ltac:(lia) E0 Hi).
  - unfold aget at 1. rewrite (Hnth (length so - 1)) by lia. rewrite Er. cbn [orUB bindr].
    rewrite cmp_gt. rewrite (lt_asym _ _ Hla).
    assert (Hr1 : 0 < length so - 1).
    { destruct (Nat.eq_dec (length so - 1) 0) as [Ez|]; [|lia].
      rewrite Ez in Er. rewrite Hnth in E0 by lia. congruence. }
    destruct (find_loop_spec fuel d x 0 (length so - 1)) as (loc & H1 & H2 & H3 & H4).
    + lia.
    + lia.
    + intros a Ha. unfold le. congruence.
    + intros a Ha. rewrite Hnth in Ha by lia. congruence.
    + rewrite Nat.sub_0_r in H1. cbn [Nat.add] in H1. rewrite H1.
      exists (firstn loc so), (skipn loc so). split; [symmetry; apply firstn_skipn|]. split.
      * rewrite firstn_length. f_equal. lia.
      * destruct (ne_some so (loc - 1) ltac:(lia)) as (u & Eu).
        destruct (ne_some so loc ltac:(lia)) as (v & Ev).
        assert (Hu : le u x) by (apply H3; rewrite Hnth by lia; assumption).
        assert (Hv : lt x v = true) by (apply H4; rewrite Hnth by lia; assumption).
        split; apply Forall_forall; intros a Ha; apply In_nth_error in Ha as (i & Hi).
        -- rewrite ne_firstn in Hi. destruct (i <? loc) eqn:Ei; [|discriminate].
           eapply le_trans; [|exact Hu]. exact (SS_nth so i (loc - 1) a u HS ltac:(lia) Hi Eu).
        -- rewrite ne_skipn in Hi. eapply lt_le; [exact Hv|].
           exact (SS_nth so loc (loc + i) v a HS ltac:(lia) Ev Hi).
Qed.

Lemma insertion_spec n : forall p so rest s fuel off i,
  length rest = n -> off = length p -> i = length so -> 1 <= i -> length so + length rest < fuel ->
  SS so ->
  exists zs, insertion_loop lt eq n fuel off i (p ++ so ++ rest ++ s) = Ok (p ++ zs ++ s) /\ SS zs /\
    SP zs (so ++ rest).
Proof.
  induction n as [|n IH]; intros p so rest s fuel off i Hn -> -> Hi Hf HS; cbn [insertion_loop].
  - apply length0 in Hn as ->. exists so. rewrite app_nil_r. split; [reflexivity|]. split; [assumption|apply SP_refl].
  - destruct rest as [|x rest]; [discriminate|].
    destruct (snoc_cases so) as [->|(l0 & la & Hso)]; [cbn in Hi; lia|].
    unfold usub. destruct (1 <=? length so) eqn:E1; [|lia]. cbn [bindr].
    rewrite (aget_at _ (length p + (length so - 1)) (p ++ l0) la ((x :: rest) ++ s)) by (subst so; (lists || lens)).
    cbn [bindr].
    rewrite (aget_at _ (length p + length so) (p ++ so) x (rest ++ s)) by (lists || lens).
    cbn [bindr]. rewrite cmp_le. destruct (lt x la) eqn:El; cbn [negb].
    + assert (Esk : skipn (length p) (p ++ so ++ (x :: rest) ++ s) = so ++ (x :: rest) ++ s).
      { rewrite skipn_app, Nat.sub_diag, skipn_all. reflexivity. }
      rewrite Esk.
      destruct (find_spec fuel so ((x :: rest) ++ s) x l0 la Hso HS El ltac:(lia)) as (a & b & Eab & -> & Ha & Hb).
      cbn [bindr].
      assert (Hlab : length so = length a + length b) by (rewrite Eab; lens).
      destruct (shift_spec (length so - length a) (p ++ a) b x (rest ++ s) (length p + length a)) as (g & Eg).
      { lia. }
      { lens. }
      replace (p ++ so ++ (x :: rest) ++ s) with ((p ++ a) ++ b ++ x :: rest ++ s) by (rewrite Eab; lists).
      rewrite Eg. cbn [bindr].
      rewrite (aset_at _ (length p + length a) (p ++ a) g x (b ++ rest ++ s)) by (lists || lens). cbn [bindr].
      destruct (IH p (a ++ x :: b) rest s fuel (length p) (length so + 1)) as (zs & E & Hs & Hp).
      * cbn in Hn. lia.
      * reflexivity.
      * lens.
      * lia.
      * cbn [length] in Hf. lens.
      * rewrite Eab in HS. apply SSg_app_inv in HS as (S1 & S2 & S3).
        apply SSg_app; [assumption| |].
        -- constructor; [assumption|]. revert Hb. apply Forall_impl. intros w Hw. apply lt_asym. assumption.
        -- rewrite Forall_forall in *. intros w Hw. constructor; [apply Ha; assumption|].
           apply S3. assumption.
      * replace ((p ++ a) ++ x :: b ++ rest ++ s) with (p ++ (a ++ x :: b) ++ rest ++ s) by lists.
        rewrite E. exists zs. split; [reflexivity|]. split; [assumption|].
        apply SP_trans with ((a ++ x :: b) ++ rest); [assumption|].
        rewrite Eab. replace ((a ++ b) ++ x :: rest) with ((a ++ (b ++ [x])) ++ rest) by lists.
        apply SP_app; [|apply SP_refl]. apply SP_app; [apply SP_refl|].
        apply SP_sym, SP_move. revert Hb. apply Forall_impl. intros w Hw. apply equiv_lt. assumption.
    + destruct (IH p (so ++ [x]) rest s fuel (length p) (length so + 1)) as (zs & E & Hs & Hp).
      * cbn in Hn. lia.
      * reflexivity.
      * lens.
      * lia.
      * cbn [length] in Hf. lens.
      * rewrite Hso in *. apply SSg_snoc; [exact le_trans|assumption|exact El].
      * replace (p ++ so ++ (x :: rest) ++ s) with (p ++ (so ++ [x]) ++ rest ++ s) by lists.
        rewrite E. exists zs. split; [reflexivity|]. split; [assumption|].
        replace (so ++ x :: rest) with ((so ++ [x]) ++ rest) by lists. assumption.
Qed.

(** ** Runs *)
Definition dirR (up : bool) : A -> A -> Prop := if up then le else gt.
Lemma dirR_trans up x y z : dirR up x y -> dirR up y z -> dirR up x z.
Proof. destruct up; [apply le_trans|apply gt_trans]. Qed.

Lemma scan_spec up fuel : forall p r0 a rest curr last,
  curr = length p + length (r0 ++ [a]) -> last + 1 = length p + length (r0 ++ [a]) + length rest ->
  curr <= last -> last - curr < fuel -> StronglySorted (dirR up) (r0 ++ [a]) ->
  exists rn rest', scan_run lt eq fuel up (p ++ (r0 ++ [a]) ++ rest) curr last = Ok (length p + length rn) /\
    (r0 ++ [a]) ++ rest = rn ++ rest' /\ StronglySorted (dirR up) rn /\ length (r0 ++ [a]) <= length rn.
Proof.
  induction fuel as [|fuel IH]; intros p r0 a rest curr last -> Hl Hc Hf HS; [lia|].
  cbn [scan_run]. dif (_ =? last) E.
  - exists (r0 ++ [a]), rest. repeat split; [assumption|lia].
  - destruct rest as [|x rest]; [cbn in Hl; lia|].
    unfold usub. dif (1 <=? _) E1; [|lens]. cbn [bindr].
    rewrite (aget_at _ (length p + length (r0 ++ [a]) - 1) (p ++ r0) a (x :: rest)) by (lists || lens). cbn [bindr].
    rewrite (aget_at _ (length p + length (r0 ++ [a])) (p ++ r0 ++ [a]) x rest) by (lists || lens). cbn [bindr].
    assert (Hstop : (if up then (0 <? cmp lt eq a x)%Z else (cmp lt eq a x <=? 0)%Z) = false <-> dirR up a x).
    { destruct up; cbn; [rewrite cmp_gt; unfold le; tauto|].
      rewrite cmp_le. unfold gt. destruct (lt x a); cbn; split; congruence. }
    destruct (if up then _ else _) eqn:E2.
    + exists (r0 ++ [a]), (x :: rest). repeat split; [assumption|lia].
    + destruct Hstop as [Hstop _]. specialize (Hstop eq_refl).
      destruct (IH p (r0 ++ [a]) x rest (length p + length (r0 ++ [a]) + 1) last)
        as (rn & rest' & H1 & H2 & H3 & H4).
      * lens.
      * lens.
      * lens.
      * lens.
      * apply SSg_snoc; [exact (dirR_trans up)|assumption|assumption].
      * exists rn, rest'. split; [|split; [|split]].
        -- rewrite <- H1. f_equal. lists.
        -- rewrite <- H2. lists.
        -- assumption.
        -- lens.
Qed.

Lemma count_run_spec fuel p rest size :
  size = length p + length rest -> rest <> [] -> length rest < fuel ->
  exists rn rest', count_run lt eq fuel (p ++ rest) (length p) size = Ok (length rn, p ++ rn ++ rest') /\
    SS rn /\ 1 <= length rn /\ SP (rn ++ rest') rest.
Proof.
  intros -> Hne Hf. unfold count_run, usub.
  destruct (length p <=? length p + length rest) eqn:E0; [|lia]. cbn [bindr].
  destruct rest as [|x rest]; [congruence|]. destruct rest as [|y rest].
  - cbn [length]. replace (length p + 1 - length p =? 1) with true by (symmetry; apply Nat.eqb_eq; lia).
    exists [x], []. repeat split; [apply SSg_one|cbn; lia].
  - cbn [length]. dif (_ =? 1) E1; [lia|].
    dif (2 <=? _) E2; [|lia]. cbn [bindr]. dif (1 <=? _) E3; [|lia]. cbn [bindr].
    dif (_ <=? length p) E4.
    + assert (rest = []) as -> by (apply length0; lia). cbn [length].
      rewrite (aget_at _ (length p + 2 - 2) p x [y]) by (reflexivity || lia). cbn [bindr].
      rewrite (aget_at _ (length p + 2 - 1) (p ++ [x]) y []) by (lists || lens). cbn [bindr].
      rewrite cmp_gt. destruct (lt y x) eqn:El.
      * rewrite (aset_at _ (length p + 2 - 2) p x y [y]) by (reflexivity || lia). cbn [bindr].
        rewrite (aset_at _ (length p + 2 - 1) (p ++ [y]) y x []) by (lists || lens). cbn [bindr].
        exists [y; x], []. split; [f_equal; f_equal; lists|]. split; [|split; [cbn; lia|]].
        -- constructor; [apply SSg_one|]. constructor; [|constructor]. apply lt_asym. assumption.
        -- cbn [app]. apply SP_sym. apply (SP_move y [x]). constructor; [|constructor]. apply equiv_lt. assumption.
      * exists [x; y], []. split; [reflexivity|]. split; [|split; [cbn; lia|apply SP_refl]].
        constructor; [apply SSg_one|]. constructor; [exact El|constructor].
    + rewrite (aget_at _ (length p) p x (y :: rest)) by reflexivity. cbn [bindr].
      rewrite (aget_at _ (length p + 1) (p ++ [x]) y rest) by (lists || lens). cbn [bindr].
      rewrite cmp_le. destruct (lt y x) eqn:El; cbn [negb].
      * destruct (scan_spec false fuel p [x] y rest (length p + 2) (length p + S (S (length rest)) - 1))
          as (rn & rest' & H1 & H2 & H3 & H4).
        -- reflexivity.
        -- cbn [length app]. lia.
        -- lia.
        -- cbn [length] in Hf. lia.
        -- cbn. constructor; [apply SSg_one|]. constructor; [exact El|constructor].
        -- change (p ++ x :: y :: rest) with (p ++ ([x] ++ [y]) ++ rest). rewrite H1. cbn [bindr].
           rewrite H2. cbn [length app] in H4.
           rewrite (reverse_spec (length rn)); [|lia| |reflexivity|lia].
           ++ cbn [bindr]. exists (rev rn), rest'. rewrite rev_length.
              split; [f_equal; f_equal; lia|]. split; [apply SD_rev; assumption|]. split; [lia|].
              change (x :: y :: rest) with (([x] ++ [y]) ++ rest). rewrite H2.
              apply SP_app; [|apply SP_refl]. apply SP_rev. assumption.
           ++ apply (f_equal (@length A)) in H2. rewrite !app_length in H2. cbn [length] in *. lia.
      * destruct (scan_spec true fuel p [x] y rest (length p + 2) (length p + S (S (length rest)) - 1))
          as (rn & rest' & H1 & H2 & H3 & H4).
        -- reflexivity.
        -- cbn [length app]. lia.
        -- lia.
        -- cbn [length] in Hf. lia.
        -- cbn. constructor; [apply SSg_one|]. constructor; [exact El|constructor].
        -- change (p ++ x :: y :: rest) with (p ++ ([x] ++ [y]) ++ rest). rewrite H1. cbn [bindr].
           rewrite H2. cbn [length app] in H4. exists rn, rest'.
           split; [f_equal; f_equal; lia|]. split; [assumption|]. split; [lia|].
           change (x :: y :: rest) with (([x] ++ [y]) ++ rest). rewrite H2. apply SP_refl.
Qed.

Lemma tim_sort_spec fuel xs :
  (zlen xs < 2 ^ 62)%Z -> 2 * length xs + 4 < fuel ->
  exists ys, tim_sort lt eq fuel xs = Ok ys /\ SS ys /\ SP ys xs.
Proof.
  apply P_TimRuns.tim_sort_spec.
  - constructor.
  - exact SSg_one.
  - exact SP_refl.
  - exact SP_trans.
  - exact SP_app.
  - exact SP_length.
  - exact merge_spec.
  - exact insertion_spec.
  - exact count_run_spec.
Qed.

Lemma SS_nondecreasing l : SS l -> nondecreasing lt l.
Proof. intros H i j x y Hij Hx Hy. exact (SS_nth l i j x y H ltac:(lia) Hx Hy). Qed.

Lemma sorted_spec fuel xs :
  (zlen xs < 2 ^ 62)%Z -> 2 * length xs + 4 < fuel ->
  exists ys, tim_sort lt eq fuel xs = Ok ys /\ Permutation xs ys /\ nondecreasing lt ys /\ stable lt xs ys.
Proof.
  intros H1 H2. destruct (tim_sort_spec fuel xs H1 H2) as (ys & E & Hs & Hp).
  exists ys. split; [exact E|]. split; [|split].
  - apply Permutation_sym, SP_perm, Hp.
  - apply SS_nondecreasing, Hs.
  - exact Hp.
Qed.
End P.

(** Subtyping: soundness, reflexivity, transitivity, termination. *)
From Coq Require Import List Arith Bool Lia.
From Verif Require Import S_Sub M_Sub P_Sub.
Import ListNotations.

Section Env.
Variable find_anc : nat -> list ty -> nat -> option (list ty).
Variable cov : nat -> bool.
Variable bound : nat -> nat * list ty.
Variable arity : nat -> nat.
Notation castable := (castable find_anc cov bound).
Notation can := (can find_anc cov bound).
Notation step := (step find_anc cov bound).
Notation heir := (heir find_anc).
Definition covp (c : nat) : Prop := cov c = true.

Lemma can_intro : forall n t u, step (castable n) t u = Some true -> can t u.
Proof. intros n t u H. exists (S n). exact H. Qed.
Lemma can_elim : forall t u, can t u -> exists n, step (castable n) t u = Some true.
Proof. intros t u [[|n] H]; [discriminate H|]. exists n. exact H. Qed.
Lemma can_two : forall a b c d, can a b -> can c d -> exists n, castable n a b = Some true /\ castable n c d = Some true.
Proof. intros a b c d [n H] [m K]. exists (max n m). split; eapply cast_mono; try eassumption; lia. Qed.
Lemma can_all : forall ts us, length ts = length us -> ((exists n, all2 (castable n) ts us = Some true) <-> Forall2 can ts us).
Proof.
  induction ts as [|t ts IH]; intros [|u us] L; try discriminate L; [split; [constructor|intros _; exists 0; reflexivity]|]. injection L as L. cbn [all2]. split.
  - intros [n H]. apply both_true in H. destruct H as [H1 H2]. constructor; [exists n; exact H1|]. apply (IH us L). exists n. exact H2.
  - intro H. inversion H as [|? ? ? ? [n H1] H2]; subst. apply (IH us L) in H2. destruct H2 as [m H2]. exists (max n m). apply both_true. split; [eapply cast_mono; [|exact H1]; lia|]. eapply all2_mono; [|exact H2]. intros a b x. apply cast_mono. lia.
Qed.
Lemma can_con : forall c ts d us, length ts = arity c -> length us = arity d ->
  (can (Con c ts) (Con d us) <-> (c = d /\ cov c = true /\ Forall2 can ts us) \/ (~ (c = d /\ cov c = true) /\ find_anc c ts d = Some us)).
Proof.
  intros c ts d us L1 L2. split.
  - intro H. apply can_elim in H. destruct H as [n H]. cbn [P_Sub.step] in H. destruct (Nat.eqb_spec c d) as [->|NE]; [destruct (cov d) eqn:CV|]; cbn [andb] in H.
    + left. split; [reflexivity|]. split; [reflexivity|]. apply can_all; [congruence|]. exists n. exact H.
    + right. split; [intros [_ X]; congruence|]. destruct (find_anc d ts d) as [us'|]; [|discriminate H]. injection H as H. apply tys_eqb_eq in H. congruence.
    + right. split; [intros [X _]; congruence|]. destruct (find_anc c ts d) as [us'|]; [|discriminate H]. injection H as H. apply tys_eqb_eq in H. congruence.
  - intros [(-> & CV & F)|(N & F)].
    + apply can_all in F; [|congruence]. destruct F as [n F]. apply (can_intro n). cbn [P_Sub.step]. rewrite Nat.eqb_refl, CV. exact F.
    + apply (can_intro 0). cbn [P_Sub.step]. rewrite F. destruct (Nat.eqb_spec c d) as [->|NE]; [destruct (cov d) eqn:CV; [exfalso; apply N; auto|]|]; cbn [andb]; f_equal; apply tys_eqb_eq; reflexivity.
Qed.
Lemma can_fun : forall e1 p1 k1 t1 e2 p2 k2 t2, can (Fun e1 p1 k1 t1) (Fun e2 p2 k2 t2) <-> can e1 e2 /\ can p2 p1 /\ can k2 k1 /\ can t1 t2.
Proof.
  intros. split.
  - intro H. apply can_elim in H. destruct H as [n H]. cbn [P_Sub.step] in H. rewrite !both_true in H. destruct H as (H1 & H2 & H3 & H4). repeat split; exists n; assumption.
  - intros ([a H1] & [b H2] & [c H3] & [d H4]). apply (can_intro (a + b + c + d)). cbn [P_Sub.step]. rewrite !both_true. repeat split; (eapply cast_mono; [|eassumption]; lia).
Qed.
Lemma can_tup : forall p1 k1 p2 k2, can (Tup p1 k1) (Tup p2 k2) <-> can p1 p2 /\ can k1 k2.
Proof.
  intros. split.
  - intro H. apply can_elim in H. destruct H as [n H]. cbn [P_Sub.step] in H. rewrite both_true in H. destruct H as (H1 & H2). split; exists n; assumption.
  - intros [H1 H2]. destruct (can_two _ _ _ _ H1 H2) as (n & K1 & K2). apply (can_intro n). cbn [P_Sub.step]. rewrite both_true. auto.
Qed.
Lemma can_row : forall k l t1 r1 k' l' t2 r2, can (Row k l t1 r1) (Row k' l' t2 r2) <-> k = k' /\ l = l' /\ can t1 t2 /\ can r1 r2.
Proof.
  intros. split.
  - intro H. apply can_elim in H. destruct H as [n H]. cbn [P_Sub.step] in H. destruct (Bool.eqb k k' && (l =? l')) eqn:E; [|discriminate H]. apply andb_prop in E. destruct E as [E1 E2]. apply eqb_prop in E1. apply Nat.eqb_eq in E2. rewrite both_true in H. destruct H as (H1 & H2). repeat split; auto; exists n; assumption.
  - intros (-> & -> & H1 & H2). destruct (can_two _ _ _ _ H1 H2) as (n & K1 & K2). apply (can_intro n). cbn [P_Sub.step]. rewrite eqb_reflx, Nat.eqb_refl. cbn [andb]. rewrite both_true. auto.
Qed.
Lemma can_star : forall k r1 k' r2, can (Star k r1) (Star k' r2) <-> k = k' /\ can r1 r2.
Proof.
  intros. split.
  - intro H. apply can_elim in H. destruct H as [n H]. cbn [P_Sub.step] in H. destruct (Bool.eqb k k') eqn:E; [|discriminate H]. apply eqb_prop in E. split; [exact E|exists n; exact H].
  - intros (-> & [n H]). apply (can_intro n). cbn [P_Sub.step]. rewrite eqb_reflx. exact H.
Qed.
Lemma can_opt : forall t u, can (Opt t) (Opt u) <-> can t u.
Proof. intros. split; [intro H; apply can_elim in H; exact H|]. intros [n H]. apply (can_intro n). exact H. Qed.
Definition ordinary (t : ty) : Prop := match t with Par _ | Opt _ | Non => False | _ => True end.
Lemma can_some : forall t u, ordinary t -> (can t (Opt u) <-> can t u).
Proof.
  intros t u O. split; [intro H; apply can_elim in H; destruct H as [n H]; exists n; destruct t; try destruct O; exact H|]. intros [n H]. apply (can_intro n). destruct t; try destruct O; exact H.
Qed.

(** *** Soundness. *)
Hypothesis bound_wf : forall v, wft arity true (Con (fst (bound v)) (snd (bound v))).
Lemma cast_sound : forall pa n t u, wft arity pa t -> wft arity pa u -> castable n t u = Some true -> S_Sub.sub heir covp bound (wft arity pa) t u.
Proof.
  intro pa. induction n as [|n IH]; intros t u WT WU H; [discriminate H|]. rewrite cast_step in H.
  assert (VAR : forall v, t = Par v -> castable n (Con (fst (bound v)) (snd (bound v))) u = Some true -> S_Sub.sub heir covp bound (wft arity pa) t u) by (intros v -> K; assert (BW : wft arity pa (Con (fst (bound v)) (snd (bound v)))) by (inversion WT; subst; apply bound_wf); apply (sub_trans _ _ _ _ _ (Con (fst (bound v)) (snd (bound v)))); [exact BW|apply sub_bound|apply IH; auto]).
  assert (OPT : forall w, u = Opt w -> castable n t w = Some true -> S_Sub.sub heir covp bound (wft arity pa) t u) by (intros w -> K; inversion WU; subst; apply (sub_trans _ _ _ _ _ w); [assumption|apply IH; auto|apply sub_some]).
  destruct t, u; cbn [P_Sub.step] in H; try discriminate H; try (eapply VAR; [reflexivity|exact H]); try (eapply OPT; [reflexivity|exact H]); inversion WT; inversion WU; subst.
  - destruct (Nat.eqb_spec v v0) as [->|NE]; [apply sub_refl|eapply VAR; [reflexivity|exact H]].
  - destruct ((c =? c0) && cov c) eqn:E.
    + apply andb_prop in E. destruct E as [E CV]. apply Nat.eqb_eq in E. subst c0. apply sub_args; [exact CV|]. assert (L : length ts = length ts0) by congruence. clear - IH H L H3 H7. revert ts0 L H H7. induction ts as [|x ts IHts]; intros [|y us] L H H7; try discriminate L; [constructor|]. cbn [all2] in H. apply both_true in H. destruct H as [A B]. constructor; [apply IH; [apply H3|apply H7|exact A]; left; reflexivity|]. apply IHts; [intros z Z; apply H3; right; exact Z|injection L as L; exact L|exact B|intros z Z; apply H7; right; exact Z].
    + destruct (find_anc c ts c0) as [us'|] eqn:F; [|discriminate H]. injection H as H. apply tys_eqb_eq in H. subst us'. apply sub_class. exact F.
  - rewrite !both_true in H. destruct H as (A & B & C & D). apply sub_fun; apply IH; assumption.
  - rewrite both_true in H. destruct H as (A & B). apply sub_tup; apply IH; assumption.
  - apply sub_opt. apply IH; assumption.
  - apply sub_none.
  - apply sub_refl.
  - injection H as H. apply fx_le_sub; [intro; constructor|exact H].
  - injection H as H. apply eqb_prop in H. subst. apply sub_refl.
  - destruct (Bool.eqb k k0 && (label =? label0)) eqn:E; [|discriminate H]. apply andb_prop in E. destruct E as [E1 E2]. apply eqb_prop in E1. apply Nat.eqb_eq in E2. subst. rewrite both_true in H. destruct H as (A & B). apply sub_row; apply IH; assumption.
  - destruct (Bool.eqb k k0) eqn:E; [|discriminate H]. apply eqb_prop in E. subst. apply sub_star. apply IH; assumption.
Qed.

(** *** Reflexivity. *)
Hypothesis anc_refl : forall c ts, length ts = arity c -> find_anc c ts c = Some ts.
Lemma can_refl : forall pa t, wft arity pa t -> can t t.
Proof.
  intros pa t. induction t as [v|c ts IH|e p k t IHe IHp IHk IHt|p k IHp IHk|t IHt| |e|k|k l t r IHt IHr|k r IHr] using ty_ind2; intro W; inversion W; subst.
  - apply (can_intro 0). cbn. rewrite Nat.eqb_refl. reflexivity.
  - apply can_con; auto. destruct (cov c) eqn:CV; [left|right; split; [intros [_ X]; discriminate X|apply anc_refl; assumption]]. split; [reflexivity|]. split; [reflexivity|]. clear - IH H2. induction ts as [|t ts IHts]; constructor; [apply IH; [|apply H2]; left; reflexivity|]. apply IHts; [intros x X; apply IH; right; exact X|intros x X; apply H2; right; exact X].
  - apply can_fun. auto.
  - apply can_tup. auto.
  - apply can_opt. auto.
  - apply (can_intro 0). reflexivity.
  - apply (can_intro 0). destruct e; reflexivity.
  - apply (can_intro 0). cbn. rewrite eqb_reflx. reflexivity.
  - apply can_row. auto.
  - apply can_star. auto.
Qed.

(** *** Transitivity. *)
Hypothesis anc_trans : forall c ts d us e ws, find_anc c ts d = Some us -> find_anc d us e = Some ws -> find_anc c ts e = Some ws.
(** Covariant classes have no other heirs, and what they inherit does not depend on their arguments. *)
Hypothesis cov_final : forall c ts d us, cov d = true -> find_anc c ts d = Some us -> c = d.
Hypothesis cov_parents : forall c ts us d ws, cov c = true -> c <> d -> length ts = length us -> find_anc c us d = Some ws -> find_anc c ts d = Some ws.
Notation wfc := (wft arity false).
Lemma in_sum : forall (f : ty -> nat) ts t, In t ts -> f t <= list_sum (map f ts).
Proof. induction ts as [|u ts IH]; intros t I; [destruct I|]. change (list_sum (map f (u :: ts))) with (f u + list_sum (map f ts)). destruct I as [<-|I]; [lia|]. specialize (IH t I). lia. Qed.
Lemma forall2_trans : forall (P : ty -> Prop) ts us ws, (forall a b c, In a ts -> In b us -> In c ws -> can a b -> can b c -> can a c) -> Forall2 can ts us -> Forall2 can us ws -> Forall2 can ts ws.
Proof.
  intros P ts us ws H F. revert ws H. induction F as [|a b ts us AB F IH]; intros ws H G; inversion G; subst; constructor; [apply (H a b); auto; left; reflexivity|]. apply IH; [|assumption]. intros a' b' c' X Y Z. apply H; right; assumption.
Qed.
Lemma can_trans : forall n t u w, size t + size u + size w <= n -> wfc t -> wfc u -> wfc w -> can t u -> can u w -> can t w.
Proof.
  induction n as [|n IH]; intros t u w L WT WU WW H1 H2; [destruct t; cbn in L; lia|].
  assert (WOPT : forall w', w = Opt w' -> ordinary u -> ordinary t -> can t w).
  { intros w' -> OU OT. apply (proj1 (can_some _ _ OU)) in H2. apply can_some; [exact OT|]. inversion WW; subst. apply (IH t u w'); auto. cbn [size] in L. lia. }
  assert (UOPT : forall u', u = Opt u' -> ordinary t -> can t w).
  { intros u' -> OT. apply (proj1 (can_some _ _ OT)) in H1. destruct w; try (apply can_elim in H2; destruct H2 as [m H2]; discriminate H2). apply (proj1 (can_opt _ _)) in H2. apply can_some; [exact OT|]. inversion WW; inversion WU; subst. apply (IH t u' w); auto. cbn [size] in L. lia. }
  destruct t; try (inversion WT; discriminate); destruct u; try (inversion WU; discriminate); try (apply can_elim in H1; destruct H1 as [m H1]; discriminate H1); try (eapply UOPT; [reflexivity|exact I]);
    destruct w; try (inversion WW; discriminate); try (apply can_elim in H2; destruct H2 as [m H2]; discriminate H2); try (eapply WOPT; [reflexivity|exact I|exact I]); inversion WT; inversion WU; inversion WW; subst; cbn [size] in L.
  - rewrite can_con in H1, H2 by assumption. apply can_con; auto. destruct H1 as [(-> & CV & F1)|(N1 & F1)], H2 as [(-> & CV' & F2)|(N2 & F2)].
    + left. split; [reflexivity|]. split; [exact CV|]. apply (forall2_trans (fun _ => True) ts ts0 ts1); auto. intros a b c A B C. apply IH; auto. pose proof (in_sum size ts a A). pose proof (in_sum size ts0 b B). pose proof (in_sum size ts1 c C). lia.
    + right. split; [exact N2|]. apply (cov_parents _ _ ts0); [exact CV|intros E; apply N2; auto|congruence|exact F2].
    + exfalso. assert (c = c1) by (apply (cov_final c ts c1 ts0); assumption). subst c1. apply N1. auto.
    + pose proof (anc_trans _ _ _ _ _ _ F1 F2) as F. destruct (Nat.eq_dec c c1) as [->|NE]; [|right; split; [intros [E _]; contradiction|exact F]]. destruct (cov c1) eqn:CV; [|right; split; [intros [_ X]; discriminate X|exact F]].
      left. split; [reflexivity|]. split; [reflexivity|]. rewrite anc_refl in F by assumption. injection F as <-. assert (R : can (Con c1 ts) (Con c1 ts)) by (apply (can_refl false); exact WT). apply can_con in R; auto. destruct R as [(_ & _ & R)|(R & _)]; [exact R|exfalso; apply R; auto].
  - rewrite can_fun in *. destruct H1 as (A1 & A2 & A3 & A4), H2 as (B1 & B2 & B3 & B4). split; [eapply (IH t1 u1 w1)|split; [eapply (IH w2 u2 t2)|split; [eapply (IH w3 u3 t3)|eapply (IH t4 u4 w4)]]]; auto; lia.
  - rewrite can_tup in *. destruct H1 as (A1 & A2), H2 as (B1 & B2). split; [eapply (IH t1 u1 w1)|eapply (IH t2 u2 w2)]; auto; lia.
  - rewrite can_opt in *. eapply (IH t u w); auto; lia.
  - apply (can_intro 0). reflexivity.
  - exact H2.
  - exact H2.
  - apply can_elim in H1, H2. destruct H1 as [m1 H1], H2 as [m2 H2]. apply (can_intro 0). cbn in *. destruct e, e0, e1; try discriminate H1; try discriminate H2; reflexivity.
  - apply can_elim in H1, H2. destruct H1 as [m1 H1], H2 as [m2 H2]. apply (can_intro 0). cbn in *. injection H1 as H1. injection H2 as H2. apply eqb_prop in H1, H2. subst. rewrite eqb_reflx. reflexivity.
  - rewrite can_row in *. destruct H1 as (-> & -> & A1 & A2), H2 as (-> & -> & B1 & B2). split; [reflexivity|]. split; [reflexivity|]. split; [eapply (IH t1 u1 w1)|eapply (IH t2 u2 w2)]; auto; lia.
  - rewrite can_star in *. destruct H1 as (-> & A1), H2 as (-> & B1). split; [reflexivity|]. eapply (IH t u w); auto; lia.
Qed.

(** *** Termination. *)
Lemma both_some : forall a b, (exists x, a = Some x) -> (exists y, b = Some y) -> exists r, both a b = Some r.
Proof. intros a b [x ->] [y ->]. destruct x; eexists; reflexivity. Qed.
Lemma cast_ends : forall n t u, wfc t -> wfc u -> size t + size u <= n -> exists b, castable n t u = Some b.
Proof.
  induction n as [|n IH]; intros t u WT WU L; [destruct t; cbn in L; lia|]. rewrite cast_step.
  destruct t; try (inversion WT; discriminate); destruct u; try (inversion WU; discriminate); try (eexists; reflexivity); inversion WT; inversion WU; subst; cbn [size] in L; cbn [P_Sub.step]; try (repeat apply both_some; apply IH; auto; cbn [size]; lia).
  - destruct ((c =? c0) && cov c); [|destruct (find_anc c ts c0); eexists; reflexivity].
    assert (K : list_sum (map size ts) + list_sum (map size ts0) <= n) by lia. clear - IH K H2 H6. revert ts0 K H6. induction ts as [|t ts IHts]; intros [|u us] K H6; try (eexists; reflexivity). cbn [all2]. change (list_sum (map size (t :: ts))) with (size t + list_sum (map size ts)) in K. change (list_sum (map size (u :: us))) with (size u + list_sum (map size us)) in K.
    apply both_some; [apply IH; [apply H2; left; reflexivity|apply H6; left; reflexivity|lia]|]. apply IHts; [intros x X; apply H2; right; exact X|lia|intros x X; apply H6; right; exact X].
  - destruct (_ && _); [|eexists; reflexivity]. apply both_some; apply IH; auto; lia.
  - destruct (Bool.eqb _ _); [|eexists; reflexivity]. apply IH; auto; lia.
Qed.

(** *** Completeness. *)
Notation subc := (S_Sub.sub heir covp bound wfc).
Notation subsc := (S_Sub.subs heir covp bound wfc).
Scheme sub_mut := Minimality for S_Sub.sub Sort Prop with subs_mut := Minimality for S_Sub.subs Sort Prop.
Lemma sub_can : forall t u, subc t u -> wfc t -> wfc u -> can t u.
Proof.
  apply (sub_mut heir covp bound wfc (fun t u => wfc t -> wfc u -> can t u) (fun ts us => (forall t, In t ts -> wfc t) -> (forall u, In u us -> wfc u) -> Forall2 can ts us)); intros.
  - apply (can_refl false); assumption.
  - apply (can_trans (size t + size u + size w) t u w); auto.
  - inversion H; discriminate.
  - inversion H0; inversion H1; subst. apply can_con; auto. destruct (Nat.eq_dec c d) as [->|NE]; [|right; split; [intros [E _]; contradiction|assumption]]. destruct (cov d) eqn:CV; [|right; split; [intros [_ X]; discriminate X|assumption]].
    unfold P_Sub.heir in H. rewrite anc_refl in H by assumption. injection H as <-. assert (R : can (Con d ts) (Con d ts)) by (apply (can_refl false); assumption). apply can_con in R; auto. destruct R as [R|(R & _)]; [left; tauto|exfalso; apply R; auto].
  - inversion H2; inversion H3; subst. apply can_con; auto.
  - inversion H7; inversion H8; subst. apply can_fun. auto.
  - inversion H3; inversion H4; subst. apply can_tup. auto.
  - inversion H1; inversion H2; subst. apply can_opt. auto.
  - apply (can_intro 0). reflexivity.
  - inversion H0; subst. destruct t; try (apply can_some; [exact I|apply (can_refl false); assumption]); [inversion H; discriminate|exfalso; eapply H3; reflexivity|apply (can_intro 0); reflexivity].
  - apply (can_intro 0). reflexivity.
  - apply (can_intro 0). reflexivity.
  - apply (can_intro 0). reflexivity.
  - inversion H3; inversion H4; subst. apply can_row. auto.
  - inversion H1; inversion H2; subst. apply can_star. auto.
  - constructor.
  - constructor; [apply H0; [apply H3|apply H4]; left; reflexivity|]. apply H2; [intros x X; apply H3; right; exact X|intros x X; apply H4; right; exact X].
Qed.
End Env.

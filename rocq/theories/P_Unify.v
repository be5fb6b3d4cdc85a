(** Unification: lemmas. *)
From Coq Require Import List Arith Bool Lia.
From Verif Require Import S_Unify M_Unify.
Import ListNotations.

Lemma ty_ind2 : forall P : ty -> Prop, (forall v, P (Uni v)) -> (forall h ts, (forall t, In t ts -> P t) -> P (Node h ts)) -> forall x, P x.
Proof.
  intros P HU HN. fix IH 1. intros [v|h ts]; [apply HU|]. apply HN. induction ts as [|t ts IHts]; [intros t []|]. intros x [<-|I]; [apply IH|apply IHts, I].
Qed.
Fixpoint size (x : ty) : nat := match x with Uni _ => 1 | Node _ ts => S (list_sum (map size ts)) end.
Lemma head_eqb_eq : forall a b, head_eqb a b = true <-> a = b.
Proof.
  intros a b. split.
  - destruct a, b; cbn; intro H; try discriminate H; try reflexivity; try (apply andb_prop in H; destruct H as [H1 H2]; apply eqb_prop in H1; apply Nat.eqb_eq in H2; congruence); try (apply Nat.eqb_eq in H; congruence); apply eqb_prop in H; congruence.
  - intros <-. destruct a; cbn; rewrite ?Nat.eqb_refl, ?eqb_reflx; reflexivity.
Qed.

(** *** Substitution. *)
Lemma mk_opt : forall us, exists ws, mk HOpt us = Node HOpt ws.
Proof. intros [|[v|h ws] [|u us]]; try (eexists; reflexivity); destruct h; eexists; reflexivity. Qed.
Lemma mk_other : forall h ts, h <> HOpt -> mk h ts = Node h ts.
Proof. intros h ts H. destruct h; try reflexivity. contradiction. Qed.
Lemma mk_head : forall h ts, exists us, mk h ts = Node h us.
Proof. intros h ts. destruct h; try (eexists; reflexivity). apply mk_opt. Qed.
Lemma mk_cases : forall h ts, mk h ts = Node h ts \/ exists us, h = HOpt /\ ts = [Node HOpt us] /\ mk h ts = Node HOpt us.
Proof. intros h ts. destruct h; try (left; reflexivity). destruct ts as [|[v|g us] [|u ts]]; try (left; reflexivity); [|destruct g; left; reflexivity]. destruct g; try (left; reflexivity). right. exists us. auto. Qed.
Lemma gsub_mk : forall th h ts, gsub th (mk h ts) = mk h (map (gsub th) ts).
Proof.
  intros th h ts. destruct (mk_cases h ts) as [->|(us & -> & -> & ->)]; [reflexivity|]. cbn [gsub map]. destruct (mk_opt (map (gsub th) us)) as [ws ->]. reflexivity.
Qed.
Lemma gsub_comp : forall th si x, gsub th (gsub si x) = gsub (fun v => gsub th (si v)) x.
Proof. intros th si x. induction x as [v|h ts IH] using ty_ind2; [reflexivity|]. cbn [gsub]. rewrite gsub_mk, map_map. f_equal. apply map_ext_in. exact IH. Qed.
Lemma gsub_ext : forall th si x, (forall v, In v (vars x) -> th v = si v) -> gsub th x = gsub si x.
Proof.
  intros th si x. induction x as [v|h ts IH] using ty_ind2; intro H; [apply H; left; reflexivity|]. cbn [gsub]. f_equal. apply map_ext_in. intros t T. apply (IH t T). intros v V. apply H. cbn [vars]. apply in_flat_map. exists t. auto.
Qed.
Lemma vars_mk : forall h ts, incl (vars (mk h ts)) (flat_map vars ts).
Proof. intros h ts. destruct (mk_cases h ts) as [->|(us & -> & -> & ->)]; [apply incl_refl|]. cbn [flat_map vars]. rewrite app_nil_r. apply incl_refl. Qed.
Lemma vars_gsub : forall th x v, In v (vars (gsub th x)) -> exists w, In w (vars x) /\ In v (vars (th w)).
Proof.
  intros th x. induction x as [w|h ts IH] using ty_ind2; intros v V; [exists w; split; [left; reflexivity|exact V]|]. cbn [gsub] in V. apply vars_mk, in_flat_map in V. destruct V as (t & T & V). apply in_map_iff in T. destruct T as (u & <- & U). destruct (IH u U v V) as (w & W & VW). exists w. split; [|exact VW]. cbn [vars]. apply in_flat_map. exists u. auto.
Qed.
Lemma gsub_one : forall th v t x, th v = gsub th t -> gsub th (gsub (one v t) x) = gsub th x.
Proof. intros th v t x H. rewrite gsub_comp. apply gsub_ext. intros w _. unfold one. destruct (Nat.eqb_spec w v) as [->|_]; [congruence|reflexivity]. Qed.
Lemma agree_app : forall th s x, agrees th s -> gsub th (app s x) = gsub th x.
Proof.
  induction s as [|[v t] s IH]; intros x H; [reflexivity|]. cbn [app]. rewrite gsub_one by (apply H; left; reflexivity). apply IH. intros w u I. apply H. right. exact I.
Qed.

Section Wf.
Variable con_arity : nat -> nat.
Notation wf := (wf con_arity).
Notation arity := (arity con_arity).
Lemma wf_mk : forall h ts, length ts = arity h -> (forall t, In t ts -> wf t) -> wf (mk h ts).
Proof.
  intros h ts L H. destruct (mk_cases h ts) as [E|(us & -> & -> & E)]; rewrite E; [apply wf_node; assumption|]. apply H. left. reflexivity.
Qed.
Lemma wf_gsub : forall th x, (forall v, wf (th v)) -> wf x -> wf (gsub th x).
Proof.
  intros th x H. induction x as [v|h ts IH] using ty_ind2; intro W; [apply H|]. inversion W as [|? ? L F _]; subst. cbn [gsub]. apply wf_mk; [rewrite map_length; exact L|]. intros t T. apply in_map_iff in T. destruct T as (u & <- & U). apply IH; auto.
Qed.
Lemma gsub_id : forall th x, wf x -> (forall v, In v (vars x) -> th v = Uni v) -> gsub th x = x.
Proof.
  intros th x. induction x as [v|h ts IH] using ty_ind2; intros W H; [apply H; left; reflexivity|]. inversion W as [|? ? L F M]; subst. cbn [gsub]. replace (map (gsub th) ts) with ts; [exact M|]. rewrite <- (map_id ts) at 1. apply map_ext_in. intros t T. symmetry. apply IH; auto. intros v V. apply H. cbn [vars]. apply in_flat_map. exists t. auto.
Qed.
Lemma one_id : forall v t x, wf x -> ~ In v (vars x) -> gsub (one v t) x = x.
Proof. intros v t x W H. apply gsub_id; [exact W|]. intros w I. unfold one. destruct (Nat.eqb_spec w v) as [->|_]; [contradiction|reflexivity]. Qed.
Lemma wf_one : forall v t w, wf t -> wf (one v t w).
Proof. intros v t w H. unfold one. destruct (w =? v); [exact H|constructor]. Qed.

(** *** States. *)
Inductive good : subst -> Prop :=
| good_nil : good []
| good_cons : forall v t s, good s -> wf t -> ~ In v (vars t) -> ~ In v (map fst s) -> (forall w, In w (vars t) -> ~ In w (map fst s)) -> good ((v, t) :: s).
Lemma wf_app : forall s x, good s -> wf x -> wf (app s x).
Proof. intros s x H W. induction H as [|v t s G IH WT _ _ _]; [exact W|]. cbn [app]. apply wf_gsub; [intro w; apply wf_one, WT|exact IH]. Qed.
Lemma vars_app : forall s x v, good s -> In v (vars (app s x)) -> ~ In v (map fst s).
Proof.
  intros s x v H. revert v. induction H as [|w t s G IH WT N1 N2 N3]; intros v V; [intros []|]. cbn [app] in V. apply vars_gsub in V. destruct V as (u & U & V). unfold one in V. cbn [map fst In]. destruct (Nat.eqb_spec u w) as [->|NE].
  - intros [->|I]; [contradiction|apply (N3 v V I)].
  - destruct V as [<-|[]]. intros [E|I]; [congruence|apply (IH u U I)].
Qed.
Lemma app_id : forall s x, good s -> wf x -> (forall v, In v (vars x) -> ~ In v (map fst s)) -> app s x = x.
Proof.
  intros s x H W. induction H as [|w t s G IH WT N1 N2 N3]; intro D; [reflexivity|]. cbn [app]. rewrite IH; [|intros v V I; apply (D v V); right; exact I]. apply one_id; [exact W|]. intro I. apply (D w I). left. reflexivity.
Qed.
Lemma app_gsub : forall s, exists d, forall x, wf x -> app s x = gsub d x.
Proof.
  induction s as [|[v t] s [d IH]]; [exists Uni; intros x W; symmetry; apply gsub_id; auto|]. exists (fun w => gsub (one v t) (d w)). intros x W. cbn [app]. rewrite IH by exact W. apply gsub_comp.
Qed.
Definition wfp (ps : list (ty * ty)) : Prop := forall a b, In (a, b) ps -> wf a /\ wf b.
Lemma args_in : forall h ts us a b, In (a, b) (args h ts us) -> (In a ts /\ In b us) \/ (In a us /\ In b ts).
Proof.
  intros h ts us a b I. assert (C : In (a, b) (combine ts us) -> (In a ts /\ In b us) \/ (In a us /\ In b ts)) by (intro J; left; split; [apply (in_combine_l _ _ _ _ J)|apply (in_combine_r _ _ _ _ J)]).
  unfold args in I. destruct h; try (apply C, I). destruct ts as [|x1 [|x2 [|x3 [|x4 [|x5 ts]]]]], us as [|y1 [|y2 [|y3 [|y4 [|y5 us]]]]]; try (apply C, I). cbn in I. clear C. cbn. intuition; repeat match goal with H : (_, _) = (_, _) |- _ => injection H as <- <- end; auto 10.
Qed.
Lemma args_eq : forall (f : ty -> ty) h ts us, length ts = length us -> ((forall a b, In (a, b) (args h ts us) -> f a = f b) <-> map f ts = map f us).
Proof.
  intros f h ts us L. assert (C : (forall a b, In (a, b) (combine ts us) -> f a = f b) <-> map f ts = map f us).
  { clear h. revert us L. induction ts as [|t ts IH]; intros [|u us] L; try discriminate L; [split; [reflexivity|intros _ a b []]|]. injection L as L. specialize (IH us L). cbn [combine map]. split.
    - intro H. f_equal; [apply H; left; reflexivity|]. apply IH. intros a b I. apply H. right. exact I.
    - intros H a b [E|I]; [injection E as <- <-; congruence|]. apply IH; [congruence|exact I]. }
  unfold args. destruct h; try exact C. destruct ts as [|x1 [|x2 [|x3 [|x4 [|x5 ts]]]]], us as [|y1 [|y2 [|y3 [|y4 [|y5 us]]]]]; try exact C. clear C L. cbn [map]. split.
  - intro H. rewrite (H x1 y1), (H y2 x2), (H y3 x3), (H x4 y4); cbn; auto.
  - intros H a b I. injection H as H1 H2 H3 H4. cbn in I. intuition congruence.
Qed.
Lemma node_wf : forall h ts, wf (Node h ts) -> length ts = arity h /\ forall t, In t ts -> wf t.
Proof. intros h ts H. inversion H; subst. auto. Qed.
Lemma args_wf : forall h ts us, wf (Node h ts) -> wf (Node h us) -> wfp (args h ts us).
Proof. intros h ts us H1 H2 a b I. apply node_wf in H1. apply node_wf in H2. destruct (args_in _ _ _ _ _ I) as [[A B]|[A B]]; split; [apply H1|apply H2|apply H2|apply H1]; assumption. Qed.

Section Level.
Variable level : nat -> nat.
Notation unify := (unify level).
(** One round. *)
Inductive round (s : subst) (a b : ty) : option (subst * list (ty * ty)) -> Prop :=
| r_same : forall v, app s a = Uni v -> app s b = Uni v -> round s a b (Some (s, []))
| r_bind : forall v t, ((app s a = Uni v /\ app s b = t) \/ (app s a = t /\ app s b = Uni v)) -> ~ In v (vars t) -> round s a b (Some ((v, t) :: s, []))
| r_args : forall h ts us, app s a = Node h ts -> app s b = Node h us -> round s a b (Some (s, args h ts us))
| r_occurs : forall v h ts, ((app s a = Uni v /\ app s b = Node h ts) \/ (app s a = Node h ts /\ app s b = Uni v)) -> In v (vars (Node h ts)) -> round s a b None
| r_heads : forall h g ts us, app s a = Node h ts -> app s b = Node g us -> h <> g -> round s a b None.
Lemma occurs_in : forall v t, occurs v t = true <-> In v (vars t).
Proof. intros v t. unfold occurs. rewrite existsb_exists. split; [intros (w & I & E); apply Nat.eqb_eq in E; congruence|intro I; exists v; split; [exact I|apply Nat.eqb_refl]]. Qed.
Lemma occurs_not : forall v t, occurs v t = false -> ~ In v (vars t).
Proof. intros v t H I. apply occurs_in in I. congruence. Qed.
Lemma unify_round : forall s a b, exists r, round s a b r /\ forall n ps, unify (S n) s ((a, b) :: ps) = match r with Some (s', qs) => unify n s' (qs ++ ps) | None => Clash end.
Proof.
  intros s a b. cbn [M_Unify.unify]. destruct (app s a) as [v|h ts] eqn:EA, (app s b) as [w|g us] eqn:EB.
  - destruct (Nat.eqb_spec v w) as [->|NE]; [exists (Some (s, [])); split; [apply (r_same _ _ _ w EA EB)|reflexivity]|]. destruct (level v <? level w).
    + exists (Some ((w, Uni v) :: s, [])). split; [|reflexivity]. apply r_bind; [right; auto|]. intros [E|[]]. congruence.
    + exists (Some ((v, Uni w) :: s, [])). split; [|reflexivity]. apply r_bind; [left; auto|]. intros [E|[]]. congruence.
  - destruct (occurs v (Node g us)) eqn:O; [exists None; split; [|reflexivity]; eapply r_occurs; [left; eauto|apply occurs_in, O]|]. exists (Some ((v, Node g us) :: s, [])). split; [|reflexivity]. apply r_bind; [left; auto|apply occurs_not, O].
  - destruct (occurs w (Node h ts)) eqn:O; [exists None; split; [|reflexivity]; eapply r_occurs; [right; eauto|apply occurs_in, O]|]. exists (Some ((w, Node h ts) :: s, [])). split; [|reflexivity]. apply r_bind; [right; auto|apply occurs_not, O].
  - destruct (head_eqb h g) eqn:HE; [apply head_eqb_eq in HE; subst g; exists (Some (s, args h ts us)); split; [apply r_args; assumption|reflexivity]|]. exists None. split; [|reflexivity]. eapply r_heads; [exact EA|exact EB|]. intro E. apply head_eqb_eq in E. congruence.
Qed.
Lemma bind_good : forall s a b v t, good s -> wf a -> wf b -> ((app s a = Uni v /\ app s b = t) \/ (app s a = t /\ app s b = Uni v)) -> ~ In v (vars t) -> good ((v, t) :: s).
Proof.
  intros s a b v t G WA WB C N. assert (V : ~ In v (map fst s)) by (destruct C as [[E _]|[_ E]]; [apply (vars_app s a v G)|apply (vars_app s b v G)]; rewrite E; left; reflexivity).
  apply good_cons; auto; [destruct C as [[_ <-]|[<- _]]; apply wf_app; assumption|]. intros w W. destruct C as [[_ <-]|[<- _]]; eapply vars_app; eauto.
Qed.
Lemma round_ok : forall s a b s' qs, good s -> wf a -> wf b -> round s a b (Some (s', qs)) ->
  good s' /\ wfp qs /\ (s' = s \/ exists v t, s' = (v, t) :: s).
Proof.
  intros s a b s' qs G WA WB R. inversion R as [v EA EB E|v t C N E|h ts us EA EB E| |]; subst.
  - split; [exact G|]. split; [intros x y []|]. left. reflexivity.
  - split; [apply (bind_good s a b v t G WA WB C N)|]. split; [intros x y []|]. right. exists v, t. reflexivity.
  - split; [exact G|]. split; [|left; reflexivity]. apply args_wf; [rewrite <- EA|rewrite <- EB]; apply wf_app; assumption.
Qed.
Lemma wfp_cons : forall a b ps, wfp ((a, b) :: ps) -> wf a /\ wf b /\ wfp ps.
Proof. intros a b ps H. destruct (H a b (or_introl eq_refl)) as [W1 W2]. split; [exact W1|]. split; [exact W2|]. intros x y I. apply H. right. exact I. Qed.
Lemma wfp_app : forall ps qs, wfp ps -> wfp qs -> wfp (ps ++ qs).
Proof. intros ps qs H1 H2 a b I. apply in_app_or in I. destruct I as [I|I]; auto. Qed.
Definition extends (s s' : subst) : Prop := exists d, forall x, app s' x = gsub d (app s x).
(** *** Soundness. *)
Lemma unify_sound : forall n s ps s', good s -> wfp ps -> unify n s ps = Done s' ->
  good s' /\ (exists l, s' = l ++ s) /\ (forall a b, In (a, b) ps -> app s' a = app s' b).
Proof.
  induction n as [|n IH]; intros s [|[a b] ps] s' G W H; try (injection H as <-; split; [exact G|]; split; [exists []; reflexivity|intros a b []]); try discriminate H.
  apply wfp_cons in W. destruct W as (WA & WB & WP). destruct (unify_round s a b) as (r & R & E). rewrite E in H. destruct r as [[s1 qs]|]; [|discriminate H].
  destruct (round_ok _ _ _ _ _ G WA WB R) as (G1 & WQ & EX). destruct (IH s1 (qs ++ ps) s' G1 (wfp_app _ _ WQ WP) H) as (G' & (l & L) & P). split; [exact G'|].
  assert (APP : forall l s x, app (l ++ s) x = app l (app s x)) by (clear; induction l as [|[v t] l IH]; intros s x; [reflexivity|]; cbn; rewrite IH; reflexivity).
  split; [destruct EX as [->|(v & t & ->)]; [exists l; exact L|exists (l ++ [(v, t)]); rewrite L, <- app_assoc; reflexivity]|].
  intros x y [XY|I]; [|apply P, in_or_app; right; exact I]. injection XY as <- <-. subst s'. rewrite !APP. inversion R as [v EA EB|v t C N|h ts us EA EB| |]; subst.
  - rewrite EA, EB. reflexivity.
  - cbn [app]. f_equal. assert (ONE : gsub (one v t) (Uni v) = t) by (cbn; unfold one; rewrite Nat.eqb_refl; reflexivity). assert (TT : gsub (one v t) t = t) by (apply one_id; [|exact N]; destruct C as [[_ <-]|[<- _]]; apply wf_app; assumption).
    destruct C as [[-> ->]|[-> ->]]; congruence.
  - rewrite EA, EB. assert (WT : wf (Node h ts)) by (rewrite <- EA; apply wf_app; assumption). assert (WU : wf (Node h us)) by (rewrite <- EB; apply wf_app; assumption).
    destruct (app_gsub l) as [d D]. rewrite !D by assumption. cbn [gsub]. f_equal. apply (args_eq (gsub d) h); [destruct (node_wf _ _ WT), (node_wf _ _ WU); congruence|].
    intros x y I. specialize (P x y (in_or_app _ _ _ (or_introl I))). rewrite !APP in P. destruct (WQ x y I) as [WX WY].
    assert (ID : forall z, In z ts \/ In z us -> app s1 z = z). { intros z Z. assert (WZ : wf z) by (destruct Z as [Z|Z]; [apply (proj2 (node_wf _ _ WT))|apply (proj2 (node_wf _ _ WU))]; exact Z). apply app_id; auto. intros v V. destruct Z as [Z|Z]; [apply (vars_app s1 a v G1); rewrite EA|apply (vars_app s1 b v G1); rewrite EB]; cbn [vars]; apply in_flat_map; exists z; auto. }
    destruct (args_in _ _ _ _ _ I) as [[X Y]|[X Y]]; rewrite (ID x), (ID y) in P by auto; rewrite <- !D by assumption; exact P.
Qed.
End Level.
End Wf.

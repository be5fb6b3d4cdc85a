(** Unification: most general results, termination. *)
From Coq Require Import List Arith Bool Lia.
From Verif Require Import S_Unify M_Unify P_Unify.
Import ListNotations.

(** *** Substitutions that make no option of an option. *)
Lemma plain_inv : forall th h ts, plain th (Node h ts) -> gsub th (Node h ts) = Node h (map (gsub th) ts) /\ forall t, In t ts -> plain th t.
Proof.
  intros th h ts H. inversion H as [|? ? F O]; subst. split; [|exact F]. cbn [gsub]. destruct (mk_cases h (map (gsub th) ts)) as [E|(us & -> & E & _)]; [exact E|]. exfalso. destruct ts as [|t [|t' ts]]; try discriminate E. injection E as E. apply (O t eq_refl eq_refl). exists us. exact E.
Qed.
Lemma plain_one : forall th v t x, plain th x -> plain th t -> th v = gsub th t -> plain th (gsub (one v t) x).
Proof.
  intros th v t x. induction x as [w|h ts IH] using ty_ind2; intros PX PT E; [cbn; unfold one; destruct (w =? v); [exact PT|constructor]|]. inversion PX as [|? ? F O]; subst. cbn [gsub].
  replace (mk h (map (gsub (one v t)) ts)) with (Node h (map (gsub (one v t)) ts)).
  - apply plain_node.
    + intros u U. apply in_map_iff in U. destruct U as (u' & <- & U). apply IH; auto.
    + intros u -> U. destruct ts as [|t1 [|t2 ts]]; try discriminate U. injection U as <-. rewrite (gsub_one th v t t1 E). apply O; reflexivity.
  - destruct (mk_cases h (map (gsub (one v t)) ts)) as [K|(us & -> & K & _)]; [symmetry; exact K|]. exfalso. destruct ts as [|t1 [|t2 ts]]; try discriminate K. injection K as K. apply (O t1 eq_refl eq_refl). rewrite <- (gsub_one th v t t1 E), K. cbn [gsub]. apply mk_opt.
Qed.
Definition plain_s (th : nat -> ty) (s : subst) : Prop := forall v t, In (v, t) s -> plain th t.
Definition plain_p (th : nat -> ty) (ps : list (ty * ty)) : Prop := forall a b, In (a, b) ps -> plain th a /\ plain th b.
Lemma plain_app : forall th s x, agrees th s -> plain_s th s -> plain th x -> plain th (app s x).
Proof.
  induction s as [|[v t] s IH]; intros x A P PX; [exact PX|]. cbn [app]. apply plain_one; [|apply (P v t); left; reflexivity|apply A; left; reflexivity]. apply IH; [intros w u I; apply A; right; exact I|intros w u I; apply (P w u); right; exact I|exact PX].
Qed.
Lemma in_sum : forall (f : ty -> nat) ts t, In t ts -> f t <= list_sum (map f ts).
Proof. induction ts as [|u ts IH]; intros t I; [destruct I|]. change (list_sum (map f (u :: ts))) with (f u + list_sum (map f ts)). destruct I as [<-|I]; [lia|]. specialize (IH t I). lia. Qed.
Lemma size_le : forall th x v, plain th x -> In v (vars x) -> size (th v) <= size (gsub th x).
Proof.
  intros th x v. induction x as [w|h ts IH] using ty_ind2; intros P I; [destruct I as [->|[]]; apply le_n|]. destruct (plain_inv _ _ _ P) as [E F]. rewrite E. cbn [vars] in I. apply in_flat_map in I. destruct I as (t & T & V). cbn [size]. rewrite map_map. pose proof (in_sum (fun y => size (gsub th y)) ts t T). cbv beta in H. specialize (IH t T (F t T) V). lia.
Qed.
Lemma size_lt : forall th h ts v, plain th (Node h ts) -> In v (vars (Node h ts)) -> th v <> gsub th (Node h ts).
Proof.
  intros th h ts v P I E. apply (f_equal size) in E. destruct (plain_inv _ _ _ P) as [G F]. rewrite G in E. cbn [vars] in I. apply in_flat_map in I. destruct I as (t & T & V). cbn [size] in E. rewrite map_map in E. pose proof (in_sum (fun y => size (gsub th y)) ts t T) as S. cbv beta in S. pose proof (size_le th t v (F t T) V). lia.
Qed.
Lemma no_opt_plain : forall th x, no_opt x -> plain th x.
Proof. intros th x. induction x as [v|h ts IH] using ty_ind2; intro N; [constructor|]. inversion N as [|? ? H F]; subst. apply plain_node; [intros t T; apply IH; auto|intros t E; contradiction]. Qed.

Section Wf.
Variable con_arity : nat -> nat.
Variable level : nat -> nat.
Notation wf := (wf con_arity).
Notation good := (good con_arity).
Notation wfp := (wfp con_arity).
Notation unify := (unify level).
Lemma never_opt_plain : forall th x, wf x -> (forall v, ~ is_opt (th v)) -> plain th x.
Proof.
  intros th x. induction x as [v|h ts IH] using ty_ind2; intros W N; [constructor|]. inversion W as [|? ? L F M]; subst. apply plain_node; [intros t T; apply IH; auto|]. intros t -> -> (us & E). destruct t as [v|g ws]; [apply (N v); exists us; exact E|]. cbn [gsub] in E. destruct (mk_head g (map (gsub th) ws)) as [zs Z]. rewrite Z in E. injection E as -> ->. discriminate M || (cbn in M; injection M as M; clear - M).
  apply (f_equal (fun l => list_sum (map size l))) in M. cbn in M. lia.
Qed.

Lemma round_complete : forall th s a b r, good s -> wf a -> wf b -> agrees th s -> plain_s th s -> plain th a -> plain th b -> gsub th a = gsub th b -> round s a b r ->
  exists s' qs, r = Some (s', qs) /\ agrees th s' /\ plain_s th s' /\ plain_p th qs /\ unifies th qs.
Proof.
  intros th s a b r G WA WB AG PS PA PB EQ R. rewrite <- (agree_app th s a AG), <- (agree_app th s b AG) in EQ. apply (plain_app th s a AG PS) in PA. apply (plain_app th s b AG PS) in PB.
  inversion R as [v EA EB E|v t C N E|h ts us EA EB E|v h ts C I E|h g ts us EA EB NE E]; subst.
  - exists s, []. repeat split; auto; try (intros x y []); destruct H.
  - exists ((v, t) :: s), []. split; [reflexivity|].
    assert (TV : th v = gsub th t) by (destruct C as [[E1 E2]|[E1 E2]]; rewrite E1, E2 in EQ; cbn [gsub] in EQ; congruence).
    assert (PT : plain th t) by (destruct C as [[_ <-]|[<- _]]; assumption).
    split; [intros w u [I|I]; [injection I as <- <-; exact TV|apply AG, I]|]. split; [intros w u [I|I]; [injection I as <- <-; exact PT|apply (PS w u I)]|]. split; [intros x y []|intros x y []].
  - exists s, (args h ts us). split; [reflexivity|]. split; [exact AG|]. split; [exact PS|]. rewrite EA in PA, EQ. rewrite EB in PB, EQ. destruct (plain_inv _ _ _ PA) as [GA FA], (plain_inv _ _ _ PB) as [GB FB]. split.
    + intros x y I. destruct (args_in _ _ _ _ _ I) as [[X Y]|[X Y]]; auto.
    + rewrite GA, GB in EQ. injection EQ as EQ. intros x y. apply (args_eq (gsub th) h ts us); [|exact EQ]. apply (f_equal (@length _)) in EQ. rewrite !map_length in EQ. exact EQ.
  - exfalso. destruct C as [[E1 E2]|[E1 E2]]; rewrite E1 in EQ, PA; rewrite E2 in EQ, PB; [apply (size_lt th h ts v PB I); exact EQ|apply (size_lt th h ts v PA I); symmetry; exact EQ].
  - exfalso. rewrite EA, EB in EQ. cbn [gsub] in EQ. destruct (mk_head h (map (gsub th) ts)) as [x X], (mk_head g (map (gsub th) us)) as [y Y]. rewrite X, Y in EQ. congruence.
Qed.
Lemma unify_complete : forall th n s ps, good s -> wfp ps -> agrees th s -> plain_s th s -> plain_p th ps -> unifies th ps ->
  match unify n s ps with Done s' => agrees th s' | Clash => False | More => True end.
Proof.
  intros th. induction n as [|n IH]; intros s [|[a b] ps] G W AG PS PP UN; try exact AG; [exact I|].
  apply wfp_cons in W. destruct W as (WA & WB & WP). destruct (unify_round level s a b) as (r & R & E). rewrite E. destruct (PP a b (or_introl eq_refl)) as [PA PB].
  destruct (round_complete th s a b r G WA WB AG PS PA PB (UN a b (or_introl eq_refl)) R) as (s' & qs & -> & A' & P' & PQ & UQ). destruct (round_ok con_arity s a b s' qs G WA WB R) as (G' & WQ & _). apply IH; auto; [apply wfp_app; assumption| |].
  - intros x y I. apply in_app_or in I. destruct I as [I|I]; [apply PQ, I|apply PP; right; exact I].
  - intros x y I. apply in_app_or in I. destruct I as [I|I]; [apply UQ, I|apply UN; right; exact I].
Qed.

(** *** Termination. *)
Definition total (s : subst) (ps : list (ty * ty)) : nat := list_sum (map (fun p => size (app s (fst p)) + size (app s (snd p))) ps).
Lemma total_app : forall s ps qs, total s (ps ++ qs) = total s ps + total s qs.
Proof. intros s ps qs. unfold total. rewrite map_app, list_sum_app. reflexivity. Qed.
Lemma args_total : forall s h ts us, (forall z, In z ts \/ In z us -> app s z = z) -> total s (args h ts us) <= list_sum (map size ts) + list_sum (map size us).
Proof.
  intros s h ts us ID. assert (C : total s (combine ts us) <= list_sum (map size ts) + list_sum (map size us)).
  { clear h. revert us ID. induction ts as [|t ts IH]; intros [|u us] ID; [cbn; lia|cbn; lia|cbn; lia|]. specialize (IH us). change (total s (combine (t :: ts) (u :: us))) with (size (app s t) + size (app s u) + total s (combine ts us)). change (list_sum (map size (t :: ts))) with (size t + list_sum (map size ts)). change (list_sum (map size (u :: us))) with (size u + list_sum (map size us)). rewrite (ID t), (ID u) by (cbn; auto). assert (K : forall z, In z ts \/ In z us -> app s z = z) by (intros z [Z|Z]; apply ID; cbn; auto). specialize (IH K). lia. }
  unfold args. destruct h; try exact C. destruct ts as [|x1 [|x2 [|x3 [|x4 [|x5 ts]]]]], us as [|y1 [|y2 [|y3 [|y4 [|y5 us]]]]]; try exact C. clear C. unfold total. cbn [map fst snd list_sum fold_right].
  rewrite (ID x1), (ID x2), (ID x3), (ID x4), (ID y1), (ID y2), (ID y3), (ID y4) by (cbn; auto 10). lia.
Qed.
Lemma size_pos : forall x, 1 <= size x.
Proof. destruct x; cbn; lia. Qed.
Definition within (s : subst) (ps : list (ty * ty)) (vs : list nat) : Prop := forall a b v, In (a, b) ps -> In v (vars (app s a)) \/ In v (vars (app s b)) -> In v vs.
Lemma unify_stops : forall k m s ps vs, good s -> wfp ps -> length vs <= k -> total s ps <= m -> within s ps vs -> exists n, unify n s ps <> More.
Proof.
  induction k as [k IHk] using lt_wf_ind. induction m as [m IHm] using lt_wf_ind. intros s [|[a b] ps] vs G W K T V; [exists 0; discriminate|].
  apply wfp_cons in W. destruct W as (WA & WB & WP). destruct (unify_round level s a b) as (r & R & E). change ((a, b) :: ps) with ([(a, b)] ++ ps) in T. rewrite total_app in T. unfold total at 1 in T. cbn [map fst snd list_sum fold_right] in T.
  assert (VP : within s ps vs) by (intros x y v I; apply (V x y v); right; exact I).
  destruct r as [[s' qs]|]; [|exists 1; rewrite E; discriminate]. destruct (round_ok con_arity s a b s' qs G WA WB R) as (G' & WQ & _).
  enough (X : exists n, unify n s' (qs ++ ps) <> More) by (destruct X as [n X]; exists (S n); rewrite E; exact X).
  inversion R as [v EA EB EE|v t C N EE|h ts us EA EB EE| |]; subst.
  - apply (IHm (total s' ps)) with (vs := vs); auto. pose proof (size_pos (app s' a)). lia.
  - assert (IV : In v vs) by (apply (V a b v); [left; reflexivity|]; destruct C as [[-> _]|[_ ->]]; [left|right]; left; reflexivity).
    assert (IT : forall w, In w (vars t) -> In w vs) by (intros w I; apply (V a b w); [left; reflexivity|]; destruct C as [[_ ->]|[-> _]]; auto).
    apply (IHk (length (remove Nat.eq_dec v vs))) with (m := total ((v, t) :: s) ps) (vs := remove Nat.eq_dec v vs); auto; [pose proof (remove_length_lt Nat.eq_dec vs v IV); lia|].
    assert (SUB : forall x w, (forall u, In u (vars (app s x)) -> In u vs) -> In w (vars (app ((v, t) :: s) x)) -> In w (remove Nat.eq_dec v vs)).
    { intros x w H I. cbn [app] in I. apply vars_gsub in I. destruct I as (u & U & I). unfold one in I. destruct (Nat.eqb_spec u v) as [->|NE]; [apply in_in_remove; [intros ->; contradiction|apply IT, I]|]. destruct I as [<-|[]]. apply in_in_remove; auto. }
    intros x y w I [J|J]; (apply SUB in J; [exact J|]); intros u U; apply (VP x y u I); auto.
  - assert (WT : wf (Node h ts)) by (rewrite <- EA; apply wf_app; assumption). assert (WU : wf (Node h us)) by (rewrite <- EB; apply wf_app; assumption).
    assert (ID : forall z, In z ts \/ In z us -> app s' z = z). { intros z Z. assert (WZ : wf z) by (destruct Z as [Z|Z]; [apply (proj2 (node_wf _ _ _ WT))|apply (proj2 (node_wf _ _ _ WU))]; exact Z). apply (app_id con_arity); auto. intros v I. destruct Z as [Z|Z]; [apply (vars_app con_arity s' a v G); rewrite EA|apply (vars_app con_arity s' b v G); rewrite EB]; cbn [vars]; apply in_flat_map; exists z; auto. }
    pose proof (args_total s' h ts us ID) as AT. rewrite EA, EB in T. cbn [size] in T. apply (IHm (total s' (args h ts us ++ ps))) with (vs := vs); auto; [rewrite total_app; lia|apply wfp_app; assumption|].
    intros x y v I J. apply in_app_or in I. destruct I as [I|I]; [|apply (VP x y v I J)]. apply (V a b v); [left; reflexivity|]. rewrite EA, EB. cbn [vars].
    destruct (args_in _ _ _ _ _ I) as [[X Y]|[X Y]]; rewrite (ID x), (ID y) in J by auto; destruct J as [J|J]; [left; apply in_flat_map; exists x|right; apply in_flat_map; exists y|right; apply in_flat_map; exists x|left; apply in_flat_map; exists y]; auto.
Qed.
Lemma unify_more : forall n m s ps, n <= m -> unify n s ps <> More -> unify m s ps = unify n s ps.
Proof.
  induction n as [|n IH]; intros m s [|[a b] ps] L H; try (destruct m; reflexivity); [exfalso; apply H; reflexivity|]. destruct m as [|m]; [lia|]. destruct (unify_round level s a b) as (r & _ & E). rewrite !E in *. destruct r as [[s' qs]|]; [|reflexivity]. apply IH; [lia|exact H].
Qed.

(** *** The equations of the code. *)
Lemma app_uni : forall s v, good s -> app s (Uni v) = match lookup v s with Some t => app s t | None => Uni v end.
Proof.
  intros s v G. induction G as [|w t s G IH WT N1 N2 N3]; [reflexivity|]. cbn [app lookup]. destruct (Nat.eqb_spec v w) as [->|NE].
  - rewrite (app_id con_arity s (Uni w) G); [|constructor|intros u [<-|[]]; exact N2]. rewrite (app_id con_arity s t G WT N3). cbn [gsub]. unfold one at 1. rewrite Nat.eqb_refl. symmetry. apply (one_id con_arity); assumption.
  - rewrite IH. destruct (lookup v s) as [u|]; [reflexivity|]. cbn. unfold one. apply Nat.eqb_neq in NE. rewrite NE. reflexivity.
Qed.
Lemma app_node : forall s h ts, good s -> wf (Node h ts) -> app s (Node h ts) = mk h (map (app s) ts).
Proof.
  intros s h ts G W. induction G as [|w t s G IH WT N1 N2 N3]; [cbn; rewrite map_id; inversion W; subst; symmetry; assumption|]. cbn [app]. rewrite IH, gsub_mk, map_map. reflexivity.
Qed.
End Wf.

(** Incremental builds: a second build does nothing. *)
From Coq Require Import List Arith Bool Lia.
From Verif Require Import S_Incr M_Incr P_Incr P_Incr2.
Import ListNotations.

Lemma l_eqb_refl : forall A (e : A -> A -> bool) a, (forall x, In x a -> e x x = true) -> l_eqb e a a = true.
Proof. intros A e. induction a as [|x a IH]; intro H; [reflexivity|]. cbn. rewrite (H x (or_introl eq_refl)). apply IH. intros y Y. apply H. right. exact Y. Qed.
Lemma i_eqb_refl : forall a, i_eqb a a = true.
Proof. intros [t r]. unfold i_eqb. cbn [text refs]. rewrite Nat.eqb_refl. apply l_eqb_refl. intros x _. apply q_eqb_eq. reflexivity. Qed.
Lemma h_eqb_refl : forall a, h_eqb a a = true.
Proof.
  induction a as [t is ns ds IH] using hash_ind'. cbn [h_eqb]. rewrite Nat.eqb_refl, !l_eqb_refl; [reflexivity|exact IH|intros; apply Nat.eqb_refl|intros; apply i_eqb_refl].
Qed.
Section Again.
Variable Src : Type.
Variable src_eqb : Src -> Src -> bool.
Variables front front' : nat -> Src -> tree.
Variable maxd : nat.
Hypothesis src_same : forall a, src_eqb a a = true.
Hypothesis src_ok : forall a b, src_eqb a b = true -> a = b.
Lemma resolve_back : forall A (f : A -> option hash) l r a h, resolve f l = Some r -> In (a, h) r -> f a = Some h.
Proof.
  intros A f. induction l as [|x l IH]; intros r a h H I; cbn [resolve] in H; [injection H as <-; destruct I|]. destruct (f x) as [hx|] eqn:F; [|discriminate H]. destruct (resolve f l) as [r'|]; [|discriminate H]. injection H as <-.
  destruct I as [E|I]; [congruence|apply (IH r' a h eq_refl I)].
Qed.
Lemma built_unchanged : forall cache v m s e, build_module Src src_eqb front maxd cache v m s = Some e -> e_src Src e = s /\ unchanged Src v e = true.
Proof.
  intros cache v m s e H. apply build_module_cases in H; [|exact src_ok]. destruct H as [H|H]; [|tauto]. apply compile_inv in H. destruct H as (_ & S & _ & M & _). split; [exact S|].
  apply forallb_forall. intros [d h] I. cbn [fst snd]. rewrite (resolve_back _ _ _ _ _ _ M I). cbn [is_hash]. rewrite h_eqb_refl. reflexivity.
Qed.
Lemma build_suffix : forall cache order v, exists w, fst (build Src src_eqb front maxd cache order v) = w ++ v /\ forall m, In m (map fst w) -> In m (map fst order).
Proof.
  intros cache. induction order as [|[m s] order IH]; intro v; cbn [build]; [exists []; split; [reflexivity|intros m X; destruct X]|].
  destruct (build_module Src src_eqb front maxd cache v m s) as [e|]; [|exists []; split; [reflexivity|intros x X; destruct X]].
  destruct (IH ((m, e) :: v)) as (w & E & W). exists (w ++ [(m, e)]). split; [rewrite E, <- app_assoc; reflexivity|]. intros x X. rewrite map_app in X. apply in_app_or in X. destruct X as [X|[<-|X]]; [right; apply W, X|left; reflexivity|destruct X].
Qed.
Lemma assoc_skip : forall A (w v : list (nat * A)) m, ~ In m (map fst w) -> assoc m (w ++ v) = assoc m v.
Proof. intros A. induction w as [|[k a] w IH]; intros v m N; [reflexivity|]. cbn [app assoc]. destruct (Nat.eqb_spec k m) as [->|]; [exfalso; apply N; left; reflexivity|]. apply IH. intro X. apply N. right. exact X. Qed.
Lemma again : forall cache order v, NoDup (map fst order) ->
  let r := build Src src_eqb front maxd cache order v in snd r = true -> build Src src_eqb front' maxd (fst r ++ cache) order v = r.
Proof.
  intros cache order v N r. subst r.
  assert (G : forall old order v, NoDup (map fst order) -> (forall m e, In m (map fst order) -> assoc m (fst (build Src src_eqb front maxd cache order v)) = Some e -> assoc m old = Some e) ->
    snd (build Src src_eqb front maxd cache order v) = true -> build Src src_eqb front' maxd old order v = build Src src_eqb front maxd cache order v).
  { clear - src_same src_ok. intros old. induction order as [|[m s] order IH]; intros v N O T; [reflexivity|]. cbn [build] in *. cbn [map fst] in N. inversion N as [|? ? N1 N2]; subst.
    destruct (build_module Src src_eqb front maxd cache v m s) as [e|] eqn:B; [|discriminate T].
    assert (A : assoc m old = Some e).
    { apply O; [left; reflexivity|]. destruct (build_suffix cache order ((m, e) :: v)) as (w & -> & W). rewrite assoc_skip; [cbn [assoc]; rewrite Nat.eqb_refl; reflexivity|]. intro X. apply N1, W, X. }
    destruct (built_unchanged _ _ _ _ _ B) as [S U]. unfold build_module. rewrite A, S, src_same, U. cbn [andb]. apply IH; try assumption. intros x e' X. apply O. right. exact X. }
  intro T. apply G; try assumption. intros m e _ A. clear - A. induction (fst _) as [|[k x] l IH]; [discriminate A|]. cbn [app assoc] in *. destruct (k =? m); [exact A|apply IH, A].
Qed.
End Again.

(** Subtyping: termination with type parameters, and the rules one by one. *)
From Coq Require Import List Arith Bool Lia.
From Verif Require Import S_Sub M_Sub P_Sub P_Sub2.
Import ListNotations.

Fixpoint wsize (w : nat -> nat) (x : ty) : nat :=
  match x with
  | Par v => w v
  | Non | Eff _ | Nil _ => 1
  | Con _ ts => S (list_sum (map (wsize w) ts))
  | Fun e p k t => S (wsize w e + wsize w p + wsize w k + wsize w t)
  | Tup p k => S (wsize w p + wsize w k)
  | Opt t => S (wsize w t)
  | Row _ _ t r => S (wsize w t + wsize w r)
  | Star _ r => S (wsize w r)
  end.
Lemma wsize_same : forall w w' x, (forall v, has v x -> w v = w' v) -> wsize w x = wsize w' x.
Proof.
  intros w w'. induction x as [v|c ts IH|e p k t IHe IHp IHk IHt|p k IHp IHk|t IHt| |e|k|k l t r IHt IHr|k r IHr] using ty_ind2; intro H; cbn [wsize]; try reflexivity.
  - apply H. constructor.
  - f_equal. f_equal. apply map_ext_in. intros t I. apply (IH t I). intros v V. apply H. eapply has_con; eassumption.
  - rewrite IHe, IHp, IHk, IHt; [reflexivity| | | |]; intros v V; apply H; auto using has_fun1, has_fun2, has_fun3, has_fun4.
  - rewrite IHp, IHk; [reflexivity| |]; intros v V; apply H; auto using has_tup1, has_tup2.
  - rewrite IHt; [reflexivity|]. intros v V. apply H. constructor. exact V.
  - rewrite IHt, IHr; [reflexivity| |]; intros v V; apply H; auto using has_row1, has_row2.
  - rewrite IHr; [reflexivity|]. intros v V. apply H. constructor. exact V.
Qed.

Section Env.
Variable find_anc : nat -> list ty -> nat -> option (list ty).
Variable cov : nat -> bool.
Variable bound : nat -> nat * list ty.
Notation castable := (castable find_anc cov bound).
Notation bty v := (Con (fst (bound v)) (snd (bound v))).
Hypothesis earlier : forall v w, has w (bty v) -> w < v.

Fixpoint wt (n v : nat) : nat := match n with O => 1 | S n => S (wsize (wt n) (bty v)) end.
Definition weight (v : nat) : nat := wt (S v) v.
Lemma wt_enough : forall v n, v < n -> wt n v = weight v.
Proof.
  induction v as [v IH] using lt_wf_ind. intros [|n] L; [lia|]. unfold weight. cbn [wt]. f_equal. apply wsize_same. intros x X. apply earlier in X. rewrite IH by lia. symmetry. apply IH; lia.
Qed.
Lemma weight_bound : forall v, weight v = S (wsize weight (bty v)).
Proof. intro v. unfold weight at 1. cbn [wt]. f_equal. apply wsize_same. intros x X. apply earlier in X. apply wt_enough. exact X. Qed.
Lemma wsize_pos : forall t, 1 <= wsize weight t.
Proof. intros [v| | | | | | | | |]; cbn [wsize]; try lia. rewrite weight_bound. lia. Qed.
Lemma cast_ends2 : forall n t u, wsize weight t + wsize weight u <= n -> exists b, castable n t u = Some b.
Proof.
  induction n as [|n IH]; intros t u L; [pose proof (wsize_pos t); lia|]. rewrite cast_step.
  assert (VAR : forall v, t = Par v -> exists b, castable n (bty v) u = Some b) by (intros v ->; apply IH; cbn [wsize] in L; rewrite weight_bound in L; cbn [wsize] in *; lia).
  destruct t; destruct u; try (eexists; reflexivity); cbn [P_Sub.step]; try (apply VAR; reflexivity); cbn [wsize] in L; try (repeat apply both_some; apply IH; cbn [wsize]; lia).
  - destruct (v =? v0); [eexists; reflexivity|apply VAR; reflexivity].
  - destruct ((c =? c0) && cov c); [|destruct (find_anc c ts c0); eexists; reflexivity].
    assert (K : list_sum (map (wsize weight) ts) + list_sum (map (wsize weight) ts0) <= n) by lia. clear - IH K. revert ts0 K. induction ts as [|t ts IHts]; intros [|u us] K; try (eexists; reflexivity). cbn [all2]. change (list_sum (map (wsize weight) (t :: ts))) with (wsize weight t + list_sum (map (wsize weight) ts)) in K. change (list_sum (map (wsize weight) (u :: us))) with (wsize weight u + list_sum (map (wsize weight) us)) in K.
    apply both_some; [apply IH; lia|]. apply IHts. lia.
  - destruct (_ && _); [|eexists; reflexivity]. apply both_some; apply IH; lia.
  - destruct (Bool.eqb _ _); [|eexists; reflexivity]. apply IH; lia.
Qed.
End Env.

(** Subtyping: lemmas. *)
From Coq Require Import List Arith Bool Lia.
From Verif Require Import S_Sub M_Sub.
Import ListNotations.

Lemma ty_ind2 : forall P : ty -> Prop, (forall v, P (Par v)) -> (forall c ts, (forall t, In t ts -> P t) -> P (Con c ts)) -> (forall e p k t, P e -> P p -> P k -> P t -> P (Fun e p k t)) ->
  (forall p k, P p -> P k -> P (Tup p k)) -> (forall t, P t -> P (Opt t)) -> P Non -> (forall e, P (Eff e)) -> (forall k, P (Nil k)) -> (forall k l t r, P t -> P r -> P (Row k l t r)) -> (forall k r, P r -> P (Star k r)) -> forall x, P x.
Proof.
  intros P H1 H2 H3 H4 H5 H6 H7 H8 H9 H10. fix IH 1. intros [v|c ts|e p k t|p k|t| |e|k|k l t r|k r]; [apply H1| |apply H3; apply IH|apply H4; apply IH|apply H5, IH|apply H6|apply H7|apply H8|apply H9; apply IH|apply H10, IH]. apply H2. induction ts as [|t ts IHts]; [intros t []|]. intros x [<-|I]; [apply IH|apply IHts, I].
Qed.
Fixpoint size (x : ty) : nat :=
  match x with
  | Par _ | Non | Eff _ | Nil _ => 1
  | Con _ ts => S (list_sum (map size ts))
  | Fun e p k t => S (size e + size p + size k + size t)
  | Tup p k => S (size p + size k)
  | Opt t => S (size t)
  | Row _ _ t r => S (size t + size r)
  | Star _ r => S (size r)
  end.
Lemma ty_eqb_con : forall c ts d us, ty_eqb (Con c ts) (Con d us) = (c =? d) && tys_eqb ts us.
Proof. reflexivity. Qed.
Lemma ty_eqb_eq : forall a b, ty_eqb a b = true <-> a = b.
Proof.
  induction a as [v|c ts IH|e p k t IHe IHp IHk IHt|p k IHp IHk|t IHt| |e|k|k l t r IHt IHr|k r IHr] using ty_ind2; intros [w|d us|e' p' k' t'|p' k'|t'| |e'|k'|k' l' t' r'|k' r']; try (cbn; split; [discriminate|intro E; discriminate E]);
    try (cbn [ty_eqb]; rewrite ?andb_true_iff, ?IHe, ?IHp, ?IHk, ?IHt, ?IHr, ?Nat.eqb_eq, ?eqb_true_iff; split; [intuition congruence|intro E; injection E; intuition congruence]).
  - rewrite ty_eqb_con, andb_true_iff, Nat.eqb_eq. assert (G : tys_eqb ts us = true <-> ts = us).
    { revert us. induction ts as [|t ts IHts]; intros [|u us]; cbn; try (split; [discriminate|intro E; discriminate E]); [tauto|]. rewrite andb_true_iff, IH by (left; reflexivity). rewrite IHts by (intros x X; apply IH; right; exact X). split; [intros [-> ->]; reflexivity|intro E; injection E; auto]. }
    rewrite G. split; [intros [-> ->]; reflexivity|intro E; injection E; auto].
  - cbn. tauto.
  - cbn. destruct e, e'; cbn; split; congruence.
Qed.
Lemma tys_eqb_eq : forall ts us, tys_eqb ts us = true <-> ts = us.
Proof. intros ts us. pose proof (ty_eqb_eq (Con 0 ts) (Con 0 us)) as H. rewrite ty_eqb_con in H. cbn in H. rewrite H. split; congruence. Qed.
Lemma fx_le_sub : forall heir cv bd (ok : ty -> Prop) a b, (forall e, ok (Eff e)) -> fx_le a b = true -> sub heir cv bd ok (Eff a) (Eff b).
Proof. intros heir cv bd ok a b OK H. destruct a, b; try discriminate H; try apply sub_refl; try constructor. apply (sub_trans _ _ _ _ _ (Eff Mut)); [apply OK| |]; constructor. Qed.

Section Env.
Variable find_anc : nat -> list ty -> nat -> option (list ty).
Variable cov : nat -> bool.
Variable bound : nat -> nat * list ty.
Variable arity : nat -> nat.
Notation castable := (castable find_anc cov bound).
Definition heir c ts d us := find_anc c ts d = Some us.
Definition can (t u : ty) : Prop := exists n, castable n t u = Some true.

Lemma both_true : forall a b, both a b = Some true <-> a = Some true /\ b = Some true.
Proof. intros [[|]|] b; cbn; split; try tauto; try (intros [H _]; discriminate H); discriminate. Qed.
Lemma both_mono : forall a b a' b' r, (forall x, a = Some x -> a' = Some x) -> (forall x, b = Some x -> b' = Some x) -> both a b = Some r -> both a' b' = Some r.
Proof. intros [[|]|] b a' b' r HA HB H; cbn in H; try discriminate H; rewrite (HA _ eq_refl); cbn; auto. Qed.
Lemma all2_mono : forall f g ts us r, (forall t u x, f t u = Some x -> g t u = Some x) -> all2 f ts us = Some r -> all2 g ts us = Some r.
Proof. intros f g ts. induction ts as [|t ts IH]; intros [|u us] r H E; cbn [all2] in *; auto. revert E. apply both_mono; auto. Qed.
Definition step (f : ty -> ty -> option bool) (t u : ty) : option bool :=
      match t, u with
      | Con c ts, Con d us =>
          if (c =? d) && cov c then all2 (f) ts us
          else match find_anc c ts d with Some us' => Some (tys_eqb us us') | None => Some false end
      | Fun e1 p1 k1 t1, Fun e2 p2 k2 t2 => both (f e1 e2) (both (f p2 p1) (both (f k2 k1) (f t1 t2)))
      | Tup p1 k1, Tup p2 k2 => both (f p1 p2) (f k1 k2)
      | Opt t, Opt u => f t u
      | Non, Opt _ => Some true
      | Non, Non => Some true
      | Eff a, Eff b => Some (fx_le a b)
      | Nil k, Nil l => Some (Bool.eqb k l)
      | Row k l t1 r1, Row k' l' t2 r2 => if Bool.eqb k k' && (l =? l') then both (f t1 t2) (f r1 r2) else Some false
      | Star k r1, Star k' r2 => if Bool.eqb k k' then f r1 r2 else Some false
      | Par v, Par w => if v =? w then Some true else f (Con (fst (bound v)) (snd (bound v))) u
      | Par v, _ => f (Con (fst (bound v)) (snd (bound v))) u
      | _, Par _ => Some false
      | _, Opt u => f t u
      | _, _ => Some false
      end.
Lemma cast_step : forall n t u, castable (S n) t u = step (castable n) t u.
Proof. reflexivity. Qed.
Lemma step_mono : forall f g t u r, (forall t u x, f t u = Some x -> g t u = Some x) -> step f t u = Some r -> step g t u = Some r.
Proof.
  intros f g t u r H. destruct t, u; cbn [step]; auto; try (match goal with |- (if ?b then _ else _) = _ -> _ => destruct b end; auto); try (apply all2_mono; exact H); repeat (apply both_mono; [intros x X; apply H, X|]); auto; intros x; repeat (apply both_mono; [intros y X; apply H, X|]; auto; intros x').
Qed.
Lemma cast_mono1 : forall n t u r, castable n t u = Some r -> castable (S n) t u = Some r.
Proof. induction n as [|n IH]; intros t u r H; [discriminate H|]. rewrite cast_step in *. revert H. apply step_mono. exact IH. Qed.
Lemma cast_mono : forall n m t u r, n <= m -> castable n t u = Some r -> castable m t u = Some r.
Proof. intros n m t u r L. induction L as [|m L IH]; intro H; [exact H|]. apply cast_mono1, IH, H. Qed.
End Env.

(** Proofs about the conversion of procedures to continuations. *)
From Coq Require Import List Bool Arith Lia.
From Verif Require Import S_Cps M_Cps.
Import ListNotations.

Section Proofs.
Variable L : lang.
Notation locals := (locals L).
Notation calls_t := (call L -> list (val L) -> world L -> option (world L * (val L + exc L))).
Definition same (a b : locals) : Prop := forall x, a x = b x.
Lemma same_refl : forall a, same a a. Proof. intros a x. reflexivity. Qed.
Lemma same_sym : forall a b, same a b -> same b a. Proof. intros a b H x. symmetry. apply H. Qed.
Lemma same_trans : forall a b c, same a b -> same b c -> same a c. Proof. intros a b c H K x. rewrite H. apply K. Qed.
Lemma same_set : forall a b x v, same a b -> same (set a x v) (set b x v).
Proof. intros a b x v H y. unfold set. destruct (y =? x); [reflexivity|apply H]. Qed.
Lemma same_bind : forall a b x v, same a b -> same (bindopt x v a) (bindopt x v b).
Proof. intros a b [x|] v H; [apply same_set|]; exact H. Qed.
Lemma same_map : forall a b (l : list name), same a b -> map a l = map b l.
Proof. intros a b l H. apply map_ext. exact H. Qed.
Lemma same_eval : forall (e : expr L) a b w, same a b -> eval e a w = eval e b w.
Proof. intros e a b w H. unfold eval. rewrite (same_map a b _ H). reflexivity. Qed.

(** The equations of the specification. *)
Lemma ex_if : forall (f : calls_t) n e b els l w, exec_stmt f n (If e b els) l w =
  match eval e l w with
  | (w1, inr x) => Some (l, w1, ORaise x)
  | (w1, inl v) => if truth L v then exec f n b l w1 else exec f n els l w1
  end.
Proof. reflexivity. Qed.
Lemma ex_while : forall (f : calls_t) n e b l w, exec_stmt f n (While e b) l w = while_ n e (exec f n b) l w.
Proof. reflexivity. Qed.
Lemma ex_try : forall (f : calls_t) n b els x h l w, exec_stmt f n (Try b els x h) l w =
  match exec f n b l w with
  | None => None
  | Some (l1, w1, ONext) => exec f n els l1 w1
  | Some (l1, w1, ORaise ex) => exec f n h (set l1 x (caught L ex)) w1
  | Some (l1, w1, o) => Some (l1, w1, o)
  end.
Proof. reflexivity. Qed.
Lemma ex_cons : forall (f : calls_t) n s ss l w, exec f n (Cons s ss) l w =
  match exec_stmt f n s l w with
  | None => None
  | Some (l1, w1, ONext) => exec f n ss l1 w1
  | Some (l1, w1, o) => Some (l1, w1, o)
  end.
Proof. reflexivity. Qed.

(** ** The specification does not look at variables other than by name. *)
Definition like (a b : res L) : Prop :=
  match a, b with
  | None, None => True
  | Some (l, w, o), Some (l', w', o') => same l l' /\ w = w' /\ o = o'
  | _, _ => False
  end.
Lemma like_refl : forall a, like a a.
Proof. intros [[[l w] o]|]; [|exact I]. split; [apply same_refl|]. split; reflexivity. Qed.
Lemma while_like : forall e body, (forall l l' w, same l l' -> like (body l w) (body l' w)) ->
  forall n l l' w, same l l' -> like (while_ n e body l w) (while_ n e body l' w).
Proof.
  intros e body B. induction n as [|n IH]; intros l l' w H; [exact I|].
  cbn [while_]. rewrite (same_eval e l l' w H). destruct (eval e l' w) as [w1 [v|x]].
  2: { split; [exact H|]. split; reflexivity. }
  destruct (truth L v); [|split; [exact H|]; split; reflexivity].
  specialize (B l l' w1 H). destruct (body l w1) as [[[l2 w2] o]|], (body l' w1) as [[[l2' w2'] o']|]; cbn [like] in B; try contradiction; [|exact I].
  destruct B as (B1 & B2 & B3). subst w2' o'. destruct o; cbn [after_body]; try (apply IH; exact B1); (split; [exact B1|]; split; reflexivity).
Qed.
Lemma exec_like : forall (f : calls_t) n,
  (forall s l l' w, same l l' -> like (exec_stmt f n s l w) (exec_stmt f n s l' w)) /\
  (forall ss l l' w, same l l' -> like (exec f n ss l w) (exec f n ss l' w)).
Proof.
  intros f n. apply stmt_suite_ind.
  - intros e l l' w H. cbn. rewrite (same_eval e l l' w H). destruct (eval e l' w) as [w1 [v|x]]; (split; [exact H|]; split; reflexivity).
  - intros x e l l' w H. cbn. rewrite (same_eval e l l' w H). destruct (eval e l' w) as [w1 [v|y]]; (split; [try apply same_set; exact H|]; split; reflexivity).
  - intros e l l' w H. cbn. rewrite (same_eval e l l' w H). destruct (eval e l' w) as [w1 [v|x]]; (split; [exact H|]; split; reflexivity).
  - intros x c l l' w H. cbn. rewrite (same_map l l' _ H). destruct (f c _ w) as [[w1 [v|y]]|]; [| |exact I]; (split; [try apply same_bind; exact H|]; split; reflexivity).
  - intros [e|] l l' w H; cbn; [|split; [exact H|]; split; reflexivity].
    rewrite (same_eval e l l' w H). destruct (eval e l' w) as [w1 [v|x]]; (split; [exact H|]; split; reflexivity).
  - intros c l l' w H. cbn. rewrite (same_map l l' _ H). destruct (f c _ w) as [[w1 [v|y]]|]; [| |exact I]; (split; [exact H|]; split; reflexivity).
  - intros l l' w H. split; [exact H|]; split; reflexivity.
  - intros l l' w H. split; [exact H|]; split; reflexivity.
  - intros e b IB els IE l l' w H. rewrite !ex_if. rewrite (same_eval e l l' w H). destruct (eval e l' w) as [w1 [v|x]].
    + destruct (truth L v); [apply IB|apply IE]; exact H.
    + split; [exact H|]; split; reflexivity.
  - intros e b IB l l' w H. rewrite !ex_while. apply while_like; [exact IB|exact H].
  - intros b IB els IE x h IH l l' w H. rewrite !ex_try. specialize (IB l l' w H).
    destruct (exec f n b l w) as [[[l2 w2] o]|], (exec f n b l' w) as [[[l2' w2'] o']|]; cbn [like] in IB; try contradiction; [|exact I].
    destruct IB as (B1 & B2 & B3). subst w2' o'. destruct o; try (split; [exact B1|]; split; reflexivity).
    + apply IE. exact B1.
    + apply IH. apply same_set. exact B1.
  - intros l l' w H. split; [exact H|]; split; reflexivity.
  - intros s IS ss ISS l l' w H. rewrite !ex_cons. specialize (IS l l' w H).
    destruct (exec_stmt f n s l w) as [[[l2 w2] o]|], (exec_stmt f n s l' w) as [[[l2' w2'] o']|]; cbn [like] in IS; try contradiction; [|exact I].
    destruct IS as (B1 & B2 & B3). subst w2' o'. destruct o; try (split; [exact B1|]; split; reflexivity).
    apply ISS. exact B1.
Qed.

(** ** Which variables change. *)
Definition only (u : list name) (l : locals) (r : res L) : Prop :=
  match r with Some (l', _, _) => forall x, ~ In x u -> l' x = l x | None => True end.
Lemma set_other : forall (l : locals) x v y, ~ In y [x] -> set l x v y = l y.
Proof. intros l x v y H. unfold set. destruct (Nat.eqb_spec y x) as [E|E]; [|reflexivity]. exfalso. apply H. left. congruence. Qed.
Lemma while_only : forall u e body, (forall l w, only u l (body l w)) -> forall n l w, only u l (while_ n e body l w).
Proof.
  intros u e body B. induction n as [|n IH]; intros l w; [exact I|]. cbn [while_].
  destruct (eval e l w) as [w1 [v|x]]; [|intros y _; reflexivity].
  destruct (truth L v); [|intros y _; reflexivity].
  specialize (B l w1). destruct (body l w1) as [[[l2 w2] o]|]; [|exact I]. cbn [only] in B.
  assert (W : only u l (while_ n e body l2 w2)).
  { specialize (IH l2 w2). destruct (while_ n e body l2 w2) as [[[l3 w3] o3]|]; [|exact I]. intros y Y. cbn [only] in IH. rewrite (IH y Y). apply B. exact Y. }
  destruct o; cbn [after_body]; try exact W; exact B.
Qed.
Lemma only_weak : forall u u' l r, (forall x, In x u -> In x u') -> only u l r -> only u' l r.
Proof. intros u u' l [[[l' w] o]|] H K; [|exact I]. intros x X. apply K. intros Y. apply X, H, Y. Qed.
Lemma only_trans : forall u l l1 r, (forall x, ~ In x u -> l1 x = l x) -> only u l1 r -> only u l r.
Proof. intros u l l1 [[[l' w] o]|] H K; [|exact I]. intros x X. rewrite (K x X). apply H. exact X. Qed.
Lemma exec_only : forall (f : calls_t) n,
  (forall s l w, only (upd L s) l (exec_stmt f n s l w)) /\ (forall ss l w, only (upds L ss) l (exec f n ss l w)).
Proof.
  intros f n. apply stmt_suite_ind.
  - intros e l w. cbn. destruct (eval e l w) as [w1 [v|x]]; intros y _; reflexivity.
  - intros x e l w. cbn. destruct (eval e l w) as [w1 [v|z]]; intros y Y; [apply set_other; exact Y|reflexivity].
  - intros e l w. cbn. destruct (eval e l w) as [w1 [v|x]]; intros y _; reflexivity.
  - intros x c l w. cbn [exec_stmt]. destruct (f c _ w) as [[w1 [v|y]]|]; [| |exact I].
    + intros y Y. destruct x as [x|]; [apply set_other; exact Y|reflexivity].
    + intros z _. reflexivity.
  - intros [e|] l w; cbn; [|intros y _; reflexivity]. destruct (eval e l w) as [w1 [v|x]]; intros y _; reflexivity.
  - intros c l w. cbn. destruct (f c _ w) as [[w1 [v|y]]|]; [| |exact I]; intros z _; reflexivity.
  - intros l w y _. reflexivity.
  - intros l w y _. reflexivity.
  - intros e b IB els IE l w. rewrite ex_if. cbn [upd]. destruct (eval e l w) as [w1 [v|x]]; [|intros y _; reflexivity].
    destruct (truth L v); [eapply only_weak; [|apply IB]|eapply only_weak; [|apply IE]]; intros y Y; apply in_or_app; tauto.
  - intros e b IB l w. rewrite ex_while. cbn [upd]. apply while_only. exact IB.
  - intros b IB els IE x h IH l w. rewrite ex_try. cbn [upd].
    set (U := upds L b ++ upds L els ++ x :: upds L h).
    assert (I1 : forall y, In y (upds L b) -> In y U) by (intros y Y; apply in_or_app; tauto).
    assert (I2 : forall y, In y (upds L els) -> In y U) by (intros y Y; apply in_or_app; right; apply in_or_app; tauto).
    assert (I3 : forall y, In y (upds L h) -> In y U) by (intros y Y; apply in_or_app; right; apply in_or_app; right; right; exact Y).
    assert (I4 : In x U) by (apply in_or_app; right; apply in_or_app; right; left; reflexivity).
    specialize (IB l w). apply (only_weak _ U) in IB; [|exact I1]. destruct (exec f n b l w) as [[[l2 w2] o]|]; [|exact I].
    destruct o; try exact IB.
    + eapply only_trans; [exact IB|]. eapply only_weak; [exact I2|apply IE].
    + eapply only_trans; [|eapply only_weak; [exact I3|apply IH]]. intros y Y. rewrite set_other; [apply IB; exact Y|].
      intros [Q|[]]. subst y. exact (Y I4).
  - intros l w y _. reflexivity.
  - intros s IS ss ISS l w. rewrite ex_cons. cbn [upds]. specialize (IS l w). apply (only_weak _ (upd L s ++ upds L ss)) in IS; [|intros y Y; apply in_or_app; tauto].
    destruct (exec_stmt f n s l w) as [[[l2 w2] o]|]; [|exact I].
    destruct o; try exact IS. eapply only_trans; [exact IS|]. eapply only_weak; [|apply ISS]. intros y Y; apply in_or_app; tauto.
Qed.

(** ** Statements that are not converted. *)
Definition tame_out (inl : bool) (r : res L) : Prop :=
  match r with
  | Some (_, _, OReturn _) => False
  | Some (_, _, (OBreak | OContinue)) => inl = true
  | _ => True
  end.
Lemma while_plain : forall e b b', (forall l w, b l w = b' l w /\ tame_out true (b' l w)) ->
  forall n l w, while_ n e b l w = while_ n e b' l w /\ tame_out false (while_ n e b' l w).
Proof.
  intros e b b' H. induction n as [|n IH]; intros l w; [split; [reflexivity|exact I]|]. cbn [while_].
  destruct (eval e l w) as [w1 [v|x]]; [|split; [reflexivity|exact I]].
  destruct (truth L v); [|split; [reflexivity|exact I]].
  destruct (H l w1) as (H1 & H2). rewrite H1. destruct (b' l w1) as [[[l2 w2] o]|]; [|split; [reflexivity|exact I]].
  destruct (IH l2 w2) as (I1 & I2). destruct o; cbn [after_body]; try (split; [reflexivity|exact I]); try (split; [exact I1|exact I2]).
  destruct H2.
Qed.
Lemma exec_plain : forall (f g : calls_t) n,
  (forall s inl l w, need L inl s = false -> exec_stmt f n s l w = exec_stmt g n s l w /\ tame_out inl (exec_stmt g n s l w)) /\
  (forall ss inl l w, needs L inl ss = false -> exec f n ss l w = exec g n ss l w /\ tame_out inl (exec g n ss l w)).
Proof.
  intros f g n. apply stmt_suite_ind.
  - intros e inl l w _. cbn. split; [reflexivity|]. destruct (eval e l w) as [w1 [v|x]]; exact I.
  - intros x e inl l w _. cbn. split; [reflexivity|]. destruct (eval e l w) as [w1 [v|y]]; exact I.
  - intros e inl l w _. cbn. split; [reflexivity|]. destruct (eval e l w) as [w1 [v|x]]; exact I.
  - intros x c inl l w N. discriminate N.
  - intros e inl l w N. discriminate N.
  - intros c inl l w N. discriminate N.
  - intros inl l w N. split; [reflexivity|]. destruct inl; [reflexivity|discriminate N].
  - intros inl l w N. split; [reflexivity|]. destruct inl; [reflexivity|discriminate N].
  - intros e b IB els IE inl l w N. cbn [need] in N. apply orb_false_iff in N. destruct N as (N1 & N2). rewrite !ex_if.
    destruct (eval e l w) as [w1 [v|x]]; [|split; [reflexivity|exact I]]. destruct (truth L v); [apply IB|apply IE]; assumption.
  - intros e b IB inl l w N. cbn [need] in N. rewrite !ex_while.
    destruct (while_plain e (exec f n b) (exec g n b) (fun l w => IB true l w N) n l w) as (H1 & H2). split; [exact H1|].
    destruct (while_ n e (exec g n b) l w) as [[[l2 w2] o]|]; [|exact I]. destruct o; try exact H2; discriminate H2.
  - intros b IB els IE x h IH inl l w N. cbn [need] in N. apply orb_false_iff in N. destruct N as (N & N3). apply orb_false_iff in N. destruct N as (N1 & N2).
    rewrite !ex_try. destruct (IB inl l w N1) as (B1 & B2). rewrite B1. destruct (exec g n b l w) as [[[l2 w2] o]|]; [|split; [reflexivity|exact I]].
    destruct o; try (split; [reflexivity|exact B2]); [apply IE|apply IH]; assumption.
  - intros inl l w _. split; [reflexivity|exact I].
  - intros s IS ss ISS inl l w N. cbn [needs] in N. apply orb_false_iff in N. destruct N as (N1 & N2).
    rewrite !ex_cons. destruct (IS inl l w N1) as (B1 & B2). rewrite B1. destruct (exec_stmt g n s l w) as [[[l2 w2] o]|]; [|split; [reflexivity|exact I]].
    destruct o; try (split; [reflexivity|exact B2]). apply ISS; assumption.
Qed.

(** ** How bodies end. *)
Lemma exec_falls : forall (f : calls_t) n,
  (forall s l w l' w', falls_stmt L s = false -> exec_stmt f n s l w <> Some (l', w', ONext)) /\
  (forall ss l w l' w', falls L ss = false -> exec f n ss l w <> Some (l', w', ONext)).
Proof.
  intros f n. apply stmt_suite_ind.
  - intros e l w l' w' N. discriminate N.
  - intros x e l w l' w' N. discriminate N.
  - intros e l w l' w' _ Q. cbn in Q. destruct (eval e l w) as [w1 [v|x]]; discriminate Q.
  - intros x c l w l' w' N. discriminate N.
  - intros [e|] l w l' w' _ Q; cbn in Q; [|discriminate Q]. destruct (eval e l w) as [w1 [v|x]]; discriminate Q.
  - intros c l w l' w' _ Q. cbn in Q. destruct (f c _ w) as [[w1 [v|y]]|]; discriminate Q.
  - intros l w l' w' _ Q. discriminate Q.
  - intros l w l' w' _ Q. discriminate Q.
  - intros e b IB els IE l w l' w' N Q. cbn [falls_stmt] in N. apply orb_false_iff in N. destruct N as (N1 & N2). rewrite ex_if in Q.
    destruct (eval e l w) as [w1 [v|x]]; [|discriminate Q]. destruct (truth L v); [exact (IB _ _ _ _ N1 Q)|exact (IE _ _ _ _ N2 Q)].
  - intros e b IB l w l' w' N. discriminate N.
  - intros b IB els IE x h IH l w l' w' N Q. cbn [falls_stmt] in N. apply orb_false_iff in N. destruct N as (N1 & N2). rewrite ex_try in Q.
    destruct (exec f n b l w) as [[[l2 w2] o]|] eqn:X; [|discriminate Q]. destruct o; try discriminate Q.
    + apply andb_false_iff in N1. destruct N1 as [N1|N1]; [exact (IB _ _ _ _ N1 X)|exact (IE _ _ _ _ N1 Q)].
    + exact (IH _ _ _ _ N2 Q).
  - intros l w l' w' N. discriminate N.
  - intros s IS ss ISS l w l' w' N Q. cbn [falls] in N. rewrite ex_cons in Q. apply andb_false_iff in N.
    destruct (exec_stmt f n s l w) as [[[l2 w2] o]|] eqn:X; [|discriminate Q]. destruct o; try discriminate Q.
    destruct N as [N|N]; [exact (IS _ _ _ _ N X)|exact (ISS _ _ _ _ N Q)].
Qed.
Definition no_loop_out (r : res L) : Prop := match r with Some (_, _, (OBreak | OContinue)) => False | _ => True end.
Lemma while_no_loop : forall e b n l w, no_loop_out (while_ n e b l w).
Proof.
  intros e b. induction n as [|n IH]; intros l w; [exact I|]. cbn [while_]. destruct (eval e l w) as [w1 [v|x]]; [|exact I].
  destruct (truth L v); [|exact I]. destruct (b l w1) as [[[l2 w2] o]|]; [|exact I]. destruct o; cbn [after_body]; try exact I; apply IH.
Qed.
Lemma exec_closed : forall (f : calls_t) n,
  (forall s l w, closed_stmt s = true -> no_loop_out (exec_stmt f n s l w)) /\
  (forall ss l w, closed ss = true -> no_loop_out (exec f n ss l w)).
Proof.
  intros f n. apply stmt_suite_ind.
  - intros e l w _. cbn. destruct (eval e l w) as [w1 [v|x]]; exact I.
  - intros x e l w _. cbn. destruct (eval e l w) as [w1 [v|y]]; exact I.
  - intros e l w _. cbn. destruct (eval e l w) as [w1 [v|x]]; exact I.
  - intros x c l w _. cbn. destruct (f c _ w) as [[w1 [v|y]]|]; exact I.
  - intros [e|] l w _; cbn; [|exact I]. destruct (eval e l w) as [w1 [v|x]]; exact I.
  - intros c l w _. cbn. destruct (f c _ w) as [[w1 [v|y]]|]; exact I.
  - intros l w C. discriminate C.
  - intros l w C. discriminate C.
  - intros e b IB els IE l w C. cbn [closed_stmt] in C. apply andb_true_iff in C. destruct C as (C1 & C2). rewrite !ex_if.
    destruct (eval e l w) as [w1 [v|x]]; [|exact I]. destruct (truth L v); [apply IB|apply IE]; assumption.
  - intros e b IB l w C. rewrite !ex_while. apply while_no_loop.
  - intros b IB els IE x h IH l w C. cbn [closed_stmt] in C. apply andb_true_iff in C. destruct C as (C & C3). apply andb_true_iff in C. destruct C as (C1 & C2).
    rewrite !ex_try. specialize (IB l w C1). destruct (exec f n b l w) as [[[l2 w2] o]|]; [|exact I].
    destruct o; try exact IB; [apply IE|apply IH]; assumption.
  - intros l w _. exact I.
  - intros s IS ss ISS l w C. cbn [closed] in C. apply andb_true_iff in C. destruct C as (C1 & C2). rewrite !ex_cons. specialize (IS l w C1).
    destruct (exec_stmt f n s l w) as [[[l2 w2] o]|]; [|exact I]. destruct o; try exact IS. apply ISS. exact C2.
Qed.

(** ** More rounds and deeper calls do not change a result. *)
Lemma while_mono : forall e (b b' : locals -> world L -> res L), (forall l w r, b l w = Some r -> b' l w = Some r) ->
  forall n n' l w r, n <= n' -> while_ n e b l w = Some r -> while_ n' e b' l w = Some r.
Proof.
  intros e b b' B. induction n as [|n IH]; intros [|n'] l w r N H; try discriminate H; [lia|]. cbn [while_] in *.
  destruct (eval e l w) as [w1 [v|x]]; [|exact H]. destruct (truth L v); [|exact H].
  destruct (b l w1) as [[[l2 w2] o]|] eqn:Q; [|discriminate H]. rewrite (B _ _ _ Q).
  destruct o; cbn [after_body] in *; try exact H; apply IH; try lia; exact H.
Qed.
Lemma exec_mono : forall (f f' : calls_t) n n', n <= n' -> (forall c vs w r, f c vs w = Some r -> f' c vs w = Some r) ->
  (forall s l w r, exec_stmt f n s l w = Some r -> exec_stmt f' n' s l w = Some r) /\
  (forall ss l w r, exec f n ss l w = Some r -> exec f' n' ss l w = Some r).
Proof.
  intros f f' n n' N F. apply stmt_suite_ind.
  - intros e l w r H. exact H.
  - intros x e l w r H. exact H.
  - intros e l w r H. exact H.
  - intros x c l w r H. cbn in *. destruct (f c (map l (args L c)) w) as [y|] eqn:Q; [|discriminate H]. rewrite (F _ _ _ _ Q). exact H.
  - intros e l w r H. exact H.
  - intros c l w r H. cbn in *. destruct (f c (map l (args L c)) w) as [y|] eqn:Q; [|discriminate H]. rewrite (F _ _ _ _ Q). exact H.
  - intros l w r H. exact H.
  - intros l w r H. exact H.
  - intros e b IB els IE l w r H. rewrite ex_if in *. destruct (eval e l w) as [w1 [v|x]]; [|exact H]. destruct (truth L v); [apply IB|apply IE]; exact H.
  - intros e b IB l w r H. rewrite ex_while in *. apply (while_mono e _ _ IB n n' l w r N H).
  - intros b IB els IE x h IH l w r H. rewrite ex_try in *. destruct (exec f n b l w) as [[[l2 w2] o]|] eqn:Q; [|discriminate H].
    rewrite (IB _ _ _ Q). destruct o; try exact H; [apply IE|apply IH]; exact H.
  - intros l w r H. exact H.
  - intros s IS ss ISS l w r H. rewrite ex_cons in *. destruct (exec_stmt f n s l w) as [[[l2 w2] o]|] eqn:Q; [|discriminate H].
    rewrite (IS _ _ _ Q). destruct o; try exact H. apply ISS; exact H.
Qed.
Lemma finish_some : forall (r : res L) x, finish r = Some x -> exists y, r = Some y.
Proof. intros [y|] x H; [exists y; reflexivity|discriminate H]. Qed.
Lemma calls_mono : forall (body : proc L -> suite L) d d' n n' c vs w r, d <= d' -> n <= n' -> calls body d n c vs w = Some r -> calls body d' n' c vs w = Some r.
Proof.
  intros body. induction d as [|d IH]; intros [|d'] n n' c vs w r D N H; try discriminate H; [lia|]. cbn [calls] in *.
  destruct (callee L c vs w) as [[p l]|y]; [|exact H]. destruct (finish_some _ _ H) as (y & Q). rewrite Q in H.
  rewrite (proj2 (exec_mono (calls body d n) (calls body d' n') n n' N (fun c vs w r => IH d' n n' c vs w r ltac:(lia) N)) _ _ _ _ Q). exact H.
Qed.
Lemma run_mono : forall (body : proc L -> suite L) d d' n n' p l w r, d <= d' -> n <= n' -> run_proc body d n p l w = Some r -> run_proc body d' n' p l w = Some r.
Proof.
  intros body d d' n n' p l w r D N H. unfold run_proc in *. destruct (finish_some _ _ H) as (y & Q). rewrite Q in H.
  rewrite (proj2 (exec_mono (calls body d n) (calls body d' n') n n' N (fun c vs w r => calls_mono body d d' n n' c vs w r D N)) _ _ _ _ Q). exact H.
Qed.
Lemma step_mono : forall body n n' c c', n <= n' -> step L body n c = Some c' -> step L body n' c = Some c'.
Proof.
  intros body n n' [t E r l G|k v G|x G|v w|x w] c' N H; try exact H. destruct t; try exact H. cbn [step] in *.
  destruct (exec_stmt (nocall L) n s (view L E l G) (wd L G)) as [y|] eqn:Q; [|discriminate H].
  rewrite (proj1 (exec_mono (nocall L) (nocall L) n n' N (fun c vs w r H => H)) _ _ _ _ Q). exact H.
Qed.
Lemma steps_mono : forall body n n' m c c', n <= n' -> steps L body n m c = Some c' -> steps L body n' m c = Some c'.
Proof.
  intros body n n' m. induction m as [|m IH]; intros c c' N H; [exact H|]. cbn [steps] in *.
  destruct (step L body n c) as [c1|] eqn:Q; [|discriminate H]. rewrite (step_mono body n n' _ _ N Q). apply IH; assumption.
Qed.
Lemma blocked_mono : forall n n' c, n <= n' -> blocked L n' c -> blocked L n c.
Proof.
  intros n n' [t E r l G|k v G|x G|v w|x w] N H; try exact H. destruct t; try exact H. cbn [blocked] in *.
  destruct (exec_stmt (nocall L) n s (view L E l G) (wd L G)) as [y|] eqn:Q; [|reflexivity].
  rewrite (proj1 (exec_mono (nocall L) (nocall L) n n' N (fun c vs w r H => H)) _ _ _ _ Q) in H. discriminate H.
Qed.
Lemma stops_earlier : forall body n n' c c', step L body n c = None -> step L body n' c = Some c' -> blocked L n c.
Proof.
  intros body n n' [t E r l G|k v G|x G|v w|x w] c' H H'; try (rewrite H in H'; discriminate H'); try (cbn in H, H'; congruence).
  destruct t; try (cbn in H, H'; congruence). cbn [blocked]. cbn [step] in H.
  destruct (exec_stmt (nocall L) n s (view L E l G) (wd L G)) as [[[l1 w1] o]|] eqn:Q; [|reflexivity]. exfalso.
  cbn [step] in H'. assert (X : forall y, exec_stmt (nocall L) n' s (view L E l G) (wd L G) = Some y -> y = (l1, w1, o)).
  { intros y Y. destruct (Nat.le_ge_cases n n') as [K|K].
    - rewrite (proj1 (exec_mono (nocall L) (nocall L) n n' K (fun c vs w r H => H)) _ _ _ _ Q) in Y. congruence.
    - rewrite (proj1 (exec_mono (nocall L) (nocall L) n' n K (fun c vs w r H => H)) _ _ _ _ Y) in Q. congruence. }
  destruct (exec_stmt (nocall L) n' s (view L E l G) (wd L G)) as [y|]; [|discriminate H']. rewrite (X y eq_refl) in H'.
  destruct o; try discriminate H; discriminate H'.
Qed.
End Proofs.

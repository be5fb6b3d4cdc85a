(** Common supertypes and subtypes: proofs. *)
From Coq Require Import List Arith Bool Lia.
From Verif Require Import S_Sub P_Sub S_Lub M_Lub.
Import ListNotations.

Lemma bind_some : forall A B (o : option A) (f : A -> option B) b, bind o f = Some b -> exists a, o = Some a /\ f a = Some b.
Proof. intros A B [a|] f b H; [exists a; auto|discriminate H]. Qed.
Lemma inb_in : forall c cs, inb c cs = true <-> In c cs.
Proof. intros c cs. unfold inb. rewrite existsb_exists. split; [intros (x & I & E); apply Nat.eqb_eq in E; congruence|intro I; exists c; split; [exact I|apply Nat.eqb_refl]]. Qed.
Ltac binds H := repeat (let x := fresh "x" in let E := fresh "E" in apply bind_some in H; destruct H as (x & E & H)).
Lemma simp_wf : forall pol t, simp pol t -> wft (fun _ => 0) true t.
Proof. induction 1; try (constructor; auto; fail). - apply w_con; [reflexivity|intros t []]. - apply w_fun; auto. constructor. - apply w_tup; auto. constructor. Qed.

Section Env.
Variable ancs : nat -> list nat.
Variable bound : nat -> nat * list ty.
Hypothesis bound_plain : forall v, snd (bound v) = [].
Notation lub := (lub ancs bound).
Notation glb := (glb ancs bound).
Notation lub2 := (lub2 ancs bound).
Notation glb2 := (glb2 ancs bound).
Notation below := (below ancs bound).

Lemma cbound_simp : forall pol v, simp pol (cbound bound v).
Proof. intros pol v. unfold cbound. rewrite bound_plain. constructor. Qed.
Lemma below_refl : forall t, below t t.
Proof. intro t. apply sub_refl. Qed.
Lemma below_trans : forall pol t u w, simp pol u -> below t u -> below u w -> below t w.
Proof. intros pol t u w S A B. apply (sub_trans _ _ _ _ _ u); [eapply simp_wf; exact S|exact A|exact B]. Qed.
Lemma below_con : forall c d, In d (c :: ancs c) -> below (Con c []) (Con d []).
Proof. intros c d I. apply sub_class. auto. Qed.
Lemma below_fx : forall a b, M_Sub.fx_le a b = true -> below (Eff a) (Eff b).
Proof. intros a b H. apply fx_le_sub; [intro; constructor|exact H]. Qed.

Definition flat (t : ty) : Prop := (forall u, t <> Opt u) /\ t <> Non.
Lemma simp_opt : forall pol t, simp pol (Opt t) -> simp pol t /\ flat t.
Proof. intros pol t S. inversion S; subst. split; [assumption|split; assumption]. Qed.
Lemma simp_con : forall pol c ts, simp pol (Con c ts) -> ts = [].
Proof. intros pol c ts S. inversion S. reflexivity. Qed.
Lemma simp_fun : forall pol e p k t, simp pol (Fun e p k t) -> simp pol e /\ simp (negb pol) p /\ pos p /\ k = Nil true /\ simp pol t.
Proof. intros pol e p k t S. inversion S; subst. auto. Qed.
Lemma simp_tup : forall pol p k, simp pol (Tup p k) -> simp pol p /\ pos p /\ k = Nil true.
Proof. intros pol p k S. inversion S; subst. auto. Qed.
Lemma simp_row : forall pol k l t r, simp pol (Row k l t r) -> simp pol t /\ simp pol r.
Proof. intros pol k l t r S. inversion S; subst. auto. Qed.
Lemma simp_star : forall pol k r, simp pol (Star k r) -> simp pol r.
Proof. intros pol k r S. inversion S; subst. auto. Qed.
Lemma opt_flat : forall t, flat t -> opt t = Opt t.
Proof. intros [] [F _]; try reflexivity. exfalso. eapply F. reflexivity. Qed.
Lemma flat_opt_simp : forall pol t, flat t -> simp pol t -> simp pol (Opt t).
Proof. intros pol t [F N] S. constructor; assumption. Qed.
Lemma lub_flat : forall n t u g, flat t -> flat u -> lub n t u = Some g -> flat g.
Proof.
  induction n as [|n IH]; intros t u g FT FU H; [discriminate H|].
  assert (CB : forall v, flat (cbound bound v)) by (intro v; split; discriminate).
  assert (NO : forall x, ~ flat (Opt x)) by (intros x [F _]; eapply F; reflexivity). assert (NN : ~ flat Non) by (intros [_ F]; apply F; reflexivity).
  destruct t, u; cbn [M_Lub.lub] in H; try discriminate H; try (exfalso; eapply NO; eassumption); try (exfalso; apply NN; assumption); try (eapply IH; [| |exact H]; auto; fail).
  - destruct (v =? v0); [injection H as <-; exact FT|]. eapply IH; [| |exact H]; auto.
  - destruct (c =? c0); [injection H as <-; exact FT|]. destruct (inb c0 (ancs c)); [injection H as <-; exact FU|]. destruct (inb c (ancs c0)); [injection H as <-; exact FT|]. destruct (common ancs c c0); [discriminate H|]. injection H as <-. split; discriminate.
  - binds H. injection H as <-. split; discriminate.
  - binds H. injection H as <-. split; discriminate.
  - injection H as <-. split; discriminate.
  - destruct (Bool.eqb k k0); [|discriminate H]. injection H as <-. exact FT.
  - destruct (_ && _); [|discriminate H]. binds H. injection H as <-. split; discriminate.
  - destruct (Bool.eqb _ _); [|discriminate H]. binds H. injection H as <-. split; discriminate.
Qed.
Lemma lub_pos : forall n t u g, pos t -> pos u -> lub n t u = Some g -> pos g.
Proof.
  induction n as [|n IH]; intros t u g PT PU H; [discriminate H|]. inversion PT; inversion PU; subst; cbn in H; try discriminate H.
  - injection H as <-. constructor.
  - binds H. injection H as <-. constructor. eapply IH; [| |eassumption]; assumption.
  - binds H. injection H as <-. constructor.
Qed.
Lemma glb_pos : forall n t u g, pos t -> pos u -> glb n t u = Some g -> pos g.
Proof.
  induction n as [|n IH]; intros t u g PT PU H; [discriminate H|]. inversion PT; inversion PU; subst; cbn in H; try discriminate H.
  - injection H as <-. constructor.
  - binds H. injection H as <-. constructor. eapply IH; [| |eassumption]; assumption.
  - binds H. injection H as <-. constructor.
Qed.

Definition Lub n := forall t u g, simp true t -> simp true u -> lub n t u = Some g -> simp true g /\ below t g /\ below u g.
Definition Glb n := forall t u g, simp false t -> simp false u -> glb n t u = Some g -> simp false g /\ below g t /\ below g u.
Definition Lub2 n := forall p q r k, simp true p -> simp true q -> pos p -> pos q -> lub2 n p (Nil true) q (Nil true) = Some (r, k) -> k = Nil true /\ pos r /\ simp true r /\ below p r /\ below q r.
Definition Glb2 n := forall p q r k, simp false p -> simp false q -> pos p -> pos q -> glb2 n p (Nil true) q (Nil true) = Some (r, k) -> k = Nil true /\ pos r /\ simp false r /\ below r p /\ below r q.

Lemma lub_step : forall n, Lub n -> Lub2 n -> Glb2 n -> Lub (S n).
Proof.
  intros n IL IL2 IG2 t u g ST SU H.
  assert (VL : forall v, t = Par v -> lub n (cbound bound v) u = Some g -> simp true g /\ below t g /\ below u g).
  { intros v -> K. destruct (IL _ _ _ (cbound_simp true v) SU K) as (A & B & C). split; [exact A|]. split; [|exact C]. eapply below_trans; [apply (cbound_simp true v)|apply sub_bound|exact B]. }
  assert (VR : forall v, u = Par v -> lub n t (cbound bound v) = Some g -> simp true g /\ below t g /\ below u g).
  { intros v -> K. destruct (IL _ _ _ ST (cbound_simp true v) K) as (A & B & C). split; [exact A|]. split; [exact B|]. eapply below_trans; [apply (cbound_simp true v)|apply sub_bound|exact C]. }
  assert (NL : t = Non -> flat u -> Some (opt u) = Some g -> simp true g /\ below t g /\ below u g).
  { intros -> F K. injection K as <-. rewrite opt_flat by exact F. split; [apply flat_opt_simp; assumption|]. split; [apply sub_none|apply sub_some]. }
  assert (NR : u = Non -> flat t -> Some (opt t) = Some g -> simp true g /\ below t g /\ below u g).
  { intros -> F K. injection K as <-. rewrite opt_flat by exact F. split; [apply flat_opt_simp; assumption|]. split; [apply sub_some|apply sub_none]. }
  assert (OL : forall x, t = Opt x -> flat u -> bind (lub n x u) (fun g => Some (opt g)) = Some g -> simp true g /\ below t g /\ below u g).
  { intros x -> F K. binds K. injection K as <-. apply simp_opt in ST. destruct ST as [ST FT]. destruct (IL _ _ _ ST SU E) as (A & B & C). assert (FG : flat x0) by (eapply lub_flat; [| |exact E]; assumption). rewrite opt_flat by exact FG.
    split; [apply flat_opt_simp; assumption|]. split; [apply sub_opt; exact B|]. eapply below_trans; [exact A|exact C|apply sub_some]. }
  assert (OR : forall x, u = Opt x -> flat t -> bind (lub n t x) (fun g => Some (opt g)) = Some g -> simp true g /\ below t g /\ below u g).
  { intros x -> F K. binds K. injection K as <-. apply simp_opt in SU. destruct SU as [SU FU]. destruct (IL _ _ _ ST SU E) as (A & B & C). assert (FG : flat x0) by (eapply lub_flat; [| |exact E]; assumption). rewrite opt_flat by exact FG.
    split; [apply flat_opt_simp; assumption|]. split; [eapply below_trans; [exact A|exact B|apply sub_some]|apply sub_opt; exact C]. }
  destruct t, u; cbn [M_Lub.lub] in H; try discriminate H; try (eapply VL; [reflexivity|exact H]); try (eapply VR; [reflexivity|exact H]);
    try (apply NL; [reflexivity|split; discriminate|exact H]); try (apply NR; [reflexivity|split; discriminate|exact H]); try (eapply OL; [reflexivity|split; discriminate|exact H]); try (eapply OR; [reflexivity|split; discriminate|exact H]); clear VL NL NR OL OR.
  - destruct (Nat.eqb_spec v v0) as [->|N]; [injection H as <-; split; [exact ST|split; apply below_refl]|]. eapply VR; [reflexivity|exact H].
  - clear VR. pose proof (simp_con _ _ _ ST). pose proof (simp_con _ _ _ SU). subst. destruct (Nat.eqb_spec c c0) as [->|N]; [injection H as <-; split; [exact ST|split; apply below_refl]|].
    destruct (inb c0 (ancs c)) eqn:E1; [apply inb_in in E1; injection H as <-; split; [exact SU|split; [apply below_con; right; exact E1|apply below_refl]]|].
    destruct (inb c (ancs c0)) eqn:E2; [apply inb_in in E2; injection H as <-; split; [exact ST|split; [apply below_refl|apply below_con; right; exact E2]]|].
    destruct (common ancs c c0) as [|e es] eqn:E; [discriminate H|]. injection H as <-. assert (I : In e (common ancs c c0)) by (rewrite E; left; reflexivity). apply filter_In in I. destruct I as [I1 I2]. apply inb_in in I2. split; [constructor|]. split; apply below_con; assumption.
  - clear VR. binds H. injection H as <-. apply simp_fun in ST. apply simp_fun in SU. destruct ST as (S1 & S2 & S3 & -> & S4). destruct SU as (U1 & U2 & U3 & -> & U4). destruct x0 as [p k]. destruct (IL _ _ _ S1 U1 E) as (A1 & A2 & A3). destruct (IG2 _ _ _ _ S2 U2 S3 U3 E0) as (-> & B0 & B1 & B2 & B3). destruct (IL _ _ _ S4 U4 E1) as (C1 & C2 & C3). cbn [fst snd]. split; [constructor; assumption|]. split; apply sub_fun; auto; apply below_refl.
  - clear VR. binds H. injection H as <-. apply simp_tup in ST. apply simp_tup in SU. destruct ST as (S1 & S2 & ->). destruct SU as (U1 & U2 & ->). destruct x as [p k]. destruct (IL2 _ _ _ _ S1 U1 S2 U2 E) as (-> & B0 & B1 & B2 & B3). cbn [fst snd]. split; [constructor; assumption|]. split; apply sub_tup; auto; apply below_refl.
  - clear VR. binds H. injection H as <-. apply simp_opt in ST. apply simp_opt in SU. destruct ST as [S1 S2]. destruct SU as [U1 U2]. destruct (IL _ _ _ S1 U1 E) as (A & B & C). assert (FG : flat x) by (eapply lub_flat; [| |exact E]; assumption). rewrite opt_flat by exact FG. split; [apply flat_opt_simp; assumption|]. split; apply sub_opt; assumption.
  - injection H as <-. split; [exact ST|]. split; [apply below_refl|apply sub_none].
  - injection H as <-. split; [exact SU|]. split; [apply sub_none|apply below_refl].
  - injection H as <-. split; [exact ST|]. split; apply below_refl.
  - injection H as <-. split; [constructor|]. split; apply below_fx; destruct e, e0; reflexivity.
  - destruct (Bool.eqb k k0) eqn:E; [|discriminate H]. apply eqb_prop in E. subst. injection H as <-. split; [constructor|]. split; apply below_refl.
  - destruct (Bool.eqb k k0 && (label =? label0)) eqn:E; [|discriminate H]. apply andb_prop in E. destruct E as [E1 E2]. apply eqb_prop in E1. apply Nat.eqb_eq in E2. subst. binds H. injection H as <-. apply simp_row in ST. apply simp_row in SU. destruct ST as [S1 S2]. destruct SU as [U1 U2]. destruct (IL _ _ _ S1 U1 E) as (A & B & C). destruct (IL _ _ _ S2 U2 E0) as (A' & B' & C'). split; [constructor; assumption|]. split; apply sub_row; assumption.
  - destruct (Bool.eqb k k0) eqn:E; [|discriminate H]. apply eqb_prop in E. subst. binds H. injection H as <-. apply simp_star in ST. apply simp_star in SU. destruct (IL _ _ _ ST SU E) as (A & B & C). split; [constructor; assumption|]. split; apply sub_star; assumption.
Qed.

Lemma below_opt : forall g t, below g t -> simp false t -> below (opt g) (Opt t).
Proof. intros g t B S. destruct g; cbn [opt]; try (apply sub_opt; exact B). eapply below_trans; [exact S|exact B|apply sub_some]. Qed.
Lemma simp_opt_false : forall g, simp false g -> simp false (opt g).
Proof. intros g S. destruct g; cbn [opt]; try exact S; try (apply flat_opt_simp; [split; discriminate|exact S]). inversion S. Qed.
Lemma glb_step : forall n, Glb n -> Glb2 n -> Lub2 n -> Glb (S n).
Proof.
  intros n IG IG2 IL2 t u g ST SU H.
  assert (OL : forall x, t = Opt x -> glb n x u = Some g -> simp false g /\ below g t /\ below g u).
  { intros x -> K. apply simp_opt in ST. destruct ST as [ST FT]. destruct (IG _ _ _ ST SU K) as (A & B & C). split; [exact A|]. split; [|exact C]. eapply below_trans; [exact ST|exact B|apply sub_some]. }
  assert (OR : forall x, u = Opt x -> glb n t x = Some g -> simp false g /\ below g t /\ below g u).
  { intros x -> K. apply simp_opt in SU. destruct SU as [SU FU]. destruct (IG _ _ _ ST SU K) as (A & B & C). split; [exact A|]. split; [exact B|]. eapply below_trans; [exact SU|exact C|apply sub_some]. }
  destruct t, u; cbn [M_Lub.glb] in H; try discriminate H; try (exfalso; inversion ST; fail); try (exfalso; inversion SU; fail); try (eapply OL; [reflexivity|exact H]); try (eapply OR; [reflexivity|exact H]); clear OL OR.
  - destruct (Nat.eqb_spec v v0) as [->|N]; [injection H as <-; split; [exact ST|split; apply below_refl]|discriminate H].
  - pose proof (simp_con _ _ _ ST). pose proof (simp_con _ _ _ SU). subst. destruct (Nat.eqb_spec c c0) as [->|N]; [injection H as <-; split; [exact ST|split; apply below_refl]|].
    destruct (inb c0 (ancs c)) eqn:E1; [apply inb_in in E1; injection H as <-; split; [exact ST|split; [apply below_refl|apply below_con; right; exact E1]]|].
    destruct (inb c (ancs c0)) eqn:E2; [apply inb_in in E2; injection H as <-; split; [exact SU|split; [apply below_con; right; exact E2|apply below_refl]]|discriminate H].
  - binds H. injection H as <-. apply simp_fun in ST. apply simp_fun in SU. destruct ST as (S1 & S2 & S3 & -> & S4). destruct SU as (U1 & U2 & U3 & -> & U4). destruct x0 as [p k]. destruct (IG _ _ _ S1 U1 E) as (A1 & A2 & A3). destruct (IL2 _ _ _ _ S2 U2 S3 U3 E0) as (-> & B0 & B1 & B2 & B3). destruct (IG _ _ _ S4 U4 E1) as (C1 & C2 & C3). cbn [fst snd]. split; [constructor; assumption|]. split; apply sub_fun; auto; apply below_refl.
  - binds H. injection H as <-. apply simp_tup in ST. apply simp_tup in SU. destruct ST as (S1 & S2 & ->). destruct SU as (U1 & U2 & ->). destruct x as [p k]. destruct (IG2 _ _ _ _ S1 U1 S2 U2 E) as (-> & B0 & B1 & B2 & B3). cbn [fst snd]. split; [constructor; assumption|]. split; apply sub_tup; auto; apply below_refl.
  - binds H. injection H as <-. apply simp_opt in ST. apply simp_opt in SU. destruct ST as [S1 S2]. destruct SU as [U1 U2]. destruct (IG _ _ _ S1 U1 E) as (A & B & C). split; [apply simp_opt_false; exact A|]. split; apply below_opt; assumption.
  - destruct e, e0; cbn in H; try discriminate H; injection H as <-; (split; [constructor|split; apply below_fx; reflexivity]).
  - destruct (Bool.eqb k k0) eqn:E; [|discriminate H]. apply eqb_prop in E. subst. injection H as <-. split; [constructor|]. split; apply below_refl.
  - destruct (Bool.eqb k k0 && (label =? label0)) eqn:E; [|discriminate H]. apply andb_prop in E. destruct E as [E1 E2]. apply eqb_prop in E1. apply Nat.eqb_eq in E2. subst. binds H. injection H as <-. apply simp_row in ST. apply simp_row in SU. destruct ST as [S1 S2]. destruct SU as [U1 U2]. destruct (IG _ _ _ S1 U1 E) as (A & B & C). destruct (IG _ _ _ S2 U2 E0) as (A' & B' & C'). split; [constructor; assumption|]. split; apply sub_row; assumption.
  - destruct (Bool.eqb k k0) eqn:E; [|discriminate H]. apply eqb_prop in E. subst. binds H. injection H as <-. apply simp_star in ST. apply simp_star in SU. destruct (IG _ _ _ ST SU E) as (A & B & C). split; [constructor; assumption|]. split; apply sub_star; assumption.
Qed.
Lemma lub_nil : forall n k, lub n (Nil true) (Nil true) = Some k -> k = Nil true.
Proof. intros [|n] k H; [discriminate H|]. cbn in H. congruence. Qed.
Lemma glb_nil : forall n k, glb n (Nil true) (Nil true) = Some k -> k = Nil true.
Proof. intros [|n] k H; [discriminate H|]. cbn in H. congruence. Qed.
Lemma lub2_step : forall n, Lub n -> Lub2 n -> Lub2 (S n).
Proof.
  intros n IL IL2 p q r k SP SQ PP PQ H.
  assert (D : bind (lub n p q) (fun p => bind (lub n (Nil true) (Nil true)) (fun k => Some (p, k))) = Some (r, k) -> k = Nil true /\ pos r /\ simp true r /\ below p r /\ below q r).
  { intro K. binds K. injection K as <- <-. apply lub_nil in E0. destruct (IL _ _ _ SP SQ E) as (A & B & C). repeat split; auto. eapply lub_pos; [| |exact E]; assumption. }
  inversion PP as [|t1 r1 P1|]; inversion PQ as [|t2 r2 P2|]; subst; try (apply D; exact H).
  cbn [M_Lub.lub2] in H. binds H. injection H as <- <-. apply simp_row in SP. apply simp_row in SQ. destruct SP as [S1 S2]. destruct SQ as [U1 U2]. destruct x0 as [r' k']. destruct (IL _ _ _ S1 U1 E) as (A & B & C). destruct (IL2 _ _ _ _ S2 U2 P1 P2 E0) as (-> & B0 & B1 & B2 & B3). cbn [fst snd].
  split; [reflexivity|]. split; [constructor; assumption|]. split; [constructor; assumption|]. split; apply sub_row; assumption.
Qed.
Lemma glb2_step : forall n, Glb n -> Glb2 n -> Glb2 (S n).
Proof.
  intros n IL IL2 p q r k SP SQ PP PQ H.
  assert (D : bind (glb n p q) (fun p => bind (glb n (Nil true) (Nil true)) (fun k => Some (p, k))) = Some (r, k) -> k = Nil true /\ pos r /\ simp false r /\ below r p /\ below r q).
  { intro K. binds K. injection K as <- <-. apply glb_nil in E0. destruct (IL _ _ _ SP SQ E) as (A & B & C). repeat split; auto. eapply glb_pos; [| |exact E]; assumption. }
  inversion PP as [|t1 r1 P1|]; inversion PQ as [|t2 r2 P2|]; subst; try (apply D; exact H).
  cbn [M_Lub.glb2] in H. binds H. injection H as <- <-. apply simp_row in SP. apply simp_row in SQ. destruct SP as [S1 S2]. destruct SQ as [U1 U2]. destruct x0 as [r' k']. destruct (IL _ _ _ S1 U1 E) as (A & B & C). destruct (IL2 _ _ _ _ S2 U2 P1 P2 E0) as (-> & B0 & B1 & B2 & B3). cbn [fst snd].
  split; [reflexivity|]. split; [constructor; assumption|]. split; [constructor; assumption|]. split; apply sub_row; assumption.
Qed.
Lemma bounds : forall n, Lub n /\ Glb n /\ Lub2 n /\ Glb2 n.
Proof.
  induction n as [|n (A & B & C & D)]; [repeat split; discriminate|].
  split; [apply lub_step; assumption|]. split; [apply glb_step; assumption|]. split; [apply lub2_step; assumption|apply glb2_step; assumption].
Qed.

(** *** The same type. *)
Lemma lub_fun : forall n e1 p1 k1 r1 e2 p2 k2 r2, lub (S n) (Fun e1 p1 k1 r1) (Fun e2 p2 k2 r2) = bind (lub n e1 e2) (fun e => bind (glb2 n p1 k1 p2 k2) (fun pk => bind (lub n r1 r2) (fun r => Some (Fun e (fst pk) (snd pk) r)))).
Proof. reflexivity. Qed.
Lemma glb_fun : forall n e1 p1 k1 r1 e2 p2 k2 r2, glb (S n) (Fun e1 p1 k1 r1) (Fun e2 p2 k2 r2) = bind (glb n e1 e2) (fun e => bind (lub2 n p1 k1 p2 k2) (fun pk => bind (glb n r1 r2) (fun r => Some (Fun e (fst pk) (snd pk) r)))).
Proof. reflexivity. Qed.
Lemma lub_tup : forall n p1 k1 p2 k2, lub (S n) (Tup p1 k1) (Tup p2 k2) = bind (lub2 n p1 k1 p2 k2) (fun pk => Some (Tup (fst pk) (snd pk))).
Proof. reflexivity. Qed.
Lemma glb_tup : forall n p1 k1 p2 k2, glb (S n) (Tup p1 k1) (Tup p2 k2) = bind (glb2 n p1 k1 p2 k2) (fun pk => Some (Tup (fst pk) (snd pk))).
Proof. reflexivity. Qed.
Lemma lub2_row : forall n t1 r1 k1 t2 r2 k2, lub2 (S n) (Row false 0 t1 r1) k1 (Row false 0 t2 r2) k2 = bind (lub n t1 t2) (fun t => bind (lub2 n r1 k1 r2 k2) (fun pk => Some (Row false 0 t (fst pk), snd pk))).
Proof. reflexivity. Qed.
Lemma glb2_row : forall n t1 r1 k1 t2 r2 k2, glb2 (S n) (Row false 0 t1 r1) k1 (Row false 0 t2 r2) k2 = bind (glb n t1 t2) (fun t => bind (glb2 n r1 k1 r2 k2) (fun pk => Some (Row false 0 t (fst pk), snd pk))).
Proof. reflexivity. Qed.
Lemma lub2_end : forall n p, (forall t r, p <> Row false 0 t r) -> pos p -> lub2 (S n) p (Nil true) p (Nil true) = bind (lub n p p) (fun p => bind (lub n (Nil true) (Nil true)) (fun k => Some (p, k))).
Proof. intros n p N P. inversion P; subst; try reflexivity. exfalso. eapply N. reflexivity. Qed.
Lemma glb2_end : forall n p, (forall t r, p <> Row false 0 t r) -> pos p -> glb2 (S n) p (Nil true) p (Nil true) = bind (glb n p p) (fun p => bind (glb n (Nil true) (Nil true)) (fun k => Some (p, k))).
Proof. intros n p N P. inversion P; subst; try reflexivity. exfalso. eapply N. reflexivity. Qed.
Lemma same : forall n,
  (forall pol t, simp pol t -> 2 * size t <= n -> lub n t t = Some t /\ glb n t t = Some t) /\
  (forall pol p, simp pol p -> pos p -> 2 * size p + 2 <= n -> lub2 n p (Nil true) p (Nil true) = Some (p, Nil true) /\ glb2 n p (Nil true) p (Nil true) = Some (p, Nil true)).
Proof.
  induction n as [|n [IH IH2]]; [split; [intros pol t _ L; destruct t; cbn in L; lia|intros; lia]|]. split.
  - intros pol t S L. destruct S; cbn [size] in L.
    + cbn. rewrite Nat.eqb_refl. auto.
    + cbn. rewrite Nat.eqb_refl. auto.
    + destruct (IH pol e S1) as [A1 A2]; [lia|]. destruct (IH pol t S3) as [C1 C2]; [lia|]. destruct (IH2 (negb pol) p S2 H) as [B1 B2]; [lia|]. rewrite lub_fun, glb_fun, A1, A2. cbn [bind]. rewrite B1, B2. cbn [bind]. rewrite C1, C2. auto.
    + destruct (IH2 pol p S H) as [B1 B2]; [lia|]. rewrite lub_tup, glb_tup, B1, B2. auto.
    + destruct (IH pol t S) as [A1 A2]; [lia|]. cbn [M_Lub.lub M_Lub.glb]. rewrite A1, A2. cbn [bind]. rewrite opt_flat by (split; assumption). auto.
    + auto.
    + destruct e; auto.
    + cbn. rewrite eqb_reflx. auto.
    + destruct (IH pol t S1) as [A1 A2]; [lia|]. destruct (IH pol r S2) as [C1 C2]; [lia|]. cbn [M_Lub.lub M_Lub.glb]. rewrite eqb_reflx, Nat.eqb_refl. cbn [andb]. rewrite A1, A2. cbn [bind]. rewrite C1, C2. auto.
    + destruct (IH pol r S) as [A1 A2]; [lia|]. cbn [M_Lub.lub M_Lub.glb]. rewrite eqb_reflx, A1, A2. auto.
  - intros pol p S P L. assert (SP : 1 <= size p) by (destruct p; cbn; lia). destruct (IH true (Nil true) (s_nil true true)) as [K1 K2]; [cbn; lia|].
    assert (D : (forall t r, p <> Row false 0 t r) -> lub2 (Datatypes.S n) p (Nil true) p (Nil true) = Some (p, Nil true) /\ glb2 (Datatypes.S n) p (Nil true) p (Nil true) = Some (p, Nil true)).
    { intro N. rewrite lub2_end, glb2_end by assumption. destruct (IH pol p S) as [A1 A2]; [lia|]. rewrite A1, A2. cbn [bind]. rewrite K1, K2. auto. }
    destruct P as [|t r P|r]; try (apply D; discriminate). clear D. cbn [size] in L. apply simp_row in S. destruct S as [S1 S2]. destruct (IH pol t S1) as [A1 A2]; [lia|]. destruct (IH2 pol r S2 P) as [B1 B2]; [lia|]. rewrite lub2_row, glb2_row, A1, A2. cbn [bind]. rewrite B1, B2. auto.
Qed.
End Env.

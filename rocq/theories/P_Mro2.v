(** Inheritance: the ancestors of all declarations. *)
From Coq Require Import List Arith Bool Lia.
From Verif Require Import S_Mro M_Mro P_Mro.
Import ListNotations.

(** *** Substitution. *)
Lemma var_comp : forall f q ts v, In v q -> length q = length ts -> var_value (combine q (map f ts)) v = f (var_value (combine q ts) v).
Proof.
  induction q as [|w q IH]; intros [|t ts] v I L; try discriminate L; [destruct I|]. cbn [map combine var_value]. destruct (Nat.eqb_spec v w) as [E|E]; [reflexivity|]. apply IH; [destruct I as [I|I]; [congruence|exact I]|injection L as L; exact L].
Qed.
Lemma tsubst_comp : forall s q ts t, incl (tvars t) q -> length q = length ts -> tsubst s (tsubst (combine q ts) t) = tsubst (combine q (map (tsubst s) ts)) t.
Proof.
  induction t as [v|c|t IHt u IHu]; intros I L; cbn [tsubst tvars] in *.
  - symmetry. apply var_comp; [apply I; left; reflexivity|exact L].
  - reflexivity.
  - rewrite IHt, IHu; [reflexivity| |exact L| |exact L]; intros x X; apply I, in_or_app; auto.
Qed.
Definition closed (q : list nat) (c : tcon) : Prop := Forall (fun t => incl (tvars t) q) (tcargs c).
Lemma inst_inst : forall q args q' args' c, closed q' c -> length q' = length args' -> inst q args (inst q' args' c) = inst q' (map (tsubst (combine q args)) args') c.
Proof.
  intros q args q' args' c H L. unfold inst. cbn [tcname tcargs]. f_equal. rewrite map_map. apply map_ext_in. intros t I. unfold closed in H. rewrite Forall_forall in H. apply tsubst_comp; [apply H, I|exact L].
Qed.
Lemma var_id : forall q v, var_value (combine q (map Var q)) v = Var v.
Proof. induction q as [|w q IH]; intro v; [reflexivity|]. cbn [map combine var_value]. destruct (Nat.eqb_spec v w) as [->|_]; [reflexivity|apply IH]. Qed.
Lemma tsubst_id : forall q t, tsubst (combine q (map Var q)) t = t.
Proof. induction t as [v|c|t IHt u IHu]; cbn [tsubst]; [apply var_id|reflexivity|congruence]. Qed.
Lemma inst_id : forall q c, inst q (map Var q) c = c.
Proof. intros q [n ts]. unfold inst. cbn [tcname tcargs]. f_equal. rewrite <- (map_id ts) at 2. apply map_ext. apply tsubst_id. Qed.
Lemma tvars_subst : forall P q ts t, incl (tvars t) q -> length q = length ts -> Forall (fun t => incl (tvars t) P) ts -> incl (tvars (tsubst (combine q ts) t)) P.
Proof.
  intros P q ts. induction t as [v|c|t IHt u IHu]; intros I L F; cbn [tsubst tvars] in *.
  - clear - I L F. assert (J : In v q) by (apply I; left; reflexivity). clear I. revert ts L F. induction q as [|w q IH]; intros [|t ts] L F; try discriminate L; [destruct J|]. inversion F as [|? ? F1 F2]; subst. cbn [combine var_value]. destruct (Nat.eqb_spec v w) as [E|E]; [exact F1|]. apply IH; [destruct J as [J|J]; [congruence|exact J]|injection L as L; exact L|exact F2].
  - intros x [].
  - intros x X. apply in_app_or in X. destruct X as [X|X]; [apply IHt|apply IHu]; auto; intros y Y; apply I, in_or_app; auto.
Qed.
Lemma inst_closed : forall P q args c, closed q c -> length q = length args -> Forall (fun t => incl (tvars t) P) args -> closed P (inst q args c).
Proof. intros P q args c H L F. unfold closed, inst in *. cbn [tcargs]. apply Forall_map. eapply Forall_impl; [|exact H]. intros t T. apply tvars_subst; assumption. Qed.

Section Env.
Variable A : Type.
Notation decl := (S_Mro.decl A).
Notation env := (M_Mro.env A).
Notation known := (S_Mro.known A).
Notation find_con_name := (M_Mro.find_con_name A).
Notation find_con := (M_Mro.find_con A).
Notation mro := (M_Mro.mro A).

Definition ancs (e : env) (c : tcon) : list wtcon := match find_ancestry A e c with Some l => l | None => [] end.
Definition winst (q : list nat) (args : list ty) (x : wtcon) : wtcon := (fst x, inst q args (snd x)).
Lemma find_con_eq : forall e c, find_con e c = match find_con_name e (tcname c) with Some i => Some (map (winst (i_q i) (tcargs c)) (i_us i), i_te i) | None => None end.
Proof.
  intros e c. unfold M_Mro.find_con. destruct (find_con_name e (tcname c)) as [i|]; [|reflexivity]. destruct (tys_eqb _ _) eqn:E; [|reflexivity]. apply tys_eqb_eq in E. rewrite <- E. do 2 f_equal. rewrite <- (map_id (i_us i)) at 1. apply map_ext. intros [w x]. unfold winst. cbn. rewrite inst_id. reflexivity.
Qed.
Lemma ancs_eq : forall e c i, find_con_name e (tcname c) = Some i -> ancs e c = ([], c) :: map (winst (i_q i) (tcargs c)) (i_us i).
Proof. intros e c i H. unfold ancs, find_ancestry. rewrite find_con_eq, H. reflexivity. Qed.
Lemma lin_eq : forall e w u, lin A e (w, u) = match find_con_name e (tcname u) with Some _ => Some (map (fun y => (w ++ fst y, snd y)) (ancs e u)) | None => None end.
Proof.
  intros e w u. unfold lin. cbn [snd fst]. rewrite find_con_eq. destruct (find_con_name e (tcname u)) as [i|] eqn:E; [|reflexivity]. rewrite (ancs_eq e u i E). cbn [map fst snd]. rewrite app_nil_r. reflexivity.
Qed.
Lemma all_some_in : forall X (l : list (option X)) r, all_some l = Some r -> (forall x, In (Some x) l -> In x r) /\ (forall x, In x r -> In (Some x) l) /\ ~ In None l.
Proof.
  induction l as [|[x|] l IH]; intros r H; cbn [all_some] in H; [injection H as <-; repeat split; auto| |discriminate H]. destruct (all_some l) as [r'|]; [|discriminate H]. injection H as <-. destruct (IH r' eq_refl) as (A1 & A2 & A3). repeat split.
  - intros y [E|I]; [injection E as ->; left; reflexivity|right; auto].
  - intros y [->|I]; [left; reflexivity|right; auto].
  - intros [E|I]; [discriminate E|auto].
Qed.
Lemma all_some_ok : forall X (l : list (option X)), ~ In None l -> exists r, all_some l = Some r.
Proof. induction l as [|[x|] l IH]; intro H; [exists []; reflexivity| |exfalso; apply H; left; reflexivity]. destruct IH as [r E]; [intro I; apply H; right; exact I|]. cbn. rewrite E. eexists. reflexivity. Qed.
Lemma steps_snd : forall us, map snd (steps us) = us.
Proof. intros [|u us]; [reflexivity|]. cbn [steps map snd]. rewrite map_map. cbn [snd]. rewrite map_id. reflexivity. Qed.
(** A first step to a parent. *)
Definition step_to (us : list tcon) (w : list (nat + nat)) (u : tcon) : Prop :=
  (exists us', us = u :: us' /\ w = [inl (tcname u)]) \/ (exists v us', us = v :: us' /\ In u us' /\ w = [inr (tcname u)]).
Lemma steps_in : forall us w u, In (w, u) (steps us) -> step_to us w u.
Proof.
  intros [|v us] w u I; [destruct I|]. destruct I as [I|I]; [injection I as <- <-; left; exists us; auto|]. apply in_map_iff in I. destruct I as (x & E & I). injection E as <- <-. right. exists v, us. auto.
Qed.
Lemma step_in : forall us w u, step_to us w u -> In u us.
Proof. intros us w u [(us' & -> & _)|(v & us' & -> & I & _)]; [left; reflexivity|right; exact I]. Qed.
Lemma steps_mem : forall us u, In u us -> exists w, In (w, u) (steps us).
Proof. intros us u I. rewrite <- (steps_snd us) in I. apply in_map_iff in I. destruct I as ([w x] & E & I). cbn in E. subst x. exists w. exact I. Qed.

Lemma mro_facts : forall e us out, mro e us = Some out ->
  (forall u, In u us -> exists i, find_con_name e (tcname u) = Some i) /\
  (forall x, In x out -> exists s w u, step_to us [s] u /\ In (w, snd x) (ancs e u) /\ fst x = s :: w) /\
  (forall u, In u us -> sublist (map snd (ancs e u)) (map snd out)) /\ sublist us (map snd out) /\ NoDup (map wname out).
Proof.
  intros e us out H. unfold M_Mro.mro in H. destruct (all_some (map (lin A e) (steps us))) as [ls|] eqn:AS; [|discriminate H]. apply all_some_in in AS. destruct AS as (A1 & A2 & A3). cbv zeta in H.
  assert (K : forall u, In u us -> exists i, find_con_name e (tcname u) = Some i).
  { intros u I. destruct (steps_mem us u I) as [w W]. destruct (find_con_name e (tcname u)) as [i|] eqn:E; [exists i; reflexivity|]. exfalso. apply A3. apply in_map_iff. exists (w, u). split; [rewrite lin_eq, E; reflexivity|exact W]. }
  split; [exact K|]. split; [|split; [|split]].
  - intros x I. destruct (merge_from _ _ _ _ H I) as (l & L & IL). apply in_app_or in L. destruct L as [L|[<-|[]]].
    + apply A2, in_map_iff in L. destruct L as ([w u] & E & S). pose proof (steps_in _ _ _ S) as ST. destruct (K u (step_in _ _ _ ST)) as [i F]. rewrite lin_eq, F in E. injection E as <-. apply in_map_iff in IL. destruct IL as ([w' c] & <- & IL). cbn [fst snd] in *.
      destruct ST as [(us' & -> & ->)|(v & us' & -> & J & ->)]; [exists (inl (tcname u)), w', u|exists (inr (tcname u)), w', u]; (split; [|split; [exact IL|reflexivity]]); [left; exists us'; auto|right; exists v, us'; auto].
    + destruct x as [w u]. pose proof (steps_in _ _ _ IL) as ST. destruct (K u (step_in _ _ _ ST)) as [i F]. cbn [fst snd].
      destruct ST as [(us' & -> & ->)|(v & us' & -> & J & ->)]; [exists (inl (tcname u)), [], u|exists (inr (tcname u)), [], u]; (split; [|split; [rewrite (ancs_eq e u i F); left; reflexivity|reflexivity]]); [left; exists us'; auto|right; exists v, us'; auto].
  - intros u I. destruct (K u I) as [i F]. destruct (steps_mem us u I) as [w W].
    assert (M : In (map (fun y => (w ++ fst y, snd y)) (ancs e u)) ls) by (apply A1, in_map_iff; exists (w, u); split; [rewrite lin_eq, F; reflexivity|exact W]).
    pose proof (merge_sub _ _ _ H _ (in_or_app _ _ _ (or_introl M))) as SB. rewrite map_map in SB. cbn [snd] in SB. exact SB.
  - assert (M : In (steps us) (ls ++ [steps us])) by (apply in_or_app; right; left; reflexivity). pose proof (merge_sub _ _ _ H _ M) as SB. rewrite steps_snd in SB. exact SB.
  - apply (merge_nodup _ _ _ H).
Qed.
Lemma mro_possible : forall e us L, (forall u, In u us -> exists i, find_con_name e (tcname u) = Some i) -> NoDup (map tcname L) ->
  (forall u, In u us -> sublist (map snd (ancs e u)) L) -> sublist us L -> exists out, mro e us = Some out.
Proof.
  intros e us L K N H1 H2. unfold M_Mro.mro. destruct (all_some_ok _ (map (lin A e) (steps us))) as [ls AS].
  { intro I. apply in_map_iff in I. destruct I as ([w u] & E & I). destruct (K u (step_in _ _ _ (steps_in _ _ _ I))) as [i F]. rewrite lin_eq, F in E. discriminate E. }
  rewrite AS. apply all_some_in in AS. destruct AS as (_ & A2 & _). cbv zeta. apply (merge_some _ _ L); [lia|exact N|]. intros l I. apply in_app_or in I. destruct I as [I|[<-|[]]]; [|rewrite steps_snd; exact H2].
  apply A2, in_map_iff in I. destruct I as ([w u] & E & I). pose proof (step_in _ _ _ (steps_in _ _ _ I)) as J. destruct (K u J) as [i F]. rewrite lin_eq, F in E. injection E as <-. rewrite map_map. cbn [snd]. apply H1, J.
Qed.

(** *** Environments of declarations. *)
Definition entry_ok (ds : list decl) (e : env) (d : decl) (i : info A) : Prop :=
  i_q i = d_params d /\ i_te i = d_attrs d /\ mro e (d_parents d) = Some (i_us i) /\ Forall (known ds) (d_parents d) /\ Forall (closed (d_params d)) (d_parents d) /\
  Forall (fun x => closed (d_params d) (snd x) /\ known ds (snd x)) (i_us i) /\ ~ In (d_name d) (map wname (i_us i)).
Definition inv (ds : list decl) (e : env) : Prop :=
  (forall d, In d ds -> exists i, find_con_name e (d_name d) = Some i /\ entry_ok ds e d i) /\
  (forall d d', In d ds -> In d' ds -> d_name d = d_name d' -> d = d').
Lemma known_inst : forall ds q args c, known ds c -> known ds (inst q args c).
Proof. intros ds q args c (d & I & N & L). exists d. split; [exact I|]. split; [exact N|]. unfold inst. cbn [tcargs]. rewrite map_length. exact L. Qed.
Lemma known_more : forall ds ds' c, incl ds ds' -> known ds c -> known ds' c.
Proof. intros ds ds' c H (d & I & K). exists d. split; [apply H, I|exact K]. Qed.
Lemma known_find : forall ds e c, inv ds e -> known ds c -> exists d i, In d ds /\ d_name d = tcname c /\ length (d_params d) = length (tcargs c) /\ find_con_name e (tcname c) = Some i /\ entry_ok ds e d i.
Proof. intros ds e c [H _] (d & I & N & L). destruct (H d I) as (i & F & E). rewrite N in F. exists d, i. auto. Qed.
Lemma find_other : forall e n i c, tcname c <> n -> find_con_name ((n, i) :: e) (tcname c) = find_con_name e (tcname c).
Proof. intros e n i c H. cbn. apply Nat.eqb_neq in H. rewrite H. reflexivity. Qed.
Lemma lin_other : forall e n i x, wname x <> n -> lin A ((n, i) :: e) x = lin A e x.
Proof. intros e n i [w u] H. unfold wname in H. cbn in H. rewrite !lin_eq, find_other by exact H. destruct (find_con_name e (tcname u)) as [j|] eqn:F; [|reflexivity]. rewrite (ancs_eq e u j F), (ancs_eq _ u j); [reflexivity|]. rewrite find_other; assumption. Qed.
Lemma mro_other : forall e n i us, Forall (fun u => tcname u <> n) us -> mro ((n, i) :: e) us = mro e us.
Proof.
  intros e n i us H. unfold M_Mro.mro. replace (map (lin A ((n, i) :: e)) (steps us)) with (map (lin A e) (steps us)); [reflexivity|]. apply map_ext_in. intros [w u] I. symmetry. apply lin_other. unfold wname. cbn. rewrite Forall_forall in H. apply H. apply (step_in _ _ _ (steps_in _ _ _ I)).
Qed.
Lemma ancs_in : forall ds e u x P, inv ds e -> known ds u -> closed P u -> In x (ancs e u) -> closed P (snd x) /\ known ds (snd x).
Proof.
  intros ds e u x P IV K C I. destruct (known_find _ _ _ IV K) as (d & i & D1 & D2 & D3 & F & (Q & _ & _ & _ & _ & W & _)). rewrite (ancs_eq e u i F) in I. destruct I as [<-|I]; [split; assumption|]. apply in_map_iff in I. destruct I as (y & <- & I). rewrite Forall_forall in W. destruct (W y I) as [W1 W2]. cbn [winst snd]. rewrite Q. split; [apply inst_closed; assumption|apply known_inst, W2].
Qed.
Lemma inv_step : forall ds e d e', inv ds e -> (forall d', In d' ds -> d_name d' <> d_name d) -> Forall (known ds) (d_parents d) -> Forall (closed (d_params d)) (d_parents d) -> declare A e d = Some e' -> inv (ds ++ [d]) e'.
Proof.
  intros ds e d e' IV NEW KN CL H. unfold declare in H. destruct (mro e (d_parents d)) as [us|] eqn:M; [|discriminate H]. injection H as <-. set (i0 := Info (d_params d) us (d_attrs d)).
  assert (OLD : forall c, known ds c -> tcname c <> d_name d) by (intros c (d' & I & N & _); rewrite <- N; apply NEW, I).
  assert (INC : incl ds (ds ++ [d])) by (intros x X; apply in_or_app; auto).
  assert (MO : forall us0, Forall (known ds) us0 -> mro ((d_name d, i0) :: e) us0 = mro e us0) by (intros us0 F; apply mro_other; eapply Forall_impl; [|exact F]; apply OLD).
  split.
  - intros d' I. apply in_app_or in I. destruct I as [I|[<-|[]]].
    + destruct (proj1 IV d' I) as (i & F & (E1 & E2 & E3 & E4 & E5 & E6 & E7)). exists i. split; [cbn; pose proof (NEW d' I) as NE; apply Nat.eqb_neq in NE; rewrite NE; exact F|].
      split; [exact E1|]. split; [exact E2|]. split; [rewrite MO by exact E4; exact E3|]. split; [eapply Forall_impl; [|exact E4]; intros; eapply known_more; eauto|]. split; [exact E5|]. split; [|exact E7]. eapply Forall_impl; [|exact E6]. cbn. intros x [X1 X2]. split; [exact X1|eapply known_more; eauto].
    + exists i0. split; [cbn; rewrite Nat.eqb_refl; reflexivity|]. destruct (mro_facts _ _ _ M) as (_ & FR & _).
      assert (WF : Forall (fun x => closed (d_params d) (snd x) /\ known ds (snd x)) us).
      { apply Forall_forall. intros x X. destruct (FR x X) as (s & w & u & ST & AN & _). pose proof (step_in _ _ _ ST) as U. rewrite Forall_forall in KN, CL. apply (ancs_in ds e u (w, snd x) (d_params d) IV (KN u U) (CL u U) AN). }
      split; [reflexivity|]. split; [reflexivity|]. split; [cbn [i_us i0]; rewrite MO by exact KN; exact M|]. split; [eapply Forall_impl; [|exact KN]; intros; eapply known_more; eauto|]. split; [exact CL|]. split.
      * eapply Forall_impl; [|exact WF]. cbn. intros x [X1 X2]. split; [exact X1|eapply known_more; eauto].
      * cbn [i_us i0]. intro I. apply in_map_iff in I. destruct I as (x & E & X). rewrite Forall_forall in WF. apply (OLD (snd x)); [apply WF, X|exact E].
  - intros a b I J E. apply in_app_or in I. apply in_app_or in J. destruct I as [I|[<-|[]]], J as [J|[<-|[]]]; [apply (proj2 IV); assumption|exfalso; apply (NEW a I E)|exfalso; apply (NEW b J); congruence|reflexivity].
Qed.
Lemma elaborate_app : forall a b e, elaborate A e (a ++ b) = match elaborate A e a with Some e' => elaborate A e' b | None => None end.
Proof. induction a as [|d a IH]; intros b e; [reflexivity|]. cbn [app elaborate]. destruct (declare A e d); [apply IH|reflexivity]. Qed.
Lemma elaborate_inv : forall ds, decls_ok A ds -> forall e, elaborate A [] ds = Some e -> inv ds e.
Proof.
  induction 1 as [|ds d OK IH NEW KN CL]; intros e H; [injection H as <-; split; [intros d []|intros d d' []]|]. rewrite elaborate_app in H. destruct (elaborate A [] ds) as [e0|]; [|discriminate H]. cbn [elaborate] in H. destruct (declare A e0 d) as [e1|] eqn:D; [|discriminate H]. injection H as <-. apply (inv_step ds e0 d); auto.
Qed.

(** *** Induction on declarations, parents first. *)
Lemma decl_ind : forall ds0 (P : tcon -> Prop), decls_ok A ds0 ->
  (forall c d, In d ds0 -> d_name d = tcname c -> length (d_params d) = length (tcargs c) -> (forall u, In u (d_parents d) -> P (inst (d_params d) (tcargs c) u)) -> P c) ->
  forall c, known ds0 c -> P c.
Proof.
  intros ds0 P OK H. enough (G : forall ds, decls_ok A ds -> incl ds ds0 -> forall c, known ds c -> P c) by (apply (G ds0 OK (incl_refl _))).
  clear OK. induction 1 as [|ds d OK IH NEW KN CL]; intros INC c (d' & I & N & L); [destruct I|]. apply in_app_or in I. destruct I as [I|[<-|[]]].
  - apply IH; [intros x X; apply INC, in_or_app; auto|]. exists d'. auto.
  - apply (H c d); auto; [apply INC, in_or_app; right; left; reflexivity|]. intros u U. apply IH; [intros x X; apply INC, in_or_app; auto|]. apply known_inst. rewrite Forall_forall in KN. apply KN, U.
Qed.

Section Whole.
Variables (ds : list decl) (e : env).
Hypothesis OK : decls_ok A ds.
Hypothesis EL : elaborate A [] ds = Some e.
Let IV : inv ds e := elaborate_inv ds OK e EL.
Definition order (c : tcon) : list tcon := map snd (ancs e c).

Lemma ancs_inst : forall q args c, known ds c -> ancs e (inst q args c) = map (winst q args) (ancs e c).
Proof.
  intros q args c K. destruct (known_find _ _ _ IV K) as (d & i & D1 & D2 & D3 & F & (Q & _ & _ & _ & _ & W & _)). rewrite (ancs_eq e c i F), (ancs_eq e (inst q args c) i F). cbn [map]. apply (f_equal (cons (winst q args ([], c)))). rewrite map_map. apply map_ext_in. intros x X. rewrite Forall_forall in W. destruct (W x X) as [W1 _]. unfold winst. cbn [fst snd]. f_equal.
  rewrite (inst_inst q args (i_q i) (tcargs c) (snd x)); [reflexivity|rewrite Q; exact W1|rewrite Q; exact D3].
Qed.
(** The order of a declaration with arguments, from those of its parents. *)
Lemma order_facts : forall c d, In d ds -> d_name d = tcname c -> length (d_params d) = length (tcargs c) ->
  exists l, ancs e c = ([], c) :: l /\
    (forall x, In x l -> exists s w u, step_to (d_parents d) [s] u /\ In (w, snd x) (ancs e (inst (d_params d) (tcargs c) u)) /\ fst x = s :: w) /\
    (forall u, In u (d_parents d) -> sublist (order (inst (d_params d) (tcargs c) u)) (map snd l)) /\
    sublist (map (inst (d_params d) (tcargs c)) (d_parents d)) (map snd l) /\ NoDup (map wname l) /\ ~ In (tcname c) (map wname l).
Proof.
  intros c d D1 D2 D3. destruct (proj1 IV d D1) as (i & F & (Q & _ & M & KN & CL & W & NI)). rewrite D2 in F. rewrite (ancs_eq e c i F), Q. rewrite Forall_forall in KN. destruct (mro_facts _ _ _ M) as (_ & FR & SB & SP & ND).
  exists (map (winst (d_params d) (tcargs c)) (i_us i)). split; [reflexivity|].
  assert (MS : map snd (map (winst (d_params d) (tcargs c)) (i_us i)) = map (inst (d_params d) (tcargs c)) (map snd (i_us i))) by (rewrite !map_map; reflexivity).
  assert (MN : map wname (map (winst (d_params d) (tcargs c)) (i_us i)) = map wname (i_us i)) by (rewrite map_map; reflexivity). rewrite MS, MN. split; [|split; [|split; [|split]]].
  - intros x X. apply in_map_iff in X. destruct X as (y & <- & Y). destruct (FR y Y) as (s & w & u & ST & AN & E). exists s, w, u. split; [exact ST|]. split; [|exact E]. rewrite ancs_inst by (apply KN, (step_in _ _ _ ST)). apply in_map_iff. exists (w, snd y). split; [reflexivity|exact AN].
  - intros u U. unfold order. rewrite ancs_inst by (apply KN, U). replace (map snd (map (winst (d_params d) (tcargs c)) (ancs e u))) with (map (inst (d_params d) (tcargs c)) (map snd (ancs e u))) by (rewrite !map_map; reflexivity). apply sub_map, SB, U.
  - apply sub_map, SP.
  - exact ND.
  - rewrite <- D2. exact NI.
Qed.
Lemma parents_known : forall c d u, In d ds -> In u (d_parents d) -> known ds (inst (d_params d) (tcargs c) u).
Proof. intros c d u D U. destruct (proj1 IV d D) as (i & _ & (_ & _ & _ & KN & _)). rewrite Forall_forall in KN. apply known_inst, KN, U. Qed.
Lemma order_self : forall c, known ds c -> In c (order c).
Proof. intros c (d & D1 & D2 & D3). destruct (order_facts c d D1 D2 D3) as (l & E & _). unfold order. rewrite E. left. reflexivity. Qed.

Lemma order_walk : forall c, known ds c -> forall w x, In (w, x) (ancs e c) -> walk A ds w c x.
Proof.
  apply (decl_ind ds (fun c => forall w x, In (w, x) (ancs e c) -> walk A ds w c x)); [exact OK|]. intros c d D1 D2 D3 IH w x I. destruct (order_facts c d D1 D2 D3) as (l & E & FR & _). rewrite E in I. destruct I as [I|I]; [injection I as <- <-; constructor|]. destruct (FR _ I) as (s & w' & u & ST & AN & EW). cbn [fst snd] in *. subst w. pose proof (IH u (step_in _ _ _ ST) _ _ AN) as WK.
  destruct ST as [(us' & P & S)|(v & us' & P & J & S)]; injection S as ->; [eapply walk_left|eapply walk_right]; eauto.
Qed.
Lemma walk_anc : forall w c x, walk A ds w c x -> ancestor A ds c x.
Proof.
  induction 1 as [x|d u us x w z D N P W IH|d u v us x w z D N P J W IH]; [constructor| |]; (eapply anc_up; [|exact IH]); apply parent_intro; auto; rewrite P; [left; reflexivity|right; exact J].
Qed.
Lemma order_anc : forall c, known ds c -> forall x, In x (order c) <-> ancestor A ds c x.
Proof.
  intros c K x. split.
  - intro I. apply in_map_iff in I. destruct I as ([w y] & E & I). cbn in E. subst y. apply (walk_anc w). apply order_walk; assumption.
  - revert c K x. apply (decl_ind ds (fun c => forall x, ancestor A ds c x -> In x (order c))); [exact OK|]. intros c d D1 D2 D3 IH x AN. destruct (order_facts c d D1 D2 D3) as (l & E & _ & SB & _). inversion AN as [c0|c0 y z PR AN']; subst.
    + unfold order. rewrite E. left. reflexivity.
    + inversion PR as [d' c1 u D1' D2' U]; subst. assert (d' = d) by (apply (proj2 IV); congruence). subst d'. unfold order. rewrite E. right. apply (sub_in _ _ _ (SB u U)). apply (IH u U), AN'.
Qed.
Lemma anc_known : forall c x, known ds c -> ancestor A ds c x -> known ds x.
Proof.
  intros c x K H. induction H as [x|x y z PR AN IH]; [exact K|]. apply IH. inversion PR; subst. apply parents_known; assumption.
Qed.
Lemma anc_trans : forall x y z, ancestor A ds x y -> ancestor A ds y z -> ancestor A ds x z.
Proof. induction 1; intro K; [exact K|]. eapply anc_up; eauto. Qed.
Lemma order_nodup : forall c, known ds c -> NoDup (map tcname (order c)).
Proof.
  intros c (d & D1 & D2 & D3). destruct (order_facts c d D1 D2 D3) as (l & E & _ & _ & _ & ND & NI). unfold order. rewrite E. cbn [map snd]. rewrite map_map. constructor; [exact NI|exact ND].
Qed.
Lemma order_monotone : forall c y, known ds c -> parent A ds c y -> sublist (order y) (order c).
Proof.
  intros c y (d & D1 & D2 & D3) PR. inversion PR as [d' c1 u D1' D2' U]; subst. assert (d' = d) by (apply (proj2 IV); congruence). subst d'. destruct (order_facts c d D1 D2 D3) as (l & E & _ & SB & _). unfold order at 2. rewrite E. cbn [map]. apply sub_skip, SB, U.
Qed.
Lemma order_specific : forall c, known ds c -> forall x y, In x (order c) -> ancestor A ds x y -> x <> y -> before x y (order c).
Proof.
  apply (decl_ind ds (fun c => forall x y, In x (order c) -> ancestor A ds x y -> x <> y -> before x y (order c))); [exact OK|]. intros c d D1 D2 D3 IH x y X AN NE. assert (KC : known ds c) by (exists d; auto). destruct (order_facts c d D1 D2 D3) as (l & E & FR & SB & _). unfold order in *. rewrite E in *. cbn [map snd] in *. destruct X as [<-|X].
  - apply before_cons. assert (Y : In y (order c)) by (apply order_anc; assumption). unfold order in Y. rewrite E in Y. destruct Y as [Y|Y]; [contradiction|exact Y].
  - apply before_skip. apply in_map_iff in X. destruct X as (x' & <- & X). destruct (FR x' X) as (s & w & u & ST & XN & _). pose proof (step_in _ _ _ ST) as U. apply (sub_before _ _ _ _ (SB u U)). apply (IH u U); [|exact AN|exact NE]. apply in_map_iff. exists (w, snd x'). split; [reflexivity|exact XN].
Qed.
Lemma order_parents : forall c d, In d ds -> d_name d = tcname c -> length (d_params d) = length (tcargs c) -> sublist (map (inst (d_params d) (tcargs c)) (d_parents d)) (order c).
Proof. intros c d D1 D2 D3. destruct (order_facts c d D1 D2 D3) as (l & E & _ & _ & SP & _). unfold order. rewrite E. cbn [map]. apply sub_skip, SP. Qed.

(** *** Attributes. *)
Lemma scan_spec : forall a te r i, scan A a r te = Some i <-> (exists l1 l2, te = l1 ++ (a, i) :: l2 /\ ~ In a (map fst l2)) \/ (r = Some i /\ ~ In a (map fst te)).
Proof.
  induction te as [|[x j] te IH]; intros r i; cbn [scan map fst].
  - split; [intro H; right; auto|]. intros [(l1 & l2 & E & _)|[E _]]; [destruct l1; discriminate E|exact E].
  - rewrite IH. destruct (Nat.eqb_spec x a) as [->|NE].
    + split.
      * intros [(l1 & l2 & -> & N)|[E N]]; [left; exists ((a, j) :: l1), l2; auto|]. injection E as ->. left. exists [], te. auto.
      * intros [(l1 & l2 & E & N)|[_ N]]; [|exfalso; apply N; left; reflexivity]. destruct l1 as [|p l1]; cbn [app] in E; injection E; intros; subst; [right; auto|left; exists l1, l2; auto].
    + split.
      * intros [(l1 & l2 & -> & N)|[E N]]; [left; exists ((x, j) :: l1), l2; auto|right]. split; [exact E|]. intros [K|K]; [congruence|auto].
      * intros [(l1 & l2 & E & N)|[E N]]; [|right; split; [exact E|intro K; apply N; right; exact K]]. destruct l1 as [|p l1]; cbn [app] in E; injection E; intros; subst; [congruence|left; exists l1, l2; auto].
Qed.
Lemma find_te : forall c, known ds c -> exists d us, In d ds /\ d_name d = tcname c /\ find_con e c = Some (us, d_attrs d).
Proof. intros c K. destruct (known_find _ _ _ IV K) as (d & i & D1 & D2 & D3 & F & (_ & T & _)). exists d, (map (winst (i_q i) (tcargs c)) (i_us i)). split; [exact D1|]. split; [exact D2|]. rewrite find_con_eq, F, T. reflexivity. Qed.
Lemma scan_declares : forall c a i us te, known ds c -> find_con e c = Some (us, te) -> (scan A a None te = Some i <-> declares A ds c a i).
Proof.
  intros c a i us te K F. destruct (find_te c K) as (d & us' & D1 & D2 & F'). rewrite F in F'. injection F' as _ ->. rewrite scan_spec. split.
  - intros [(l1 & l2 & E & N)|[E _]]; [|discriminate E]. exists d, l1, l2. auto.
  - intros (d' & l1 & l2 & D1' & D2' & E & N). left. assert (d' = d) by (apply (proj2 IV); congruence). subst d'. exists l1, l2. auto.
Qed.
Lemma go_spec : forall a l, Forall (fun x => known ds (snd x)) l ->
  match go A e a l with
  | Some (w, x, i) => In (w, x) l /\ declares A ds x a i /\ forall y j, In y (map snd l) -> declares A ds y a j -> y = x \/ before x y (map snd l)
  | None => forall y j, In y (map snd l) -> ~ declares A ds y a j
  end.
Proof.
  intros a l. induction l as [|[w c] l IH]; intro K; [cbn; intros y j []|]. inversion K as [|? ? K1 K2]; subst. cbn [snd] in K1. cbn [go]. destruct (find_te c K1) as (d & us & D1 & D2 & F). rewrite F. destruct (scan A a None (d_attrs d)) as [i|] eqn:SC.
  - split; [left; reflexivity|]. split; [apply (scan_declares c a i us (d_attrs d) K1 F), SC|]. intros y j [<-|Y] _; [left; reflexivity|right; apply before_cons, Y].
  - assert (N : forall j, ~ declares A ds c a j) by (intros j J; apply (scan_declares c a j us (d_attrs d) K1 F) in J; congruence).
    specialize (IH K2). destruct (go A e a l) as [[[w' x] i]|].
    + destruct IH as (I1 & I2 & I3). split; [right; exact I1|]. split; [exact I2|]. intros y j [<-|Y] J; [exfalso; apply (N j J)|]. destruct (I3 y j Y J) as [->|B]; [left; reflexivity|right; apply before_skip, B].
    + intros y j [<-|Y] J; [apply (N j J)|apply (IH y j Y J)].
Qed.
Lemma find_attr_go : forall c a, find_attr A e c a = go A e a (ancs e c).
Proof. intros c a. unfold find_attr, ancs. destruct (find_ancestry A e c); reflexivity. Qed.
Lemma ancs_known : forall c, known ds c -> Forall (fun x => known ds (snd x)) (ancs e c).
Proof. intros c K. apply Forall_forall. intros [w x] I. apply (anc_known c); [exact K|]. apply (walk_anc w), order_walk; assumption. Qed.
Lemma nodup_before : forall (l : list tcon) x y, NoDup l -> before x y l -> before y x l -> False.
Proof.
  intros l x y N (a & b & c & E) (a' & b' & c' & E').
  assert (U : forall (l : list tcon) p q p' q' z, NoDup l -> l = p ++ z :: q -> l = p' ++ z :: q' -> p = p').
  { clear. intros l p. revert l. induction p as [|h p IH]; intros l q [|h' p'] q' z N E E'; subst l; cbn [app] in *.
    - reflexivity.
    - injection E' as -> E'. exfalso. apply NoDup_cons_iff in N. apply (proj1 N). rewrite E'. apply in_or_app. right. left. reflexivity.
    - injection E' as -> E'. exfalso. inversion N as [|? ? N1 _]; subst. apply N1. apply in_or_app. right. left. reflexivity.
    - injection E' as -> E'. f_equal. apply NoDup_cons_iff in N. apply (IH _ q p' q' z (proj2 N) eq_refl E'). }
  assert (P1 : a = a' ++ y :: b') by (apply (U l _ (b ++ y :: c) _ c' x N E); rewrite E', <- app_assoc; reflexivity).
  assert (P2 : a' = a ++ x :: b) by (apply (U l _ (b' ++ x :: c') _ c y N E'); rewrite E, <- app_assoc; reflexivity).
  apply (f_equal (@length _)) in P1. apply (f_equal (@length _)) in P2. rewrite app_length in P1, P2. cbn in P1, P2. lia.
Qed.
Lemma nodup_names : forall l, NoDup (map tcname l) -> NoDup l.
Proof. intros l H. apply (NoDup_map_inv tcname). exact H. Qed.
Lemma attr_found : forall c a w x i, known ds c -> find_attr A e c a = Some (w, x, i) ->
  walk A ds w c x /\ declares A ds x a i /\ (forall y j, ancestor A ds c y -> declares A ds y a j -> y = x \/ before x y (order c)) /\
  (forall y j, ancestor A ds c y -> declares A ds y a j -> ancestor A ds y x -> y = x).
Proof.
  intros c a w x i K H. rewrite find_attr_go in H. pose proof (go_spec a (ancs e c) (ancs_known c K)) as G. rewrite H in G. destruct G as (G1 & G2 & G3). split; [apply order_walk; assumption|]. split; [exact G2|].
  assert (FST : forall y j, ancestor A ds c y -> declares A ds y a j -> y = x \/ before x y (order c)) by (intros y j Y J; apply (G3 y j); [apply order_anc; assumption|exact J]).
  split; [exact FST|]. intros y j Y J YX. destruct (FST y j Y J) as [E|B]; [exact E|].
  assert (DEC : {y = x} + {y <> x}) by (destruct y as [n1 t1], x as [n2 t2]; destruct (Nat.eq_dec n1 n2) as [->|NE]; [destruct (tys_eqb t1 t2) eqn:TE; [left; apply tys_eqb_eq in TE; congruence|right; intro Q; injection Q as Q; assert (tys_eqb t1 t2 = true) by (apply tys_eqb_eq, Q); congruence]|right; congruence]).
  destruct DEC as [E|NE]; [exact E|]. exfalso. apply (nodup_before (order c) x y (nodup_names _ (order_nodup c K)) B). apply order_specific; [exact K|apply order_anc; assumption|exact YX|exact NE].
Qed.
Lemma attr_none : forall c a, known ds c -> find_attr A e c a = None -> forall y j, ancestor A ds c y -> ~ declares A ds y a j.
Proof.
  intros c a K H y j Y. rewrite find_attr_go in H. pose proof (go_spec a (ancs e c) (ancs_known c K)) as G. rewrite H in G. apply G. apply order_anc; assumption.
Qed.

(** *** Layout. *)
Lemma nub_app : forall a b seen, nub seen (a ++ b) = nub seen a ++ nub (rev (nub seen a) ++ seen) b.
Proof.
  induction a as [|x a IH]; intros b seen; cbn [app nub]; [reflexivity|]. destruct (existsb (Nat.eqb x) seen); [apply IH|]. cbn [rev app]. rewrite IH, <- app_assoc. reflexivity.
Qed.
Lemma memb_in : forall x l, existsb (Nat.eqb x) l = true <-> In x l.
Proof. intros x l. rewrite existsb_exists. split; [intros (y & I & E); apply Nat.eqb_eq in E; congruence|intro I; exists x; split; [exact I|apply Nat.eqb_refl]]. Qed.
Lemma nub_in : forall l seen x, In x (nub seen l) <-> In x l /\ ~ In x seen.
Proof.
  induction l as [|y l IH]; intros seen x; cbn [nub]; [split; [intros []|intros [[] _]]|]. destruct (existsb (Nat.eqb y) seen) eqn:M.
  - apply memb_in in M. rewrite IH. cbn [In]. split; [tauto|]. intros [[->|I] N]; [contradiction|auto].
  - assert (NM : ~ In y seen) by (intro I; apply memb_in in I; congruence). cbn [In]. rewrite IH. cbn [In]. destruct (Nat.eq_dec y x) as [->|NE]; [tauto|]. tauto.
Qed.
Lemma nub_nodup : forall l seen, NoDup (nub seen l).
Proof. induction l as [|y l IH]; intro seen; cbn [nub]; [constructor|]. destruct (existsb _ _); [apply IH|]. constructor; [|apply IH]. rewrite nub_in. cbn [In]. tauto. Qed.
Lemma sub_full : forall (l1 l2 : list tcon), sublist l1 l2 -> NoDup l2 -> incl l2 l1 -> l1 = l2.
Proof.
  induction 1 as [|x l1 l2 H IH|x l1 l2 H IH]; intros N I; [reflexivity| |].
  - exfalso. inversion N as [|? ? N1 _]; subst. apply N1. apply (sub_in _ _ _ H). apply I. left. reflexivity.
  - inversion N as [|? ? N1 N2]; subst. f_equal. apply IH; [exact N2|]. intros y Y. destruct (I y (or_intror Y)) as [E|J]; [subst; contradiction|exact J].
Qed.
Lemma flat_map_snd : forall (f : tcon -> list nat) (l : list wtcon), flat_map (fun x => f (snd x)) l = flat_map f (map snd l).
Proof. induction l as [|x l IH]; [reflexivity|]. cbn. rewrite IH. reflexivity. Qed.
Lemma layout_order : forall c, layout A e c = nub [] (rev (flat_map (fun x => rev (own A e x)) (order c))).
Proof.
  intro c. unfold layout, order, ancs. destruct (find_ancestry A e c) as [l|]; [|reflexivity]. rewrite (flat_map_snd (fun x => rev (own A e x))). reflexivity.
Qed.
Lemma own_attrs : forall c d, In d ds -> d_name d = tcname c -> known ds c -> own A e c = map fst (d_attrs d).
Proof. intros c d D1 D2 K. destruct (find_te c K) as (d' & us & D1' & D2' & F). unfold own. rewrite F. assert (d' = d) by (apply (proj2 IV); congruence). congruence. Qed.
Lemma layout_prefix : forall c d u, In d ds -> d_name d = tcname c -> length (d_params d) = length (tcargs c) -> d_parents d = [u] ->
  exists extra, layout A e c = layout A e (inst (d_params d) (tcargs c) u) ++ extra /\
    forall a, In a extra <-> In a (map fst (d_attrs d)) /\ ~ In a (layout A e (inst (d_params d) (tcargs c) u)).
Proof.
  intros c d u D1 D2 D3 P. assert (K : known ds c) by (exists d; auto). destruct (order_facts c d D1 D2 D3) as (l & E & FR & SB & _ & ND & _). set (p := inst (d_params d) (tcargs c) u) in *.
  assert (L : order p = map snd l).
  { apply sub_full; [apply SB; rewrite P; left; reflexivity|apply nodup_names; rewrite map_map; exact ND|]. intros x X. apply in_map_iff in X. destruct X as (x' & <- & X). destruct (FR x' X) as (s & w & u' & ST & AN & _). apply step_in in ST. rewrite P in ST. destruct ST as [<-|[]]. apply in_map_iff. exists (w, snd x'). split; [reflexivity|exact AN]. }
  rewrite !layout_order. unfold order at 1. rewrite E. cbn [map snd flat_map]. rewrite <- L, rev_app_distr, rev_involutive, (own_attrs c d D1 D2 K), nub_app. eexists. split; [reflexivity|]. intro a. rewrite nub_in, app_nil_r, <- in_rev. reflexivity.
Qed.
Lemma layout_nodup : forall c, NoDup (layout A e c).
Proof. intro c. rewrite layout_order. apply nub_nodup. Qed.
Lemma layout_in : forall c a, known ds c -> (In a (layout A e c) <-> exists y j, ancestor A ds c y /\ declares A ds y a j).
Proof.
  intros c a K. rewrite layout_order, nub_in, <- in_rev, in_flat_map. split.
  - intros [(x & X & I) _]. apply in_rev in I. assert (AN : ancestor A ds c x) by (apply order_anc; assumption). pose proof (anc_known c x K AN) as KX. destruct (find_te x KX) as (d & us & D1 & D2 & F). unfold own in I. rewrite F in I.
    destruct (scan A a None (d_attrs d)) as [j|] eqn:SC; [exists x, j; split; [exact AN|apply (scan_declares x a j us (d_attrs d) KX F), SC]|]. exfalso. clear - I SC. assert (G : forall te r, In a (map fst te) -> scan A a r te <> None). { clear. induction te as [|[x i] te IH]; intros r I; [destruct I|]. cbn [scan map fst In] in *. destruct (Nat.eqb_spec x a) as [->|NE]; [|destruct I as [I|I]; [contradiction|apply IH, I]]. clear. generalize i as j. induction te as [|[y k] te IH]; intro j; cbn [scan]; [discriminate|]. destruct (y =? a); apply IH. } apply (G _ None I SC).
  - intros (y & j & AN & DE). split; [|intros []]. exists y. split; [apply order_anc; assumption|]. rewrite <- in_rev. pose proof (anc_known c y K AN) as KY. destruct DE as (d & l1 & l2 & D1 & D2 & E & _). rewrite (own_attrs y d D1 D2 KY), E, map_app. apply in_or_app. right. left. reflexivity.
Qed.
(** *** A new declaration. *)
Lemma declare_iff : forall d, Forall (known ds) (d_parents d) ->
  (exists e', declare A e d = Some e') <-> exists L, NoDup (map tcname L) /\ (forall u, In u (d_parents d) -> sublist (order u) L) /\ sublist (d_parents d) L.
Proof.
  intros d KN. unfold declare. split.
  - intros [e' H]. destruct (mro e (d_parents d)) as [us|] eqn:M; [|discriminate H]. destruct (mro_facts _ _ _ M) as (_ & _ & SB & SP & ND). exists (map snd us). split; [rewrite map_map; exact ND|]. split; [exact SB|exact SP].
  - intros (L & N & H1 & H2). destruct (mro_possible e (d_parents d) L) as [us M]; [|exact N|exact H1|exact H2|rewrite M; eexists; reflexivity]. intros u U. rewrite Forall_forall in KN. destruct (known_find _ _ _ IV (KN u U)) as (d' & i & _ & _ & _ & F & _). exists i. exact F.
Qed.
End Whole.
End Env.

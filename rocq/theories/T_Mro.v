(** Inheritance: theorems. *)
From Coq Require Import List Arith Bool Lia.
From Verif Require Import S_Mro M_Mro P_Mro P_Mro2.
Import ListNotations.

Section Theorems.
Variable A : Type.
Variables (ds : list (decl A)) (e : env A).
Hypothesis OK : decls_ok A ds.
Hypothesis EL : elaborate A [] ds = Some e.

Lemma found : forall c, known A ds c -> find_ancestry A e c = Some (ancs A e c).
Proof. intros c K. unfold ancs. destruct (known_find A ds e c (elaborate_inv A ds OK e EL) K) as (d & i & _ & _ & _ & F & _). unfold find_ancestry. rewrite find_con_eq, F. reflexivity. Qed.

(** The ancestors found are the ancestors, with the right arguments, each name once. *)
Theorem C94_ancestors : forall c, known A ds c -> exists l, find_ancestry A e c = Some l /\ (forall x, In x (map snd l) <-> ancestor A ds c x) /\ NoDup (map tcname (map snd l)).
Proof. intros c K. exists (ancs A e c). split; [apply found, K|]. split; [apply (order_anc A ds e OK EL c K)|apply (order_nodup A ds e OK EL c K)]. Qed.
(** A name is inherited with one list of arguments only. *)
Theorem C94_one_instance : forall c x y, known A ds c -> ancestor A ds c x -> ancestor A ds c y -> tcname x = tcname y -> x = y.
Proof.
  intros c x y K X Y E. apply (name_unique (order A e c)); [apply (order_nodup A ds e OK EL c K)| | |exact E]; apply (order_anc A ds e OK EL c K); assumption.
Qed.
(** The more specific comes first: everything stands before what it inherits from. *)
Theorem C94_specific_first : forall c l x y, known A ds c -> find_ancestry A e c = Some l -> ancestor A ds c x -> ancestor A ds x y -> x <> y -> before x y (map snd l).
Proof. intros c l x y K F X Y NE. rewrite (found c K) in F. injection F as <-. apply (order_specific A ds e OK EL c K); [apply (order_anc A ds e OK EL c K), X|exact Y|exact NE]. Qed.
(** What a parent has in some order, its heirs have in that order. *)
Theorem C94_monotone : forall c y l m, known A ds c -> ancestor A ds c y -> find_ancestry A e c = Some l -> find_ancestry A e y = Some m -> sublist (map snd m) (map snd l).
Proof.
  intros c y l m K AN F G. pose proof (anc_known A ds e OK EL c y K AN) as KY. rewrite (found c K) in F. rewrite (found y KY) in G. injection F as <-. injection G as <-. clear KY. induction AN as [x|x y z PR AN IH]; [apply sub_refl|].
  apply (sub_trans _ _ (order_monotone A ds e OK EL x y K PR)). apply IH. inversion PR; subst. apply (parents_known A ds e OK EL); assumption.
Qed.
(** The parents stand in the order in which they are written. *)
Theorem C94_parents_in_order : forall c d l, known A ds c -> In d ds -> d_name d = tcname c -> length (d_params d) = length (tcargs c) -> find_ancestry A e c = Some l ->
  sublist (c :: map (inst (d_params d) (tcargs c)) (d_parents d)) (map snd l).
Proof.
  intros c d l K D1 D2 D3 F. rewrite (found c K) in F. injection F as <-. destruct (order_facts A ds e OK EL c d D1 D2 D3) as (l & E & _ & _ & SP & _). rewrite E. cbn [map snd]. apply sub_keep, SP.
Qed.
(** The path that comes with an ancestor leads to it. *)
Theorem C94_paths : forall c l w x, known A ds c -> find_ancestry A e c = Some l -> In (w, x) l -> walk A ds w c x.
Proof. intros c l w x K F I. rewrite (found c K) in F. injection F as <-. apply (order_walk A ds e OK EL c K), I. Qed.
(** An attribute is the one of the first ancestor that declares it, and no ancestor that declares it is more specific. *)
Theorem C94_attribute : forall c a w x i, known A ds c -> find_attr A e c a = Some (w, x, i) ->
  walk A ds w c x /\ declares A ds x a i /\
  (forall l y j, find_ancestry A e c = Some l -> ancestor A ds c y -> declares A ds y a j -> y = x \/ before x y (map snd l)) /\
  (forall y j, ancestor A ds c y -> declares A ds y a j -> ancestor A ds y x -> y = x).
Proof.
  intros c a w x i K H. destruct (attr_found A ds e OK EL c a w x i K H) as (H1 & H2 & H3 & H4). split; [exact H1|]. split; [exact H2|]. split; [|exact H4]. intros l y j F. rewrite (found c K) in F. injection F as <-. apply H3.
Qed.
Theorem C94_attribute_exists : forall c a, known A ds c -> ((exists r, find_attr A e c a = Some r) <-> exists y j, ancestor A ds c y /\ declares A ds y a j).
Proof.
  intros c a K. split.
  - intros [[[w x] i] H]. destruct (attr_found A ds e OK EL c a w x i K H) as (H1 & H2 & _). exists x, i. split; [apply (walk_anc A ds _ _ _ H1)|exact H2].
  - intros (y & j & Y & J). destruct (find_attr A e c a) as [r|] eqn:H; [exists r; reflexivity|]. exfalso. apply (attr_none A ds e OK EL c a K H y j Y J).
Qed.
(** What a class declares itself overrides what it inherits. *)
Theorem C94_override : forall c a i, known A ds c -> declares A ds c a i -> find_attr A e c a = Some ([], c, i).
Proof.
  intros c a i K D. rewrite find_attr_go. unfold ancs. destruct (find_te A ds e OK EL c K) as (d & us & D1 & D2 & F). unfold find_ancestry. rewrite F. cbn [go]. rewrite F. apply (scan_declares A ds e OK EL c a i us (d_attrs d) K F) in D. rewrite D. reflexivity.
Qed.
(** A declaration is accepted exactly when its parents can be put in one order. *)
Theorem C94_accepted : forall d, Forall (known A ds) (d_parents d) ->
  ((exists e', declare A e d = Some e') <->
   exists L, NoDup (map tcname L) /\ sublist (d_parents d) L /\ forall u l, In u (d_parents d) -> find_ancestry A e u = Some l -> sublist (map snd l) L).
Proof.
  intros d KN. rewrite (declare_iff A ds e OK EL d KN). rewrite Forall_forall in KN. split; intros (L & N & H1 & H2); exists L; (split; [exact N|]).
  - split; [exact H2|]. intros u l U F. rewrite (found u (KN u U)) in F. injection F as <-. apply H1, U.
  - split; [|exact H1]. intros u U. apply (H2 u _ U (found u (KN u U))).
Qed.
(** The slots of a class: every attribute declared or inherited, once. *)
Theorem C94_layout : forall c, known A ds c -> NoDup (layout A e c) /\ forall a, In a (layout A e c) <-> exists y j, ancestor A ds c y /\ declares A ds y a j.
Proof. intros c K. split; [apply layout_nodup|]. intro a. apply (layout_in A ds e OK EL c a K). Qed.
(** With one parent they begin with the slots of the parent. *)
Theorem C94_layout_prefix : forall c d u, In d ds -> d_name d = tcname c -> length (d_params d) = length (tcargs c) -> d_parents d = [u] ->
  exists extra, layout A e c = layout A e (inst (d_params d) (tcargs c) u) ++ extra /\
    forall a, In a extra <-> In a (map fst (d_attrs d)) /\ ~ In a (layout A e (inst (d_params d) (tcargs c) u)).
Proof. exact (layout_prefix A ds e OK EL). Qed.
Lemma lookup_app : forall B a (l1 l2 : list (nat * B)), lookup a (l1 ++ l2) = match lookup a l1 with Some b => Some b | None => lookup a l2 end.
Proof. induction l1 as [|[x b] l1 IH]; intro l2; [reflexivity|]. cbn [app lookup]. destruct (a =? x); [reflexivity|apply IH]. Qed.
Lemma scan_lookup : forall a te r, scan A a r te = match lookup a (rev te) with Some i => Some i | None => r end.
Proof.
  induction te as [|[x i] te IH]; intro r; [reflexivity|]. cbn [scan rev]. rewrite IH, lookup_app. cbn [lookup]. destruct (lookup a (rev te)); [reflexivity|]. rewrite Nat.eqb_sym. destruct (a =? x); reflexivity.
Qed.
Lemma lookup_path : forall (w : list (nat + nat)) a (te : list (nat * A)), lookup a (map (fun p => (fst p, (w, snd p))) te) = option_map (pair w) (lookup a te).
Proof. induction te as [|[x i] te IH]; [reflexivity|]. cbn [map lookup fst snd]. destruct (a =? x); [reflexivity|exact IH]. Qed.
Lemma lookup_aenv : forall c a, known A ds c -> lookup a (aenv A e c) = match find_attr A e c a with Some (w, _, i) => Some (w, i) | None => None end.
Proof.
  intros c a K. unfold aenv. rewrite find_attr_go, (found c K). pose proof (ancs_known A ds e OK EL c K) as F. induction (ancs A e c) as [|[w x] l IH]; [reflexivity|]. inversion F as [|? ? F1 F2]; subst. cbn [flat_map go fst snd] in *. destruct (find_te A ds e OK EL x F1) as (d & us & _ & _ & FC). rewrite FC, lookup_app, lookup_path, scan_lookup. destruct (lookup a (rev (d_attrs d))); [reflexivity|]. apply IH, F2.
Qed.
(** Every slot holds the attribute that is found under its name. *)
Theorem C94_slots : forall c, known A ds c -> attributes A e c = map (fun a => match find_attr A e c a with Some (w, _, i) => Some (a, (w, i)) | None => None end) (layout A e c).
Proof. intros c K. unfold attributes. apply map_ext. intro a. rewrite (lookup_aenv c a K). destruct (find_attr A e c a) as [[[w x] i]|]; reflexivity. Qed.
End Theorems.
Print Assumptions C94_ancestors. Print Assumptions C94_one_instance. Print Assumptions C94_specific_first. Print Assumptions C94_monotone. Print Assumptions C94_parents_in_order. Print Assumptions C94_paths. Print Assumptions C94_attribute. Print Assumptions C94_attribute_exists. Print Assumptions C94_override. Print Assumptions C94_accepted. Print Assumptions C94_layout. Print Assumptions C94_layout_prefix. Print Assumptions C94_slots.

(** *** A diamond with parameters. *)
Definition ex_ds : list (decl nat) :=
  [Decl 0 [7] [] [(100, 1); (101, 2)];
   Decl 1 [8] [TC 0 [App (Con 50) (Var 8)]] [(101, 3); (102, 4)];
   Decl 2 [7] [TC 0 [App (Con 50) (Var 7)]] [(100, 5); (101, 6)];
   Decl 3 [] [TC 1 [Con 51]; TC 2 [Con 51]] [(103, 7)]].
Example ex_ok : decls_ok nat ex_ds.
Proof.
  change ex_ds with (((([] ++ [Decl 0 [7] [] [(100, 1); (101, 2)]]) ++ [Decl 1 [8] [TC 0 [App (Con 50) (Var 8)]] [(101, 3); (102, 4)]]) ++
   [Decl 2 [7] [TC 0 [App (Con 50) (Var 7)]] [(100, 5); (101, 6)]]) ++ [Decl 3 [] [TC 1 [Con 51]; TC 2 [Con 51]] [(103, 7)]]).
  apply ok_snoc; [apply ok_snoc; [apply ok_snoc; [apply ok_snoc; [apply ok_nil| | |]| | |]| | |]| | |]; try (cbn; intros; intuition (subst; cbn; discriminate));
    try (apply Forall_forall; intros u U; cbn in U; repeat (destruct U as [<-|U]; [apply Forall_forall; intros t T; cbn in T; repeat (destruct T as [<-|T]; [intros v V; exact V|]); destruct T|]); destruct U; fail); repeat apply Forall_cons; try apply Forall_nil.
  - eexists. split; [left; reflexivity|split; reflexivity].
  - eexists. split; [left; reflexivity|split; reflexivity].
  - eexists. split; [right; left; reflexivity|split; reflexivity].
  - eexists. split; [right; right; left; reflexivity|split; reflexivity].
Qed.
Definition ex_e : env nat := match elaborate nat [] ex_ds with Some e => e | None => [] end.
Example ex_el : elaborate nat [] ex_ds = Some ex_e. Proof. reflexivity. Qed.
Example ex_order : option_map (map snd) (find_ancestry nat ex_e (TC 3 [])) = Some [TC 3 []; TC 1 [Con 51]; TC 2 [Con 51]; TC 0 [App (Con 50) (Con 51)]]. Proof. reflexivity. Qed.
Example ex_attr : find_attr nat ex_e (TC 3 []) 101 = Some ([inl 1], TC 1 [Con 51], 3) /\ find_attr nat ex_e (TC 3 []) 100 = Some ([inr 2], TC 2 [Con 51], 5) /\ find_attr nat ex_e (TC 3 []) 104 = None. Proof. repeat split. Qed.
Example ex_layout : layout nat ex_e (TC 1 [Con 51]) = [100; 101; 102]. Proof. reflexivity. Qed.
Example ex_rejected : declare nat ex_e (Decl 4 [] [TC 0 [App (Con 50) (Con 51)]; TC 1 [Con 51]] []) = None /\ declare nat ex_e (Decl 4 [] [TC 1 [Con 51]; TC 2 [Con 52]] []) = None /\
  declare nat ex_e (Decl 4 [] [TC 1 [Con 51]; TC 0 [App (Con 50) (Con 51)]] []) <> None. Proof. repeat split; discriminate. Qed.

(** Incremental builds: proofs about builds. *)
From Coq Require Import List Arith Bool Lia.
From Verif Require Import S_Incr M_Incr P_Incr.
Import ListNotations.

Lemma compute_form : forall m items ext maxd, compute m items ext maxd = map (fun n => (n, cv m items ext maxd n)) (names items).
Proof.
  intros m items ext maxd. unfold cv, compute. destruct (fast m items ext maxd); apply map_ext_in; intros n N; rewrite assoc_map by exact N; reflexivity.
Qed.
Lemma compute_ext : forall m items ext ext' maxd, well_formed m items ->
  (forall it r, In it items -> In r (externals m (sig_of it)) -> ext r = ext' r) -> compute m items ext maxd = compute m items ext' maxd.
Proof.
  intros m items ext ext' maxd (N & C & rank & R) E. rewrite !compute_form. apply map_ext_in. intros n NI. f_equal.
  assert (G : forall k n, rank n < k -> In n (names items) -> cv m items ext maxd n = cv m items ext' maxd n); [|eapply G; [apply Nat.lt_succ_diag_r|exact NI]]. clear n NI.
  induction k as [|k IH]; intros n L NI; [lia|]. unfold names in NI. apply in_map_iff in NI. destruct NI as (it & EN & I). subst n. unfold cv at 1 2. rewrite (compute_eqn m items ext maxd N C rank R it I), (compute_eqn m items ext' maxd N C rank R it I).
  apply eqn_ext; [|intros r X; apply (E it r I X)]. intros x X D. pose proof (ls_ref _ _ _ X) as XR. destruct (R it _ I XR eq_refl) as [S|S]; cbn [snd] in S.
  - destruct D as [D|D]; [|congruence]. subst x. apply memb_In in X. congruence.
  - apply IH; [lia|]. exact (C it _ I XR eq_refl).
Qed.

Section Build.
Variable Src : Type.
Variable src_eqb : Src -> Src -> bool.
Variable front : nat -> Src -> tree.
Variable maxd : nat.
Notation env := (env Src).
Notation look := (look Src).
Notation hash_of := (hash_of Src).
Notation the_hash := (the_hash Src).
Notation compile := (compile Src front maxd).

Definition good (v : env) : Prop := forall q,
  match look v q, hash_of v q with
  | Some i, Some h => h = eqn (fun n => the_hash v (fst q, n)) (the_hash v) (fst q) (snd q) i /\ forall r, In r (refs i) -> look v r <> None
  | None, None => True
  | _, _ => False
  end.
Lemma good_both : forall v q, good v -> (look v q <> None <-> hash_of v q <> None).
Proof. intros v q G. specialize (G q). destruct (look v q), (hash_of v q); try contradiction; split; intro; congruence. Qed.
Lemma good_nil : good [].
Proof. intro q. exact I. Qed.

(** Equal hashes, equal signatures all the way down. *)
Lemma hash_below : forall v1 v2 q q', good v1 -> good v2 -> below (look v1) q q' -> hash_of v1 q = hash_of v2 q -> look v2 q' = look v1 q' /\ hash_of v1 q' = hash_of v2 q'.
Proof.
  intros v1 v2 q q' G1 G2 B. induction B as [q|q i r q' L R B IH]; intro H.
  - split; [|exact H]. pose proof (G1 q) as A1. pose proof (G2 q) as A2. rewrite <- H in A2. destruct (hash_of v1 q) as [h|]; destruct (look v1 q) as [i1|], (look v2 q) as [i2|]; try contradiction; [|reflexivity].
    destruct A1 as [A1 _], A2 as [A2 _]. rewrite A1 in A2. apply eqn_info in A2. congruence.
  - apply IH. pose proof (G1 q) as A1. pose proof (G2 q) as A2. rewrite <- H in A2. rewrite L in A1. destruct (hash_of v1 q) as [h|] eqn:H1; [|contradiction]. destruct (look v2 q) as [i2|] eqn:L2; [|contradiction].
    destruct A1 as [A1 C1], A2 as [A2 C2]. rewrite A1 in A2. pose proof (eqn_info _ _ _ _ _ _ _ _ A2) as <-. apply eqn_refs in A2. destruct A2 as [EL EE].
    pose proof (proj1 (good_both v1 r G1) (C1 r R)) as S1. pose proof (proj1 (good_both v2 r G2) (C2 r R)) as S2.
    assert (T : r = q \/ the_hash v1 r = the_hash v2 r).
    { destruct (Nat.eq_dec (fst r) (fst q)) as [F|F].
      - destruct (Nat.eq_dec (snd r) (snd q)) as [F2|F2]; [left; destruct r, q; cbn in *; congruence|]. right. pose proof (EL _ (ls_In _ _ _ R F) F2) as X. cbn beta in X. rewrite <- F in X. destruct r; exact X.
      - right. apply EE, ext_In; assumption. }
    destruct T as [->|T]; [congruence|]. unfold M_Incr.the_hash in T. destruct (hash_of v1 r), (hash_of v2 r); congruence.
Qed.

Lemma look_other : forall v m e q, fst q <> m -> look ((m, e) :: v) q = look v q.
Proof. intros v m e q N. unfold M_Incr.look. cbn [assoc]. destruct (Nat.eqb_spec m (fst q)); [congruence|reflexivity]. Qed.
Lemma hash_other : forall v m e q, fst q <> m -> hash_of ((m, e) :: v) q = hash_of v q.
Proof. intros v m e q N. unfold M_Incr.hash_of. cbn [assoc]. destruct (Nat.eqb_spec m (fst q)); [congruence|reflexivity]. Qed.
Lemma resolve_some : forall A (f : A -> option hash) l r, resolve f l = Some r -> forall a, In a l -> f a <> None.
Proof.
  intros A f. induction l as [|x l IH]; intros r H a I; [destruct I|]. cbn [resolve] in H. destruct (f x) as [h|] eqn:F; [|discriminate H]. destruct (resolve f l) as [r'|] eqn:R; [|discriminate H]. destruct I as [<-|I]; [congruence|apply (IH r' eq_refl a I)].
Qed.
Lemma resolve_all : forall A (f : A -> option hash) l, (forall a, In a l -> f a <> None) -> resolve f l <> None.
Proof.
  intros A f. induction l as [|x l IH]; intro H; [discriminate|]. cbn [resolve]. destruct (f x) as [h|] eqn:F; [|destruct (H x (or_introl eq_refl) F)]. destruct (resolve f l) as [r|]; [discriminate|]. exfalso. apply IH; [|reflexivity]. intros a I. apply H. right. exact I.
Qed.
Lemma resolve_ext : forall A (f g : A -> option hash) l, (forall a, In a l -> f a = g a) -> resolve f l = resolve g l.
Proof.
  intros A f g. induction l as [|x l IH]; intro H; [reflexivity|]. cbn [resolve]. rewrite (H x (or_introl eq_refl)), IH; [reflexivity|]. intros a I. apply H. right. exact I.
Qed.
Lemma resolve_rows : forall A (f : A -> option hash) l r, resolve f l = Some r -> forall a, In a l -> exists h, f a = Some h /\ In (a, h) r.
Proof.
  intros A f. induction l as [|x l IH]; intros r H a I; [destruct I|]. cbn [resolve] in H. destruct (f x) as [h|] eqn:F; [|discriminate H]. destruct (resolve f l) as [r'|] eqn:R; [|discriminate H]. injection H as <-.
  destruct I as [<-|I]; [exists h; split; [exact F|left; reflexivity]|]. destruct (IH r' eq_refl a I) as (h' & E & X). exists h'. split; [exact E|right; exact X].
Qed.
Lemma ext_mentioned : forall m items it r, In it items -> In r (refs (sig_of it)) -> fst r <> m -> In r (mentioned m items).
Proof.
  intros m items it r I R N. apply filter_In. split; [|apply negb_true_iff, Nat.eqb_neq, N]. apply in_flat_map. exists it. split; [exact I|]. apply in_or_app. left. exact R.
Qed.
Lemma rows_In : forall m items r, In r (rows m items) <-> In r (mentioned m items).
Proof. intros. apply undup_In, q_eqb_eq. Qed.

Lemma good_cons : forall v m e, good v -> assoc m v = None -> well_formed m (e_items Src e) ->
  resolve (hash_of v) (rows m (e_items Src e)) <> None -> e_hashes Src e = compute m (e_items Src e) (the_hash v) maxd -> good ((m, e) :: v).
Proof.
  intros v m e G A (N & C & rank & R) RS EH q.
  assert (NV : forall r, look v r <> None -> fst r <> m). { intros r L F. apply L. unfold M_Incr.look. rewrite F, A. reflexivity. }
  destruct (Nat.eq_dec (fst q) m) as [F|F].
  - destruct q as [m' n]. cbn [fst snd] in *. subst m'.
    assert (HL : look ((m, e) :: v) (m, n) = match find_item (e_items Src e) n with Some it => Some (sig_of it) | None => None end) by (unfold M_Incr.look; cbn [assoc fst snd]; rewrite Nat.eqb_refl; reflexivity).
    assert (HH : hash_of ((m, e) :: v) (m, n) = assoc n (e_hashes Src e)) by (unfold M_Incr.hash_of; cbn [assoc fst snd]; rewrite Nat.eqb_refl; reflexivity).
    rewrite HL, HH. clear HL HH.
    set (items := e_items Src e) in *. destruct (find_item items n) as [it|] eqn:FI.
    2: { rewrite EH, compute_none; [exact I|]. intro X. apply find_there in X. destruct X as [it X]. congruence. }
    destruct (find_In _ _ _ FI) as [I EN]. rewrite EH. subst n. rewrite (compute_eqn m items (the_hash v) maxd N C rank R it I).
    assert (XO : forall r, In r (refs (sig_of it)) -> fst r <> m -> hash_of v r <> None).
    { intros r X Y. destruct (resolve (hash_of v) (rows m items)) as [rr|] eqn:E; [|congruence]. apply (resolve_some _ _ _ _ E), rows_In. apply (ext_mentioned m items it r I X Y). }
    split.
    + apply eqn_ext.
      * intros x _ _. unfold cv, M_Incr.the_hash, M_Incr.hash_of. cbn [assoc fst snd]. rewrite Nat.eqb_refl, EH. reflexivity.
      * intros r X. apply ext_ref in X. unfold M_Incr.the_hash. rewrite hash_other by apply X. reflexivity.
    + intros r X. destruct (Nat.eq_dec (fst r) m) as [Y|Y].
      * unfold M_Incr.look. cbn [assoc]. rewrite Y, Nat.eqb_refl. fold items. destruct (proj1 (find_there items (snd r)) (C it r I X Y)) as [it' ->]. discriminate.
      * rewrite look_other by exact Y. apply good_both; [exact G|]. apply XO; assumption.
  - rewrite look_other, hash_other by exact F. pose proof (G q) as Gq. destruct (look v q) as [i|] eqn:L, (hash_of v q) as [h|] eqn:H; try exact Gq. destruct Gq as [E K]. split.
    + rewrite E. apply eqn_ext.
      * intros x X _. unfold M_Incr.the_hash. rewrite hash_other by exact F. reflexivity.
      * intros r X. unfold M_Incr.the_hash. rewrite hash_other; [reflexivity|]. apply NV, K, (proj1 (ext_ref _ _ _ X)).
    + intros r X. rewrite look_other; [apply K, X|apply NV, K, X].
Qed.

(** *** The checker. *)
Hypothesis src_ok : forall a b, src_eqb a b = true -> a = b.
Hypothesis fronts_exact : forall m s, exact (front m s).
Hypothesis fronts_wf : forall m s lk items, run lk (front m s) = Some items -> well_formed m items.
Hypothesis fronts_cover : forall m s lk items q, run lk (front m s) = Some items -> In q (asked lk (front m s)) ->
  exists r, In r (mentioned m items) /\ below lk r q.

Lemma run_same : forall t lk lk' items, exact t -> run lk t = Some items -> (forall q, In q (asked lk t) -> lk' q = lk q) -> run lk' t = Some items.
Proof.
  intros t lk lk' items E. induction E as [|its|q k E IH]; intros R H; cbn [run asked] in *; [exact R|exact R|].
  rewrite (H q (or_introl eq_refl)). destruct (lk q) as [i|]; [|discriminate R]. apply IH; [exact R|]. intros x X. apply H. right. exact X.
Qed.
Lemma compile_inv : forall v m s e, compile v m s = Some e -> run (look v) (front m s) = Some (e_items Src e) /\ e_src Src e = s /\
  resolve (hash_of v) (rows m (e_items Src e)) = Some (e_rows Src e) /\ resolve (mod_hash Src v) (undup Nat.eqb (map fst (rows m (e_items Src e)))) = Some (e_mods Src e) /\
  e_hashes Src e = compute m (e_items Src e) (the_hash v) maxd.
Proof.
  intros v m s e H. unfold M_Incr.compile in H. destruct (run (look v) (front m s)) as [items|] eqn:R; [|discriminate H]. destruct (resolve (hash_of v) _) as [r|] eqn:E1; [|discriminate H]. destruct (resolve (mod_hash Src v) _) as [ms|] eqn:E2; [|discriminate H].
  injection H as <-. cbn [e_items e_src e_rows e_mods e_hashes]. auto.
Qed.
Lemma compile_good : forall v m s e, good v -> assoc m v = None -> compile v m s = Some e -> good ((m, e) :: v).
Proof.
  intros v m s e G A H. apply compile_inv in H. destruct H as (R & _ & E1 & _ & E). apply good_cons; try assumption; [eapply fronts_wf, R|congruence].
Qed.
Definition sim (e e' : entry Src) : Prop := e_src Src e = e_src Src e' /\ e_items Src e = e_items Src e' /\ e_hashes Src e = e_hashes Src e' /\ e_rows Src e = e_rows Src e'.
Lemma is_hash_eq : forall o h, is_hash o h = true -> o = Some h.
Proof. intros [h'|] h H; [|discriminate H]. f_equal. apply h_eqb_eq, H. Qed.
Lemma unzip_eq : forall (a b : list (nat * hash)), map fst a = map fst b -> map snd a = map snd b -> a = b.
Proof. induction a as [|[x y] a IH]; intros [|[x' y'] b] E F; try discriminate; [reflexivity|]. cbn [map fst snd] in *. injection E as -> E. injection F as -> F. f_equal. apply IH; assumption. Qed.
Lemma unchanged_rows : forall v0 v m s e, compile v0 m s = Some e -> unchanged Src v e = true -> forall r, In r (rows m (e_items Src e)) -> hash_of v r = hash_of v0 r.
Proof.
  intros v0 v m s e H U r I. apply compile_inv in H. destruct H as (_ & _ & E1 & E2 & _).
  destruct (resolve_rows _ _ _ _ E1 r I) as (h & Hr & Ir).
  assert (D : In (fst r) (undup Nat.eqb (map fst (rows m (e_items Src e))))) by (apply undup_In; [apply Nat.eqb_eq|apply in_map, I]).
  destruct (resolve_rows _ _ _ _ E2 _ D) as (hd & Hd & Id). unfold unchanged in U. rewrite forallb_forall in U. specialize (U _ Id). cbn [fst snd] in U. apply orb_prop in U. destruct U as [U|U].
  - apply is_hash_eq in U. rewrite <- Hd in U. unfold mod_hash in U. unfold M_Incr.hash_of. destruct (assoc (fst r) v) as [a|], (assoc (fst r) v0) as [b|]; try discriminate U; [|reflexivity]. injection U as U1 U2. rewrite (unzip_eq _ _ U1 U2). reflexivity.
  - apply andb_prop in U. destruct U as [_ U]. rewrite forallb_forall in U. assert (X : In (r, h) (filter (fun x => fst (fst x) =? fst r) (e_rows Src e))) by (apply filter_In; split; [exact Ir|cbn; apply Nat.eqb_refl]).
    specialize (U _ X). cbn [fst snd] in U. apply is_hash_eq in U. congruence.
Qed.
Lemma reuse : forall v0 v m s e, good v0 -> good v -> compile v0 m s = Some e -> unchanged Src v e = true -> exists e', compile v m s = Some e' /\ sim e e'.
Proof.
  intros v0 v m s e G0 G H U. pose proof (unchanged_rows _ _ _ _ _ H U) as UR. pose proof (compile_inv _ _ _ _ H) as (R & S & E1 & E2 & E3).
  assert (R' : run (look v) (front m s) = Some (e_items Src e)).
  { eapply run_same; [apply fronts_exact|exact R|]. intros q Q. destruct (fronts_cover _ _ _ _ _ R Q) as (r & M & B). apply (hash_below v0 v r q G0 G B). symmetry. apply UR, rows_In, M. }
  assert (E1' : resolve (hash_of v) (rows m (e_items Src e)) = Some (e_rows Src e)) by (rewrite <- E1; apply resolve_ext; exact UR).
  assert (E2' : resolve (mod_hash Src v) (undup Nat.eqb (map fst (rows m (e_items Src e)))) <> None).
  { apply resolve_all. intros d D. apply undup_In in D; [|apply Nat.eqb_eq]. apply in_map_iff in D. destruct D as (r & <- & D). pose proof (resolve_some _ _ _ _ E1' r D) as X. unfold M_Incr.hash_of in X. unfold mod_hash. destruct (assoc (fst r) v); [discriminate|congruence]. }
  destruct (resolve (mod_hash Src v) _) as [ms|] eqn:E2''; [|congruence].
  exists (Entry Src s (e_items Src e) (compute m (e_items Src e) (the_hash v) maxd) (e_rows Src e) ms). split.
  - unfold M_Incr.compile. rewrite R', E1', E2''. reflexivity.
  - unfold sim. cbn [e_src e_items e_hashes e_rows]. split; [exact S|]. split; [reflexivity|]. split; [|reflexivity]. rewrite E3. apply compute_ext; [eapply fronts_wf, R|].
    intros it r I X. apply ext_ref in X. unfold M_Incr.the_hash. rewrite UR; [reflexivity|]. apply rows_In, (ext_mentioned m _ it r I); apply X.
Qed.

Definition stored (cache : env) : Prop := forall m e, assoc m cache = Some e -> exists v0, good v0 /\ compile v0 m (e_src Src e) = Some e.
Lemma build_module_cases : forall cache v m s e, build_module Src src_eqb front maxd cache v m s = Some e ->
  compile v m s = Some e \/ (assoc m cache = Some e /\ e_src Src e = s /\ unchanged Src v e = true).
Proof.
  intros cache v m s e H. unfold build_module in H. destruct (assoc m cache) as [e0|]; [|auto]. destruct (src_eqb (e_src Src e0) s && unchanged Src v e0) eqn:B; [|auto]. injection H as <-. apply andb_prop in B. destruct B as [B1 B2]. right. auto.
Qed.
Lemma build_module_sim : forall cache v m s, stored cache -> good v ->
  match build_module Src src_eqb front maxd cache v m s, compile v m s with Some e, Some e' => sim e e' /\ exists v0, good v0 /\ compile v0 m (e_src Src e) = Some e | None, None => True | _, _ => False end.
Proof.
  intros cache v m s ST G. destruct (build_module Src src_eqb front maxd cache v m s) as [e|] eqn:B.
  - apply build_module_cases in B. destruct B as [B|(A & S & U)].
    + rewrite B. split; [unfold sim; auto|]. exists v. split; [exact G|]. rewrite (proj1 (proj2 (compile_inv _ _ _ _ B))). exact B.
    + destruct (ST m e A) as (v0 & G0 & C0). rewrite S in C0. destruct (reuse v0 v m s e G0 G C0 U) as (e' & -> & X). split; [exact X|]. exists v0. rewrite S. auto.
  - unfold build_module in B. destruct (assoc m cache) as [e0|]; [destruct (_ && _); [discriminate B|]|]; rewrite B; exact I.
Qed.
Definition sims (v v' : env) : Prop := Forall2 (fun x y => fst x = fst y /\ sim (snd x) (snd y)) v v'.
Lemma sims_assoc : forall v v' d, sims v v' -> match assoc d v, assoc d v' with Some e, Some e' => sim e e' | None, None => True | _, _ => False end.
Proof. intros v v' d H. induction H as [|[a e] [b e'] v v' [E S] H IH]; [exact I|]. cbn [fst snd] in *. subst b. cbn [assoc]. destruct (a =? d); [exact S|exact IH]. Qed.
Lemma sims_look : forall v v' q, sims v v' -> look v q = look v' q.
Proof. intros v v' q H. unfold M_Incr.look. pose proof (sims_assoc _ _ (fst q) H) as X. destruct (assoc (fst q) v), (assoc (fst q) v'); try contradiction; [|reflexivity]. destruct X as (_ & -> & _). reflexivity. Qed.
Lemma sims_hash : forall v v' q, sims v v' -> hash_of v q = hash_of v' q.
Proof. intros v v' q H. unfold M_Incr.hash_of. pose proof (sims_assoc _ _ (fst q) H) as X. destruct (assoc (fst q) v), (assoc (fst q) v'); try contradiction; [|reflexivity]. destruct X as (_ & _ & -> & _). reflexivity. Qed.
Lemma sims_mod : forall v v' d, sims v v' -> mod_hash Src v d = mod_hash Src v' d.
Proof. intros v v' q H. unfold mod_hash. pose proof (sims_assoc _ _ q H) as X. destruct (assoc q v), (assoc q v'); try contradiction; [|reflexivity]. destruct X as (_ & _ & -> & _). reflexivity. Qed.
Lemma run_ext : forall t lk lk', (forall q, lk q = lk' q) -> run lk t = run lk' t.
Proof. induction t as [|its|q k IH|q k IH]; intros lk lk' H; cbn [run]; [reflexivity|reflexivity| |]; rewrite <- (H q); [destruct (lk q); [apply IH, H|reflexivity]|apply IH, H]. Qed.
Lemma sims_compile : forall v v' m s, sims v v' -> good v -> compile v m s = compile v' m s.
Proof.
  intros v v' m s H G. unfold M_Incr.compile. rewrite (run_ext _ (look v) (look v') (fun q => sims_look v v' q H)). destruct (run (look v') (front m s)) as [items|] eqn:R; [|reflexivity].
  rewrite (resolve_ext _ _ _ _ (fun q _ => sims_hash v v' q H)), (resolve_ext _ _ _ _ (fun q _ => sims_mod v v' q H)). rewrite (compute_ext m items (the_hash v) (the_hash v') maxd); [reflexivity|eapply fronts_wf, R|].
  intros it r _ _. unfold M_Incr.the_hash. rewrite (sims_hash v v' r H). reflexivity.
Qed.
Lemma build_sim : forall cache order v v', stored cache -> NoDup (map fst order) -> (forall m, In m (map fst order) -> assoc m v = None) -> good v -> sims v v' ->
  (forall m e, assoc m v = Some e -> exists v0, good v0 /\ compile v0 m (e_src Src e) = Some e) ->
  let r := build Src src_eqb front maxd cache order v in let r' := build Src src_eqb front maxd [] order v' in
  snd r = snd r' /\ sims (fst r) (fst r') /\ good (fst r) /\ stored (fst r).
Proof.
  intros cache order. induction order as [|[m s] order IH]; intros v v' ST N FR G SM SV; [cbn; auto|]. cbn [build]. cbn [map fst] in N, FR. inversion N as [|? ? N1 N2]; subst.
  pose proof (build_module_sim cache v m s ST G) as B. unfold build_module at 2 4. cbn [assoc]. rewrite (sims_compile v v' m s SM G) in B.
  destruct (build_module Src src_eqb front maxd cache v m s) as [e|], (compile v' m s) as [e'|] eqn:C'; try contradiction; [|cbn; auto].
  destruct B as [SE EX]. apply IH; try assumption.
  - intros d D. cbn [assoc]. destruct (Nat.eqb_spec m d) as [->|]; [contradiction|]. apply FR. right. exact D.
  - rewrite <- (sims_compile v v' m s SM G) in C'. apply compile_inv in C'. destruct C' as (R & _ & E1 & _ & E). destruct SE as (_ & S2 & S3 & _). apply good_cons; [exact G|apply FR; left; reflexivity| | |].
    + rewrite S2. eapply fronts_wf, R.
    + rewrite S2. congruence.
    + rewrite S2, S3. exact E.
  - constructor; [auto|exact SM].
  - intros d e0 A. cbn [assoc] in A. destruct (Nat.eqb_spec m d) as [->|]; [injection A as <-; exact EX|apply SV, A].
Qed.
Lemma history_stored : forall cache, history Src src_eqb front maxd cache -> stored cache.
Proof.
  intros cache H. induction H as [|cache order H IH N]; [intros m e A; discriminate A|].
  destruct (build_sim cache order [] [] IH N ltac:(reflexivity) good_nil ltac:(constructor) ltac:(discriminate)) as (_ & _ & _ & S).
  intros m e A. destruct (assoc m (fst (build Src src_eqb front maxd cache order []))) as [e0|] eqn:A0.
  - apply S. rewrite A0. rewrite <- A. clear - A0. induction (fst (build _ _ _ _ _ _ _)) as [|[k x] l IHl]; [discriminate A0|]. cbn [assoc app] in *. destruct (k =? m); [symmetry; exact A0|]. apply IHl, A0.
  - apply IH. rewrite <- A. clear - A0. induction (fst (build _ _ _ _ _ _ _)) as [|[k x] l IHl]; [reflexivity|]. cbn [assoc app] in *. destruct (k =? m); [discriminate A0|]. apply IHl, A0.
Qed.
Lemma incremental : forall cache order, history Src src_eqb front maxd cache -> NoDup (map fst order) ->
  let r := build Src src_eqb front maxd cache order [] in let r' := build Src src_eqb front maxd [] order [] in
  snd r = snd r' /\ sims (fst r) (fst r') /\ good (fst r).
Proof.
  intros cache order H N. destruct (build_sim cache order [] [] (history_stored cache H) N ltac:(reflexivity) good_nil ltac:(constructor) ltac:(discriminate)) as (A & B & C & _). auto.
Qed.
End Build.

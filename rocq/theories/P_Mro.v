(** Merging orders. *)
From Coq Require Import List Arith Bool Lia.
From Verif Require Import S_Mro M_Mro.
Import ListNotations.

Lemma ty_eqb_eq : forall a b, ty_eqb a b = true <-> a = b.
Proof.
  induction a as [v|c|t IHt u IHu]; intros [w|d|t' u']; cbn [ty_eqb]; split; intro H; try discriminate H.
  - apply Nat.eqb_eq in H. congruence.
  - injection H as ->. apply Nat.eqb_refl.
  - apply Nat.eqb_eq in H. congruence.
  - injection H as ->. apply Nat.eqb_refl.
  - apply andb_prop in H. destruct H as [H1 H2]. apply IHt in H1. apply IHu in H2. congruence.
  - injection H as -> ->. apply andb_true_intro. split; [apply IHt|apply IHu]; reflexivity.
Qed.
Lemma tys_eqb_eq : forall a b, tys_eqb a b = true <-> a = b.
Proof.
  induction a as [|t a IH]; intros [|u b]; cbn [tys_eqb]; split; intro H; try discriminate H; try reflexivity.
  - apply andb_prop in H. destruct H as [H1 H2]. apply ty_eqb_eq in H1. apply IH in H2. congruence.
  - injection H as -> ->. apply andb_true_intro. split; [apply ty_eqb_eq|apply IH]; reflexivity.
Qed.
Lemma tcon_eq : forall a b, tcname a = tcname b -> tcargs a = tcargs b -> a = b.
Proof. intros [n a] [m b] H1 H2. cbn in *. congruence. Qed.

(** *** Sublists. *)
Section Sub.
Context {X : Type}.
Implicit Types l : list X.
Lemma sub_nil_l : forall l, sublist [] l.
Proof. induction l; constructor; assumption. Qed.
Lemma sub_refl : forall l, sublist l l.
Proof. induction l; [constructor|apply sub_keep; assumption]. Qed.
Lemma sub_tail : forall x l1 l2, sublist (x :: l1) l2 -> sublist l1 l2.
Proof. intros x l1 l2. induction l2 as [|y l2 IH]; intro H; inversion H; subst; [apply sub_skip; auto|apply sub_skip; assumption]. Qed.
Lemma sub_in : forall l1 l2 x, sublist l1 l2 -> In x l1 -> In x l2.
Proof. induction 1; intro I; [exact I|right; auto|destruct I as [->|I]; [left; reflexivity|right; auto]]. Qed.
Lemma sub_trans : forall l2 l3, sublist l2 l3 -> forall l1, sublist l1 l2 -> sublist l1 l3.
Proof.
  induction 1 as [|x l2 l3 H IH|x l2 l3 H IH]; intros l1 K; [exact K|apply sub_skip; auto|]. inversion K; subst; [apply sub_skip; auto|apply sub_keep; auto].
Qed.
Lemma sub_before : forall l1 l2 x y, sublist l1 l2 -> before x y l1 -> before x y l2.
Proof.
  intros l1 l2 x y H. induction H as [|z l1 l2 H IH|z l1 l2 H IH]; intros (a & b & c & E).
  - destruct a; discriminate E.
  - destruct (IH (ex_intro _ a (ex_intro _ b (ex_intro _ c E)))) as (a' & b' & c' & ->). exists (z :: a'), b', c'. reflexivity.
  - destruct a as [|a0 a]; cbn [app] in E; injection E as -> E.
    + assert (I : In y l2) by (apply (sub_in l1 l2); [exact H|]; rewrite E; apply in_or_app; right; left; reflexivity).
      apply in_split in I. destruct I as (p & q & ->). exists [], p, q. reflexivity.
    + destruct (IH (ex_intro _ a (ex_intro _ b (ex_intro _ c E)))) as (a' & b' & c' & ->). exists (a0 :: a'), b', c'. reflexivity.
Qed.
Lemma sub_nodup : forall l1 l2, sublist l1 l2 -> NoDup l2 -> NoDup l1.
Proof.
  induction 1 as [|z l1 l2 H IH|z l1 l2 H IH]; intro N; [exact N|inversion N; auto|]. inversion N as [|? ? N1 N2]; subst. constructor; [|auto]. intro I. apply N1. apply (sub_in _ _ _ H I).
Qed.
Lemma before_cons : forall x y l, In y l -> before x y (x :: l).
Proof. intros x y l I. apply in_split in I. destruct I as (p & q & ->). exists [], p, q. reflexivity. Qed.
Lemma before_skip : forall z x y l, before x y l -> before x y (z :: l).
Proof. intros z x y l (a & b & c & ->). exists (z :: a), b, c. reflexivity. Qed.
End Sub.
Lemma sub_map : forall X Y (f : X -> Y) l1 l2, sublist l1 l2 -> sublist (map f l1) (map f l2).
Proof. induction 1; [constructor|apply sub_skip; assumption|apply sub_keep; assumption]. Qed.
Lemma before_map : forall X Y (f : X -> Y) x y l, before x y l -> before (f x) (f y) (map f l).
Proof. intros X Y f x y l (a & b & c & ->). exists (map f a), (map f b), (map f c). rewrite map_app. cbn [map]. rewrite map_app. reflexivity. Qed.

(** *** One round. *)
Lemma heads_eq : forall ls, heads ls = map (fun l => match l with h :: t => (h, t) | [] => (([], TC 0 []), []) end) (filter (fun l => match l with [] => false | _ => true end) ls).
Proof. induction ls as [|[|h t] ls IH]; [reflexivity|exact IH|]. cbn. rewrite IH. reflexivity. Qed.
Lemma in_heads : forall ls h t, In (h, t) (heads ls) <-> In (h :: t) ls.
Proof.
  induction ls as [|[|h' t'] ls IH]; intros h t; cbn [heads In]; [tauto| |].
  - rewrite IH. split; [tauto|]. intros [E|I]; [discriminate E|exact I].
  - rewrite IH. split; (intros [E|I]; [left; congruence|right; exact I]).
Qed.
Lemma heads_nil : forall ls, heads ls = [] -> Forall (fun l => l = []) ls.
Proof. induction ls as [|[|h t] ls IH]; intro H; [constructor|constructor; auto|discriminate H]. Qed.
Lemma absent_spec : forall h us, absent h us = true <-> ~ In (wname h) (map wname us).
Proof.
  intros h us. unfold absent. rewrite negb_true_iff. split.
  - intros H I. apply in_map_iff in I. destruct I as (x & E & I). assert (existsb (fun x => wname h =? wname x) us = true) by (apply existsb_exists; exists x; split; [exact I|apply Nat.eqb_eq; congruence]). congruence.
  - intro H. destruct (existsb _ us) eqn:E; [|reflexivity]. apply existsb_exists in E. destruct E as (x & I & E). exfalso. apply H. apply Nat.eqb_eq in E. rewrite E. apply in_map. exact I.
Qed.
Lemma equal_true : forall x y, equal x y = Some true <-> snd x = snd y.
Proof.
  intros x y. unfold equal, wname. destruct (Nat.eqb_spec (tcname (snd x)) (tcname (snd y))) as [N|N].
  - destruct (tys_eqb _ _) eqn:E; split; intro H; try reflexivity; try discriminate H.
    + apply tys_eqb_eq in E. apply tcon_eq; assumption.
    + exfalso. assert (K : tys_eqb (tcargs (snd x)) (tcargs (snd y)) = true) by (apply tys_eqb_eq; congruence). congruence.
  - split; intro H; [discriminate H|congruence].
Qed.
Lemma equal_false : forall x y, equal x y = Some false <-> wname x <> wname y.
Proof.
  intros x y. unfold equal. destruct (Nat.eqb_spec (wname x) (wname y)) as [N|N]; [destruct (tys_eqb _ _)|]; split; intro H; try discriminate H; try contradiction; [exact N|reflexivity].
Qed.
(** The lists after a round: those that begin with the head lose it. *)
Definition rest (h : wtcon) (ht : wtcon * list wtcon) (l : list wtcon) : Prop :=
  (snd (fst ht) = snd h /\ l = snd ht) \/ (wname (fst ht) <> wname h /\ l = fst ht :: snd ht).
Lemma strike_spec : forall h hts ls, strike h hts = Some ls -> Forall2 (rest h) hts ls.
Proof.
  induction hts as [|[hd tl] hts IH]; intros ls H; cbn [strike] in H; [injection H as <-; constructor|]. destruct (equal hd h) as [[|]|] eqn:E; [| |discriminate H]; (destruct (strike h hts) as [ls'|]; [|discriminate H]); injection H as <-; constructor; auto.
  - left. split; [apply equal_true, E|reflexivity].
  - right. split; [apply equal_false, E|reflexivity].
Qed.
Lemma good_spec : forall hts h r, filter (fun h => forallb (absent h) (map snd hts)) (map fst hts) = h :: r ->
  (exists t, In (h, t) hts) /\ forall hd tl, In (hd, tl) hts -> ~ In (wname h) (map wname tl).
Proof.
  intros hts h r H. assert (I : In h (filter (fun h => forallb (absent h) (map snd hts)) (map fst hts))) by (rewrite H; left; reflexivity).
  apply filter_In in I. destruct I as [I1 I2]. split.
  - apply in_map_iff in I1. destruct I1 as ([h' t] & E & I1). cbn in E. subst h'. exists t. exact I1.
  - intros hd tl I. rewrite forallb_forall in I2. apply absent_spec, I2. apply in_map_iff. exists (hd, tl). split; [reflexivity|exact I].
Qed.

Lemma merge_out : forall n ls out, merge n out ls = match merge n [] ls with Some r => Some (rev out ++ r) | None => None end.
Proof.
  induction n as [|n IH]; intros ls out; cbn [merge]; destruct (heads ls) as [|ht hts]; cbn [rev]; try rewrite app_nil_r; try reflexivity.
  destruct (filter _ _) as [|h r]; [reflexivity|]. destruct (strike h (ht :: hts)) as [ls'|]; [|reflexivity]. rewrite (IH ls' (h :: out)), (IH ls' [h]). destruct (merge n [] ls'); [|reflexivity]. cbn [rev app]. rewrite <- app_assoc. reflexivity.
Qed.
(** One round of a merge that succeeds. *)
Lemma merge_step : forall n ls out, merge n [] ls = Some out ->
  (out = [] /\ Forall (fun l => l = []) ls) \/
  exists m h r ls', n = S m /\ out = h :: r /\ merge m [] ls' = Some r /\ (exists t, In (h :: t) ls) /\ (forall hd tl, In (hd :: tl) ls -> ~ In (wname h) (map wname tl)) /\ Forall2 (rest h) (heads ls) ls'.
Proof.
  intros n ls out H. assert (E : merge n [] ls = match heads ls with [] => Some [] | hts => match n with O => None | S n => match filter (fun h => forallb (absent h) (map snd hts)) (map fst hts) with h :: _ => match strike h hts with Some ls' => merge n [h] ls' | None => None end | [] => None end end end) by (destruct n; reflexivity).
  rewrite E in H. clear E. destruct (heads ls) as [|ht hts] eqn:HS; cbv zeta in H.
  - left. injection H as <-. split; [reflexivity|apply heads_nil, HS].
  - right. destruct n as [|m]; [discriminate H|]. destruct (filter _ _) as [|h r] eqn:G; [discriminate H|]. destruct (strike h (ht :: hts)) as [ls'|] eqn:S; [|discriminate H]. rewrite merge_out in H. destruct (merge m [] ls') as [r'|] eqn:M; [|discriminate H]. injection H as <-.
    apply good_spec in G. destruct G as [[t G1] G2]. exists m, h, r', ls'. split; [reflexivity|]. split; [reflexivity|]. split; [exact M|]. split; [exists t; apply in_heads; rewrite HS; exact G1|]. split; [intros hd tl I; apply (G2 hd); rewrite <- HS; apply in_heads, I|apply strike_spec, S].
Qed.
Lemma rest_heads : forall h ls ls', Forall2 (rest h) (heads ls) ls' -> forall hd tl, In (hd :: tl) ls -> exists l, In l ls' /\ rest h (hd, tl) l.
Proof.
  intros h ls ls' H hd tl I. apply in_heads in I. remember (heads ls) as hts eqn:E. clear E ls. induction H as [|ht l hts ls' R H IH]; [destruct I|]. destruct I as [->|I]; [exists l; split; [left; reflexivity|exact R]|]. destruct (IH I) as (l' & I' & R'). exists l'. split; [right; exact I'|exact R'].
Qed.
Lemma rest_back : forall h ls ls', Forall2 (rest h) (heads ls) ls' -> forall l, In l ls' -> exists hd tl, In (hd :: tl) ls /\ rest h (hd, tl) l.
Proof.
  intros h ls ls' H l I. assert (exists ht, In ht (heads ls) /\ rest h ht l) as ([hd tl] & I' & R).
  { induction H as [|ht l' hts ls' R H IH]; [destruct I|]. destruct I as [->|I]; [exists ht; split; [left; reflexivity|exact R]|]. destruct (IH I) as (ht' & I' & R'). exists ht'. split; [right; exact I'|exact R']. }
  exists hd, tl. split; [apply in_heads, I'|exact R].
Qed.

(** *** What comes out. *)
Lemma merge_from : forall n ls out x, merge n [] ls = Some out -> In x out -> exists l, In l ls /\ In x l.
Proof.
  induction n as [|n IH]; intros ls out x H I; destruct (merge_step _ _ _ H) as [[-> _]|(m & h & r & ls' & N & -> & M & (t & HT) & _ & R)]; try destruct I; try discriminate N; injection N as <-.
  - subst x. exists (h :: t). split; [exact HT|left; reflexivity].
  - destruct (IH _ _ _ M H0) as (l & L1 & L2). destruct (rest_back _ _ _ R l L1) as (hd & tl & K & [[_ E]|[_ E]]); cbn in E; subst l; exists (hd :: tl); (split; [exact K|]); [right; exact L2|exact L2].
Qed.
Lemma merge_sub : forall n ls out, merge n [] ls = Some out -> forall l, In l ls -> sublist (map snd l) (map snd out).
Proof.
  induction n as [|n IH]; intros ls out H l I; destruct (merge_step _ _ _ H) as [[-> E]|(m & h & r & ls' & N & -> & M & _ & _ & R)]; try discriminate N; try (rewrite Forall_forall in E; rewrite (E l I); constructor). injection N as <-.
  destruct l as [|hd tl]; [apply sub_nil_l|]. destruct (rest_heads _ _ _ R hd tl I) as (l & L1 & [[E1 E2]|[_ E2]]); cbn in *; subst l.
  - rewrite E1. apply sub_keep. apply (IH _ _ M tl L1).
  - apply sub_skip. apply (IH _ _ M (hd :: tl) L1).
Qed.
Lemma merge_nodup : forall n ls out, merge n [] ls = Some out -> NoDup (map wname out).
Proof.
  induction n as [|n IH]; intros ls out H; destruct (merge_step _ _ _ H) as [[-> E]|(m & h & r & ls' & N & -> & M & _ & G & R)]; try discriminate N; try constructor; injection N as <-; [|apply (IH _ _ M)].
  intro I. apply in_map_iff in I. destruct I as (x & E & I). destruct (merge_from _ _ _ _ M I) as (l & L1 & L2). destruct (rest_back _ _ _ R l L1) as (hd & tl & K & [[_ E2]|[NE E2]]); cbn in *; subst l.
  - apply (G hd tl K). rewrite <- E. apply in_map. exact L2.
  - destruct L2 as [->|L2]; [congruence|]. apply (G hd tl K). rewrite <- E. apply in_map. exact L2.
Qed.

(** *** A merge fails only if there is no order. *)
Lemma good_exists : forall (L : list tcon) (hts : list (wtcon * list wtcon)), NoDup (map tcname L) -> hts <> [] ->
  (forall h t, In (h, t) hts -> sublist (map snd (h :: t)) L) -> exists h t, In (h, t) hts /\ forall hd tl, In (hd, tl) hts -> ~ In (wname h) (map wname tl).
Proof.
  induction L as [|x L IH]; intros hts N NE H.
  - destruct hts as [|[h t] hts]; [contradiction|]. specialize (H h t (or_introl eq_refl)). inversion H.
  - inversion N as [|? ? N1 N2]; subst. destruct (existsb (fun ht => tcname (snd (fst ht)) =? tcname x) hts) eqn:E.
    + apply existsb_exists in E. destruct E as ([h t] & I & E). cbn in E. apply Nat.eqb_eq in E. exists h, t. split; [exact I|]. intros hd tl K J. unfold wname at 1 in J. rewrite E in J. apply N1. apply in_map_iff in J. destruct J as (y & Y1 & Y2). rewrite <- Y1. unfold wname. apply in_map.
      assert (S : sublist (map snd tl) L) by (specialize (H hd tl K); cbn [map] in H; inversion H; subst; [eapply sub_tail; eassumption|assumption]). apply (sub_in _ _ _ S). apply in_map. exact Y2.
    + apply IH; [exact N2|exact NE|]. intros h t I. specialize (H h t I). cbn [map] in *. inversion H as [|? ? ? H1|? ? ? H1]; subst; [exact H1|]. exfalso. assert (K : existsb (fun ht => tcname (snd (fst ht)) =? tcname (snd h)) hts = true) by (apply existsb_exists; exists (h, t); split; [exact I|apply Nat.eqb_refl]). congruence.
Qed.
Lemma strike_some : forall h hts, (forall hd tl, In (hd, tl) hts -> wname hd = wname h -> snd hd = snd h) -> exists ls, strike h hts = Some ls.
Proof.
  induction hts as [|[hd tl] hts IH]; intro H; [exists []; reflexivity|]. destruct IH as [ls E]; [intros; eapply H; [right; eassumption|assumption]|]. cbn [strike]. rewrite E. destruct (Nat.eq_dec (wname hd) (wname h)) as [Q|Q].
  - rewrite (proj2 (equal_true hd h) (H hd tl (or_introl eq_refl) Q)). eexists. reflexivity.
  - rewrite (proj2 (equal_false hd h) Q). eexists. reflexivity.
Qed.
Lemma name_unique : forall (L : list tcon) a b, NoDup (map tcname L) -> In a L -> In b L -> tcname a = tcname b -> a = b.
Proof.
  induction L as [|x L IH]; intros a b N I J E; [destruct I|]. inversion N as [|? ? N1 N2]; subst. destruct I as [->|I], J as [->|J]; [reflexivity| | |apply IH; assumption].
  - exfalso. apply N1. rewrite E. apply in_map. exact J.
  - exfalso. apply N1. rewrite <- E. apply in_map. exact I.
Qed.
Lemma rest_length : forall h hts (ls : list (list wtcon)), Forall2 (rest h) hts ls -> (length (concat ls) <= length (concat (map (fun ht => fst ht :: snd ht) hts)))%nat /\
  ((exists t, In (h, t) hts) -> (length (concat ls) < length (concat (map (fun ht => fst ht :: snd ht) hts)))%nat).
Proof.
  induction 1 as [|[hd tl] l hts ls R H [IH1 IH2]]; [split; [cbn; lia|intros [t []]]|]. cbn [map concat fst snd]. rewrite !app_length. destruct R as [[E ->]|[E ->]]; cbn [fst snd length] in *; split; try lia.
  intros [t [I|I]]; [injection I as -> _; contradiction|]. specialize (IH2 (ex_intro _ t I)). lia.
Qed.
Lemma heads_length : forall (ls : list (list wtcon)), length (concat (map (fun ht : wtcon * list wtcon => fst ht :: snd ht) (heads ls))) = length (concat ls).
Proof. induction ls as [|[|h t] ls IH]; [reflexivity|exact IH|]. cbn [heads map concat fst snd]. rewrite !app_length, IH. reflexivity. Qed.
Lemma merge_some : forall n (ls : list (list wtcon)) L, (length (concat ls) <= n)%nat -> NoDup (map tcname L) -> (forall l, In l ls -> sublist (map snd l) L) -> exists out, merge n [] ls = Some out.
Proof.
  induction n as [|n IH]; intros ls L N ND H; cbn [merge]; destruct (heads ls) as [|ht hts] eqn:HS; try (eexists; reflexivity).
  - exfalso. pose proof (heads_length ls) as K. rewrite HS in K. rewrite <- K in N. destruct ht as [h t]. cbn in N. lia.
  - assert (HT : forall h t, In (h, t) (ht :: hts) -> sublist (map snd (h :: t)) L) by (intros h t I; apply H, in_heads; rewrite HS; exact I).
    destruct (good_exists L (ht :: hts) ND ltac:(discriminate) HT) as (h0 & t0 & I0 & G0).
    destruct (filter _ _) as [|h r] eqn:F.
    { exfalso. assert (K : In h0 (filter (fun h => forallb (absent h) (map snd (ht :: hts))) (map fst (ht :: hts)))).
      { apply filter_In. split; [apply in_map_iff; exists (h0, t0); split; [reflexivity|exact I0]|]. apply forallb_forall. intros tl TL. apply in_map_iff in TL. destruct TL as ([hd tl'] & E & TL). cbn in E. subst tl'. apply absent_spec. apply (G0 hd tl TL). }
      rewrite F in K. destruct K. }
    apply good_spec in F. destruct F as [[t G1] G2].
    destruct (strike_some h (ht :: hts)) as [ls' S].
    { intros hd tl I E. apply (name_unique L); [exact ND| | |exact E]; eapply sub_in; [apply (HT _ _ I)|left; reflexivity|apply (HT _ _ G1)|left; reflexivity]. }
    rewrite S, merge_out. apply strike_spec in S. destruct (rest_length _ _ _ S) as [_ LT]. specialize (LT (ex_intro _ t G1)). rewrite <- HS, heads_length in LT.
    destruct (IH ls' L ltac:(lia) ND) as [r' E]; [|rewrite E; eexists; reflexivity].
    intros l I. rewrite <- HS in S. destruct (rest_back _ _ _ S l I) as (hd & tl & K & [[_ E]|[_ E]]); cbn in E; subst l; specialize (H _ K); [apply (sub_tail _ _ _ H)|exact H].
Qed.

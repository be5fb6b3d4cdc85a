(** Incremental builds: proofs. *)
From Coq Require Import List Arith Bool Lia.
From Verif Require Import S_Incr M_Incr.
Import ListNotations.

(** ** Equality. *)
Lemma q_eqb_eq : forall a b, q_eqb a b = true <-> a = b.
Proof.
  intros [a1 a2] [b1 b2]. unfold q_eqb. cbn [fst snd]. rewrite andb_true_iff, !Nat.eqb_eq. split; [intros [-> ->]; reflexivity|intro E; injection E; auto].
Qed.
Lemma l_eqb_eq : forall A (e : A -> A -> bool) a, (forall x, In x a -> forall y, e x y = true -> x = y) -> forall b, l_eqb e a b = true -> a = b.
Proof.
  intros A e. induction a as [|x a IH]; intros H [|y b] E; try discriminate E; [reflexivity|]. cbn in E. apply andb_prop in E. destruct E as [E1 E2].
  f_equal; [apply (H x (or_introl eq_refl)), E1|]. apply IH; [intros z Z; apply H; right; exact Z|exact E2].
Qed.
Lemma i_eqb_eq : forall a b, i_eqb a b = true -> a = b.
Proof.
  intros [t r] [t' r'] E. unfold i_eqb in E. cbn [text refs] in E. apply andb_prop in E. destruct E as [E1 E2]. apply Nat.eqb_eq in E1. apply l_eqb_eq in E2; [congruence|]. intros x _ y. apply q_eqb_eq.
Qed.
Lemma hash_ind' : forall P : hash -> Prop, (forall t is ns ds, (forall d, In d ds -> P d) -> P (Hash t is ns ds)) -> forall h, P h.
Proof.
  intros P H. fix IH 1. intros [t is ns ds]. apply H. induction ds as [|d ds IHd]; intros x X; [destruct X|]. destruct X as [<-|X]; [apply IH|apply IHd, X].
Qed.
Lemma h_eqb_eq : forall a b, h_eqb a b = true -> a = b.
Proof.
  induction a as [t is ns ds IH] using hash_ind'. intros [t' is' ns' ds'] E. cbn [h_eqb] in E. apply andb_prop in E. destruct E as [E E4]. apply andb_prop in E. destruct E as [E E3]. apply andb_prop in E. destruct E as [E1 E2].
  apply Nat.eqb_eq in E1. apply l_eqb_eq in E2; [|intros x _ y; apply i_eqb_eq]. apply l_eqb_eq in E3; [|intros x _ y; apply Nat.eqb_eq]. apply l_eqb_eq in E4; [|exact IH]. congruence.
Qed.
Lemma memb_In : forall n l, memb n l = true <-> In n l.
Proof. intros n l. unfold memb. rewrite existsb_exists. split; [intros (x & X & E); apply Nat.eqb_eq in E; subst; exact X|intro X; exists n; rewrite Nat.eqb_refl; auto]. Qed.
Lemma undup_In : forall A (e : A -> A -> bool), (forall a b, e a b = true <-> a = b) -> forall l x, In x (undup e l) <-> In x l.
Proof.
  intros A e H. induction l as [|a l IH]; intro x; [tauto|]. cbn [undup In]. rewrite filter_In, IH. split; [tauto|]. intros [E|X]; [left; exact E|].
  destruct (e a x) eqn:E; [left; apply H, E|right; split; [exact X|]]. try rewrite E; try reflexivity.
Qed.
Lemma map_same : forall A B (f g : A -> B) l, map f l = map g l -> forall x, In x l -> f x = g x.
Proof. intros A B f g. induction l as [|a l IH]; intros E x X; [destruct X|]. cbn [map] in E. injection E as E1 E2. destruct X as [<-|X]; [exact E1|apply IH; assumption]. Qed.
Lemma app_same : forall A (a a' b b' : list A), length a = length a' -> a ++ b = a' ++ b' -> a = a' /\ b = b'.
Proof. intros A. induction a as [|x a IH]; intros [|y a'] b b' L E; try discriminate L; [auto|]. cbn [app] in E. injection E as -> E. injection L as L. destruct (IH _ _ _ L E) as [-> ->]. auto. Qed.

(** ** What the hash of a name has to be. *)
Definition ls (m : nat) (i : info) : list nat := map snd (filter (fun r => fst r =? m) (refs i)).
Definition eqn (lh : nat -> hash) (eh : qname -> hash) (m n : nat) (i : info) : hash :=
  if memb n (ls m i)
  then HMember i (HGroup [i] (map lh (undup Nat.eqb (filter (fun d => negb (memb d [n])) (ls m i))) ++ map eh (undup q_eqb (externals m i)))) n
  else HSelf i (map lh (ls m i) ++ map eh (externals m i)).
Lemma ls_In : forall m i r, In r (refs i) -> fst r = m -> In (snd r) (ls m i).
Proof. intros m i r H E. unfold ls. apply in_map, filter_In. split; [exact H|apply Nat.eqb_eq, E]. Qed.
Lemma ls_ref : forall m i n, In n (ls m i) -> In (m, n) (refs i).
Proof. intros m i n H. unfold ls in H. apply in_map_iff in H. destruct H as ([a b] & E & H). apply filter_In in H. destruct H as [H1 H2]. apply Nat.eqb_eq in H2. cbn in *. subst. exact H1. Qed.
Lemma ext_In : forall m i r, In r (refs i) -> fst r <> m -> In r (externals m i).
Proof. intros m i r H N. apply filter_In. split; [exact H|]. apply negb_true_iff, Nat.eqb_neq, N. Qed.
Lemma ext_ref : forall m i r, In r (externals m i) -> In r (refs i) /\ fst r <> m.
Proof. intros m i r H. apply filter_In in H. destruct H as [H1 H2]. split; [exact H1|]. apply Nat.eqb_neq, negb_true_iff, H2. Qed.
Lemma eqn_info : forall lh eh lh' eh' m n i i', eqn lh eh m n i = eqn lh' eh' m n i' -> i = i'.
Proof. intros lh eh lh' eh' m n i i' E. unfold eqn in E. destruct (memb n (ls m i)), (memb n (ls m i')); injection E; auto; discriminate. Qed.
Lemma eqn_refs : forall lh eh lh' eh' m n i, eqn lh eh m n i = eqn lh' eh' m n i ->
  (forall x, In x (ls m i) -> x <> n -> lh x = lh' x) /\ (forall r, In r (externals m i) -> eh r = eh' r).
Proof.
  intros lh eh lh' eh' m n i E. unfold eqn in E. destruct (memb n (ls m i)).
  - injection E as E. apply app_same in E; [|rewrite !map_length; reflexivity]. destruct E as [E1 E2]. split.
    + intros x X N. apply (map_same _ _ _ _ _ E1), undup_In; [apply Nat.eqb_eq|]. apply filter_In. split; [exact X|]. cbn. rewrite (proj2 (Nat.eqb_neq x n) N). reflexivity.
    + intros r R. apply (map_same _ _ _ _ _ E2), undup_In; [apply q_eqb_eq|exact R].
  - injection E as E. apply app_same in E; [|rewrite !map_length; reflexivity]. destruct E as [E1 E2]. split.
    + intros x X _. apply (map_same _ _ _ _ _ E1), X.
    + intros r R. apply (map_same _ _ _ _ _ E2), R.
Qed.
Lemma eqn_ext : forall lh eh lh' eh' m n i, (forall x, In x (ls m i) -> memb n (ls m i) = false \/ x <> n -> lh x = lh' x) -> (forall r, In r (externals m i) -> eh r = eh' r) -> eqn lh eh m n i = eqn lh' eh' m n i.
Proof.
  intros lh eh lh' eh' m n i L E. unfold eqn. destruct (memb n (ls m i)).
  - rewrite (map_ext_in lh lh'), (map_ext_in eh eh'); [reflexivity| |].
    + intros x X. apply undup_In in X; [|apply q_eqb_eq]. apply E, X.
    + intros x X. apply undup_In in X; [|apply Nat.eqb_eq]. apply filter_In in X. destruct X as [X1 X2]. apply L; [exact X1|]. right. intros ->. cbn in X2. rewrite Nat.eqb_refl in X2. discriminate X2.
  - rewrite (map_ext_in lh lh'), (map_ext_in eh eh'); [reflexivity| |].
    + exact E.
    + intros x X. apply L; auto.
Qed.

(** ** computeHashes. *)
Section Compute.
Variables (m : nat) (items : list item) (ext : qname -> hash) (maxd : nat).
Hypothesis nodup : NoDup (map name_of items).
Hypothesis closed : forall it r, In it items -> In r (refs (sig_of it)) -> fst r = m -> In (snd r) (map name_of items).
Lemma find_In : forall n it, find_item items n = Some it -> In it items /\ name_of it = n.
Proof. intros n it H. apply find_some in H. destruct H as [H E]. apply Nat.eqb_eq in E. auto. Qed.
Lemma find_there : forall n, In n (names items) <-> exists it, find_item items n = Some it.
Proof.
  intro n. split.
  - intro H. destruct (find_item items n) as [it|] eqn:E; [eauto|]. unfold names in H. apply in_map_iff in H. destruct H as (it & N & H). pose proof (find_none _ _ E it H) as F. cbn in F. apply Nat.eqb_neq in F. congruence.
  - intros (it & H). apply find_In in H. destruct H as [H <-]. apply in_map, H.
Qed.
Lemma locals_ls : forall it, In it items -> locals m items (sig_of it) = ls m (sig_of it).
Proof.
  intros it H. unfold locals, ls. f_equal. apply filter_ext_in. intros r R. destruct (Nat.eqb_spec (fst r) m) as [E|]; [|reflexivity]. cbn [andb]. apply memb_In, (closed it r H R E).
Qed.
Lemma local_there : forall it l, In it items -> In l (ls m (sig_of it)) -> exists it', find_item items l = Some it'.
Proof. intros it l H L. apply find_there. apply ls_ref in L. exact (closed it _ H L eq_refl). Qed.

Definition inv (acc : list (nat * hash)) : Prop := forall n h, assoc n acc = Some h -> exists it, find_item items n = Some it /\
  ~ In n (ls m (sig_of it)) /\ h = HSelf (sig_of it) (map (local_hash items acc) (ls m (sig_of it)) ++ map ext (externals m (sig_of it))) /\
  forall l, In l (ls m (sig_of it)) -> assoc l acc <> None.
Definition extends (a b : list (nat * hash)) : Prop := forall n h, assoc n a = Some h -> assoc n b = Some h.
Lemma extends_refl : forall a, extends a a.
Proof. intros a n h H. exact H. Qed.
Lemma extends_trans : forall a b c, extends a b -> extends b c -> extends a c.
Proof. intros a b c H G n h E. apply G, H, E. Qed.
Lemma extends_some : forall a b n, extends a b -> assoc n a <> None -> assoc n b <> None.
Proof. intros a b n H G. destruct (assoc n a) as [h|] eqn:E; [|contradiction]. rewrite (H _ _ E). discriminate. Qed.
Lemma extends_hash : forall a b n, extends a b -> assoc n a <> None -> local_hash items b n = local_hash items a n.
Proof. intros a b n H G. unfold local_hash. destruct (assoc n a) as [h|] eqn:E; [|contradiction]. rewrite (H _ _ E). reflexivity. Qed.
Definition step_ok (vis : list nat) (a a' : list (nat * hash)) : Prop :=
  inv a' /\ extends a a' /\ forall v, In v vis -> assoc v a = None -> assoc v a' = None.
Lemma visit_ok : forall f vis acc n a, inv acc -> visit m items ext f vis acc n = Some a ->
  step_ok vis acc a /\ ((exists it, find_item items n = Some it) -> assoc n a <> None) /\ (In n vis -> assoc n acc = None -> find_item items n = None).
Proof.
  induction f as [|f IH]; intros vis acc n a I V.
  { cbn [visit] in V. destruct (assoc n acc) as [h|] eqn:A.
    - injection V as <-. split; [split; [exact I|split; [apply extends_refl|auto]]|]. split; [intros _; congruence|discriminate].
    - destruct (find_item items n) as [it|] eqn:F; [discriminate V|]. injection V as <-. split; [split; [exact I|split; [apply extends_refl|auto]]|]. split; [intros (it & E); discriminate E|auto]. }
  cbn [visit] in V. destruct (assoc n acc) as [h|] eqn:A.
  { injection V as <-. split; [split; [exact I|split; [apply extends_refl|auto]]|]. split; [intros _; congruence|discriminate]. }
  destruct (find_item items n) as [it|] eqn:F.
  2: { injection V as <-. split; [split; [exact I|split; [apply extends_refl|auto]]|]. split; [intros (it & E); discriminate E|auto]. }
  destruct (memb n vis) eqn:M; [discriminate V|]. destruct (find_In _ _ F) as [FI FN]. rewrite (locals_ls it FI) in V.
  assert (loop : forall l acc a, inv acc -> fold_left (fun a l => match a with Some a => visit m items ext f (n :: vis) a l | None => None end) l (Some acc) = Some a ->
    step_ok (n :: vis) acc a /\ (forall x, In x l -> (exists it, find_item items x = Some it) -> assoc x a <> None) /\ (In n l -> assoc n acc = None -> find_item items n = None)).
  { clear - IH. induction l as [|x l IHl]; intros acc a I H; cbn [fold_left] in H.
    - injection H as <-. split; [split; [exact I|split; [apply extends_refl|auto]]|]. split; [intros x X; destruct X|intro X; destruct X].
    - destruct (visit m items ext f (n :: vis) acc x) as [b|] eqn:V.
      2: { exfalso. clear - H. induction l as [|y l IHl]; [discriminate H|apply IHl, H]. }
      destruct (IH _ _ _ _ I V) as ((I1 & E1 & K1) & T1 & N1). destruct (IHl _ _ I1 H) as ((I2 & E2 & K2) & T2 & N2). split; [split; [exact I2|split; [eapply extends_trans; eassumption|]]|split].
      + intros v W Nv. apply K2; [exact W|apply K1; assumption].
      + intros y [<-|Y] T; [eapply extends_some; [exact E2|apply T1, T]|apply T2; assumption].
      + intros [->|X] Nn; [apply N1; [left; reflexivity|exact Nn]|]. apply N2; [exact X|]. apply K1; [left; reflexivity|exact Nn]. }
  destruct (fold_left _ _ (Some acc)) as [b|] eqn:FL; [|discriminate V]. injection V as <-. destruct (loop _ _ _ I FL) as ((I1 & E1 & K1) & T1 & N1). clear loop FL.
  assert (Nb : assoc n b = None) by (apply K1; [left; reflexivity|exact A]).
  assert (NL : ~ In n (ls m (sig_of it))) by (intro X; specialize (N1 X A); congruence).
  set (h := HSelf _ _). assert (EX : extends b ((n, h) :: b)).
  { intros x hx X. cbn [assoc]. destruct (Nat.eqb_spec n x) as [->|]; [congruence|exact X]. }
  split; [split; [|split]|split].
  - intros x hx X. cbn [assoc] in X. destruct (Nat.eqb_spec n x) as [->|Nx].
    + injection X as <-. exists it. split; [exact F|]. split; [exact NL|]. split.
      * unfold h. do 2 f_equal. apply map_ext_in. intros y Y. symmetry. apply extends_hash; [exact EX|]. apply T1; [exact Y|]. apply (local_there it y FI Y).
      * intros y Y. eapply extends_some; [exact EX|]. apply T1; [exact Y|apply (local_there it y FI Y)].
    + destruct (I1 x hx X) as (it' & F' & L' & H' & A'). exists it'. split; [exact F'|]. split; [exact L'|]. split.
      * rewrite H'. do 2 f_equal. apply map_ext_in. intros y Y. symmetry. apply extends_hash; [exact EX|apply A', Y].
      * intros y Y. eapply extends_some; [exact EX|apply A', Y].
  - eapply extends_trans; [exact E1|exact EX].
  - intros v W Nv. cbn [assoc]. destruct (Nat.eqb_spec n v) as [->|]; [|apply K1; [right; exact W|exact Nv]]. apply memb_In in W. congruence.
  - intros _. cbn [assoc]. rewrite Nat.eqb_refl. discriminate.
  - intros W _. apply memb_In in W. congruence.
Qed.
Lemma fast_ok : forall a, fast m items ext maxd = Some a -> inv a /\ forall n, In n (names items) -> assoc n a <> None.
Proof.
  intros a H. unfold fast in H.
  assert (G : forall l acc, inv acc -> (forall n, In n l -> In n (names items)) -> fold_left (fun a n => match a with Some a => visit m items ext (S maxd) [] a n | None => None end) l (Some acc) = Some a -> inv a /\ extends acc a /\ forall n, In n l -> assoc n a <> None).
  { clear H. induction l as [|x l IHl]; intros acc I W H; cbn [fold_left] in H.
    - injection H as <-. split; [exact I|]. split; [apply extends_refl|intros n N; destruct N].
    - destruct (visit m items ext (S maxd) [] acc x) as [b|] eqn:V.
      2: { exfalso. clear - H. induction l as [|y l IHl]; [discriminate H|apply IHl, H]. }
      destruct (visit_ok _ _ _ _ _ I V) as ((I1 & E1 & _) & T1 & _). destruct (IHl b I1 ltac:(intros; apply W; right; assumption) H) as (I2 & E2 & T2). split; [exact I2|]. split; [eapply extends_trans; eassumption|].
      intros n [<-|N]; [|apply T2, N]. eapply extends_some; [exact E2|apply T1]. apply find_there, W. left. reflexivity. }
  destruct (G (names items) [] ltac:(intros n h X; discriminate X) ltac:(auto) H) as (I & _ & T). auto.
Qed.

Variable rank : nat -> nat.
Hypothesis ranked : forall it r, In it items -> In r (refs (sig_of it)) -> fst r = m -> snd r = name_of it \/ rank (snd r) < rank (name_of it) < length items.
Lemma next_rank : forall a x, In x (next m items a) -> x = a \/ rank x < rank a < length items.
Proof.
  intros a x H. unfold next in H. destruct (find_item items a) as [it|] eqn:F; [|destruct H]. destruct (find_In _ _ F) as [FI FN]. rewrite (locals_ls it FI) in H. apply ls_ref in H.
  destruct (ranked it _ FI H eq_refl) as [E|L]; cbn [snd] in *; rewrite FN in *; auto.
Qed.
Lemma reach_rank : forall f a b, reach m items f a b = true -> a = b \/ rank b < rank a.
Proof.
  induction f as [|f IH]; intros a b H; cbn [reach] in H; apply orb_prop in H; destruct H as [H|H]; try (left; apply Nat.eqb_eq, H); [discriminate H|].
  apply existsb_exists in H. destruct H as (x & X & H). apply next_rank in X. apply IH in H. destruct X as [->|X], H as [->|H]; auto; right; lia.
Qed.
Lemma cyclic_self : forall n, cyclic m items n = memb n (next m items n).
Proof.
  intro n. apply eq_true_iff_eq. unfold cyclic. rewrite existsb_exists, memb_In. split.
  - intros (x & X & H). apply reach_rank in H. destruct H as [->|H]; [exact X|]. pose proof (next_rank _ _ X) as [->|L]; [exact X|lia].
  - intro X. exists n. split; [exact X|]. destruct (length items); cbn [reach]; rewrite Nat.eqb_refl; reflexivity.
Qed.
Lemma filter_one : forall n l, NoDup l -> In n l -> forall p : nat -> bool, (forall x, p x = true <-> x = n) -> filter p l = [n].
Proof.
  intros n l N I p P. induction l as [|a l IH]; [destruct I|]. inversion N as [|? ? N1 N2]; subst. cbn [filter]. destruct (p a) eqn:E.
  - apply P in E. subst. f_equal. clear - N1 P. induction l as [|b l IH]; [reflexivity|]. cbn [filter]. destruct (p b) eqn:E; [apply P in E; subst; exfalso; apply N1; left; reflexivity|]. apply IH. intro X. apply N1. right. exact X.
  - destruct I as [->|I]; [rewrite (proj2 (P n) eq_refl) in E; discriminate E|]. apply IH; assumption.
Qed.
Lemma group_one : forall n, In n (names items) -> group m items n = [n].
Proof.
  intros n I. apply filter_one; [exact nodup|exact I|]. intro x. rewrite andb_true_iff. split.
  - intros [A B]. apply reach_rank in A, B. destruct A as [A|A], B as [B|B]; auto; lia.
  - intros ->. destruct (length items); cbn [reach]; rewrite Nat.eqb_refl; auto.
Qed.
Lemma scc_step : forall f n it, find_item items n = Some it -> scc m items ext (S f) n = eqn (scc m items ext f) ext m n (sig_of it).
Proof.
  intros f n it F. destruct (find_In _ _ F) as [FI FN]. cbn [scc]. rewrite cyclic_self. assert (In n (names items)) as NI by (apply find_there; eauto). rewrite group_one by exact NI.
  assert (NX : next m items n = ls m (sig_of it)) by (unfold next; rewrite F; apply locals_ls, FI). assert (OW : own items n = sig_of it) by (unfold own; rewrite F; reflexivity).
  unfold outside, outer. cbn [flat_map map]. rewrite !app_nil_r, NX, OW. unfold eqn. rewrite locals_ls by exact FI. reflexivity.
Qed.
Lemma scc_stable : forall f f' n, rank n < f -> rank n < f' -> In n (names items) -> scc m items ext (S f) n = scc m items ext (S f') n.
Proof.
  induction f as [|f IH]; intros f' n L L' I; [lia|]. destruct f' as [|f']; [lia|]. destruct (proj1 (find_there n) I) as [it F]. rewrite !(scc_step _ n it F).
  apply eqn_ext; [|reflexivity]. intros x X1 D.
  assert (XN : In x (next m items n)) by (unfold next; rewrite F, locals_ls; [exact X1|apply (find_In _ _ F)]). apply next_rank in XN. destruct XN as [->|XN]; [destruct D as [M|D]; [apply memb_In in X1; congruence|congruence]|].
  apply IH; try lia. apply find_there, (local_there it x (proj1 (find_In _ _ F)) X1).
Qed.
Lemma assoc_map : forall (f : nat -> hash) l n, In n l -> assoc n (map (fun n => (n, f n)) l) = Some (f n).
Proof. intros f. induction l as [|a l IH]; intros n I; [destruct I|]. cbn [map assoc]. destruct (Nat.eqb_spec a n) as [->|N]; [reflexivity|]. destruct I as [->|I]; [congruence|apply IH, I]. Qed.
Lemma assoc_map_none : forall (f : nat -> hash) l n, ~ In n l -> assoc n (map (fun n => (n, f n)) l) = None.
Proof. intros f. induction l as [|a l IH]; intros n I; [reflexivity|]. cbn [map assoc]. destruct (Nat.eqb_spec a n) as [->|N]; [exfalso; apply I; left; reflexivity|]. apply IH. intro X. apply I. right. exact X. Qed.
Definition cv (n : nat) : hash := match assoc n (compute m items ext maxd) with Some h => h | None => HOwn (Info 0 []) end.
Lemma compute_none : forall n, ~ In n (names items) -> assoc n (compute m items ext maxd) = None.
Proof. intros n N. unfold compute. destruct (fast m items ext maxd); apply assoc_map_none, N. Qed.
Lemma compute_eqn : forall it, In it items -> assoc (name_of it) (compute m items ext maxd) = Some (eqn cv ext m (name_of it) (sig_of it)).
Proof.
  intros it I. set (n := name_of it). assert (NI : In n (names items)) by (apply in_map, I).
  assert (F : find_item items n = Some it).
  { destruct (proj1 (find_there n) NI) as [it' F]. rewrite F. f_equal. destruct (find_In _ _ F) as [I' E]. clear - nodup I I' E. subst n. induction items as [|a l IH]; [destruct I|]. cbn [map] in nodup. inversion nodup as [|? ? N1 N2]; subst.
    destruct I as [->|I], I' as [->|I']; auto; [exfalso; apply N1; rewrite <- E; apply in_map, I'|exfalso; apply N1; rewrite E; apply in_map, I]. }
  unfold cv, compute. destruct (fast m items ext maxd) as [a|] eqn:FA.
  - rewrite assoc_map by exact NI. f_equal. destruct (fast_ok a FA) as [Iv T]. destruct (assoc n a) as [h|] eqn:A; [|destruct (T n NI A)]. destruct (Iv n h A) as (it' & F' & L' & H' & A'). rewrite F in F'. injection F' as <-.
    unfold local_hash at 1. rewrite A, H'. unfold eqn. destruct (memb n (ls m (sig_of it))) eqn:M; [apply memb_In in M; contradiction|]. f_equal. f_equal. apply map_ext_in. intros x X.
    rewrite assoc_map; [reflexivity|]. apply find_there, (local_there it x I X).
  - rewrite assoc_map by exact NI. f_equal. rewrite (scc_step _ n it F). apply eqn_ext; [|reflexivity]. intros x X1 D.
    assert (XI : In x (names items)) by (apply find_there, (local_there it x I X1)). rewrite assoc_map by exact XI.
    assert (XN : In x (next m items n)) by (unfold next; rewrite F, locals_ls; [exact X1|exact I]). apply next_rank in XN. destruct XN as [->|XN]; [destruct D as [M|D]; [apply memb_In in X1; congruence|congruence]|].
    assert (EL : exists L, length items = S L) by (exists (pred (length items)); lia). destruct EL as [L EL]. rewrite EL. apply scc_stable; try lia. exact XI.
Qed.
End Compute.

(** Lemmas for the path theorems. *)
From Verif Require Import Base P_Base P_Glob S_Path M_Path.

Lemma str_eqb_ok a b : str_eqb a b = true <-> a = b.
Proof. unfold str_eqb. destruct (list_eq_dec Z.eq_dec a b); split; congruence. Qed.
Lemma str_eqb_no a b : str_eqb a b = false <-> a <> b.
Proof. unfold str_eqb. destruct (list_eq_dec Z.eq_dec a b); split; congruence. Qed.

Lemma splits_ne s : split_slash s <> [].
Proof.
  destruct s as [|c s]; cbn; [discriminate|].
  destruct (split_slash s); [discriminate|]. destruct (c =? 47); discriminate.
Qed.
Lemma splits_app x l : ~ In 47 x -> split_slash (x ++ 47 :: l) = x :: split_slash l.
Proof.
  induction x as [|c x IH]; intros H; cbn [app split_slash].
  - pose proof (splits_ne l). destruct (split_slash l); [contradiction|]. reflexivity.
  - cbn in H. rewrite IH by tauto. destruct (c =? 47) eqn:E; [exfalso; apply H; left; lia|]. reflexivity.
Qed.
Lemma splits_one x : ~ In 47 x -> split_slash x = [x].
Proof.
  induction x as [|c x IH]; intros H; cbn [split_slash]; [reflexivity|].
  cbn in H. rewrite IH by tauto. destruct (c =? 47) eqn:E; [exfalso; apply H; left; lia|]. reflexivity.
Qed.
Lemma fields_split x ps : fields x ps -> ps = split_slash x.
Proof.
  induction 1 as [x H|x l ps H _ IH].
  - rewrite splits_one by assumption. reflexivity.
  - rewrite splits_app by assumption. congruence.
Qed.
Lemma split_fields x : fields x (split_slash x).
Proof.
  assert (G : forall n x, (length x <= n)%nat -> fields x (split_slash x)).
  { induction n as [|n IH]; intros y Hy.
    - destruct y; [|cbn in Hy; lia]. apply F_last. intros [].
    - destruct (in_dec Z.eq_dec 47 y) as [H|H].
      + destruct (in_split_first 47 y H) as (a & b & -> & Ha). rewrite splits_app by assumption.
        apply F_more; [assumption|]. apply IH. rewrite app_length in Hy. cbn in Hy. lia.
      + rewrite splits_one by assumption. apply F_last. assumption. }
  apply (G (length x)). lia.
Qed.

Lemma fields_noslash s l : fields s l -> Forall (fun x => ~ In 47 x) l.
Proof. induction 1; repeat constructor; auto. Qed.
Lemma fields_ne s l : fields s l -> l <> [].
Proof. destruct 1; discriminate. Qed.

Lemma join_fields l : l <> [] -> Forall (fun x => ~ In 47 x) l -> fields (join_slash l) l.
Proof.
  induction l as [|x l IH]; intros N F; [contradiction|].
  inversion F; subst. cbn [join_slash]. destruct l as [|y l].
  - apply F_last. assumption.
  - apply F_more; [assumption|]. apply IH; [discriminate|assumption].
Qed.

Lemma ne_eq : (fun x : list Z => match x with [] => false | _ => true end) = nonempty.
Proof. reflexivity. Qed.

Lemma comps_iff s l : components s l <-> l = filter nonempty (split_slash s).
Proof.
  unfold components. rewrite ne_eq. split.
  - intros (f & F & ->). apply fields_split in F. congruence.
  - intros ->. exists (split_slash s). split; [apply split_fields|reflexivity].
Qed.

Definition good (x : list Z) : Prop := x <> [] /\ ~ In 47 x.

Lemma comps_good s l : components s l -> Forall good l.
Proof.
  intros (f & F & ->). apply fields_noslash in F. rewrite Forall_forall in *. intros x Hx.
  apply filter_In in Hx as [Hx Hn]. split; [destruct x; discriminate|auto].
Qed.

Lemma comps_rooted l : Forall (fun x => ~ In 47 x) l ->
  components (match l with [] => [47] | _ => 47 :: join_slash l end) (filter nonempty l).
Proof.
  intros F. destruct l as [|x l].
  - apply comps_iff. reflexivity.
  - exists ([] :: x :: l). split; [|reflexivity].
    change (47 :: join_slash (x :: l)) with ([] ++ 47 :: join_slash (x :: l)).
    apply F_more; [intros []|]. apply join_fields; [discriminate|assumption].
Qed.

Lemma filter_good l : Forall good l -> filter nonempty l = l.
Proof.
  induction 1 as [|x l [H _] _ IH]; cbn; [reflexivity|]. destruct x; [contradiction|]. cbn. congruence.
Qed.

Lemma starts_abs s : starts_slash s = true <-> absolute s.
Proof.
  unfold starts_slash, absolute. destruct s as [|c s]; [split; [discriminate|intros (r & E); discriminate]|].
  destruct (Z.eq_dec c 47) as [->|N].
  - split; [intros _; eauto|reflexivity].
  - split.
    + intros H. exfalso. apply N. destruct c as [|c|c]; try discriminate.
      destruct c as [c|c|]; try discriminate. destruct c as [c|c|]; try discriminate.
      destruct c as [c|c|]; try discriminate. destruct c as [c|c|]; try discriminate.
      destruct c as [c|c|]; try discriminate. destruct c as [c|c|]; try discriminate. reflexivity.
    + intros (r & E). congruence.
Qed.

(** ** Following *)
Lemma follow_good d l r : follow d l r -> Forall good d -> Forall good l -> Forall good r.
Proof.
  induction 1 as [d|d l r _ IH|d x l r _ IH|d x l r N1 N2 _ IH]; intros D L.
  - assumption.
  - inversion L; auto.
  - inversion L; subst. apply Forall_app in D as [D _]. auto.
  - inversion L; subst. apply IH; [|assumption]. apply Forall_app. split; [assumption|]. constructor; [assumption|constructor].
Qed.

Lemma name_cases (x : list Z) : x = dot \/ x = dotdot \/ (x <> dot /\ x <> dotdot).
Proof.
  destruct (list_eq_dec Z.eq_dec x dot); [left; assumption|].
  destruct (list_eq_dec Z.eq_dec x dotdot); [right; left; assumption|]. right. right. auto.
Qed.

Lemma follow_total l : forall d, (exists r, follow d l r) \/ escapes d l.
Proof.
  induction l as [|x l IH]; intros d.
  - left. exists d. constructor.
  - destruct (name_cases x) as [->|[->|[N1 N2]]].
    + destruct (IH d) as [(r & H)|H]; [left; exists r; apply W_dot; assumption|right; apply X_dot; assumption].
    + destruct d as [|y d] using rev_ind; [right; constructor|]. clear IHd.
      destruct (IH d) as [(r & H)|H]; [left; exists r; apply W_up; assumption|right; apply X_up; assumption].
    + destruct (IH (d ++ [x])) as [(r & H)|H]; [left; exists r; apply W_down; assumption|right; apply X_down; assumption].
Qed.

Definition notdot (p : list Z) : bool := negb (str_eqb p [46]).

Lemma resolve_follow f : f <> [] -> ~ In [] (removelast f) -> forall d r,
  follow d (filter nonempty f) r ->
  exists e, resolve_parts d (filter notdot f) = Ok (r ++ e) /\ (e = [] \/ e = [[]]).
Proof.
  induction f as [|x f IH]; intros Hf Hn d r W; [contradiction|].
  assert (IH' : ~ In [] (removelast f) -> forall d r, follow d (filter nonempty f) r ->
     exists e, resolve_parts d (filter notdot f) = Ok (r ++ e) /\ (e = [] \/ e = [[]])).
  { destruct f as [|y f]; [|apply IH; discriminate]. intros _ d' r' W'. cbn in W'. inversion W'; subst.
    exists []. cbn. rewrite app_nil_r. auto. }
  clear IH.
  destruct x as [|c x].
  - destruct f as [|y f]; [|exfalso; apply Hn; left; reflexivity].
    cbn in W. inversion W; subst. exists [[]]. split; [reflexivity|auto].
  - assert (Hn' : ~ In [] (removelast f)).
    { destruct f as [|y f]; [intros []|]. intros K. apply Hn. right. exact K. }
    specialize (IH' Hn').
    cbn [filter nonempty] in W.
    destruct (name_cases (c :: x)) as [E|[E|[N1 N2]]].
    + rewrite E in *. change (filter notdot (dot :: f)) with (filter notdot f). apply IH'.
      inversion W; subst; [assumption|contradiction].
    + rewrite E in *. change (filter notdot (dotdot :: f)) with (dotdot :: filter notdot f).
      inversion W; subst; [|contradiction].
      cbn [resolve_parts]. replace (str_eqb dotdot [46; 46]) with true by reflexivity.
      rewrite removelast_last. destruct (d0 ++ [x0]) eqn:Q; [destruct d0; discriminate|]. apply IH'. assumption.
    + assert (Hd : notdot (c :: x) = true) by (unfold notdot; apply negb_true_iff, str_eqb_no; assumption).
      cbn [filter]. rewrite Hd. cbn [resolve_parts].
      replace (str_eqb (c :: x) [46; 46]) with false by (symmetry; apply str_eqb_no; assumption).
      apply IH'. inversion W; subst; try (exfalso; apply N1; assumption || reflexivity); try (exfalso; apply N2; assumption || reflexivity). assumption.
Qed.

Lemma resolve_escapes f : f <> [] -> ~ In [] (removelast f) -> forall d,
  escapes d (filter nonempty f) -> resolve_parts d (filter notdot f) = Exn ValueError.
Proof.
  induction f as [|x f IH]; intros Hf Hn d W; [contradiction|].
  assert (IH' : ~ In [] (removelast f) -> forall d, escapes d (filter nonempty f) ->
     resolve_parts d (filter notdot f) = Exn ValueError).
  { destruct f as [|y f]; [|apply IH; discriminate]. intros _ d' W'. cbn in W'. inversion W'. }
  clear IH.
  destruct x as [|c x].
  - destruct f as [|y f]; [|exfalso; apply Hn; left; reflexivity]. cbn in W. inversion W.
  - assert (Hn' : ~ In [] (removelast f)).
    { destruct f as [|y f]; [intros []|]. intros K. apply Hn. right. exact K. }
    specialize (IH' Hn').
    cbn [filter nonempty] in W.
    destruct (name_cases (c :: x)) as [E|[E|[N1 N2]]].
    + rewrite E in *. change (filter notdot (dot :: f)) with (filter notdot f). apply IH'.
      inversion W; subst; [assumption|contradiction].
    + rewrite E in *. change (filter notdot (dotdot :: f)) with (dotdot :: filter notdot f).
      cbn [resolve_parts]. replace (str_eqb dotdot [46; 46]) with true by reflexivity.
      inversion W; subst; [reflexivity| |contradiction].
      rewrite removelast_last. destruct (d0 ++ [x0]) eqn:Q; [destruct d0; discriminate|]. apply IH'. assumption.
    + assert (Hd : notdot (c :: x) = true) by (unfold notdot; apply negb_true_iff, str_eqb_no; assumption).
      cbn [filter]. rewrite Hd. cbn [resolve_parts].
      replace (str_eqb (c :: x) [46; 46]) with false by (symmetry; apply str_eqb_no; assumption).
      apply IH'. inversion W; subst; try (exfalso; apply N1; assumption || reflexivity); try (exfalso; apply N2; assumption || reflexivity). assumption.
Qed.

Lemma resolve_ok start rel f ds :
  absolute start -> ~ absolute rel -> components start ds -> fields rel f -> ~ In [] (removelast f) ->
  (forall r, follow ds (filter nonempty f) r ->
     exists p, resolve_relative_path start rel = Ok p /\ absolute p /\ components p r) /\
  (escapes ds (filter nonempty f) -> resolve_relative_path start rel = Exn ValueError).
Proof.
  intros A NA C F Hn. unfold resolve_relative_path.
  pose proof A as A'. apply starts_abs in A'. rewrite A'. cbn [negb].
  destruct (starts_slash rel) eqn:ER; [apply starts_abs in ER; contradiction|].
  pose proof (fields_split _ _ F) as Ef.
  destruct (negb (nonempty rel) || str_eqb rel [46]) eqn:E0.
  { assert (Hr : rel = [] \/ rel = [46]).
    { apply orb_true_iff in E0 as [E0|E0]; [left; destruct rel; [reflexivity|discriminate]|right; apply str_eqb_ok; assumption]. }
    destruct Hr as [-> | ->]; cbn in Ef; subst f; cbn [filter nonempty].
    - split; [intros r W; inversion W; subst; exists start; auto|intros W; inversion W].
    - split.
      + intros r W. change [46] with dot in W. inversion W; subst; try contradiction.
        match goal with K : follow _ [] _ |- _ => inversion K; subst end. exists start. auto.
      + intros W. change [46] with dot in W. inversion W; subst; try contradiction.
        match goal with K : escapes _ [] |- _ => inversion K end. }
  rewrite <- (fields_split _ _ F). apply comps_iff in C as Ec. rewrite <- Ec.
  change (fun p => negb (str_eqb p [46])) with notdot.
  split.
  - intros r W. destruct (resolve_follow f (fields_ne _ _ F) Hn ds r W) as (e & -> & He).
    assert (G : Forall good r).
    { eapply follow_good; [exact W|eapply comps_good; exact C|].
      apply (comps_good rel). exists f. auto. }
    assert (Gs : Forall (fun x => ~ In 47 x) (r ++ e)).
    { apply Forall_app. split.
      - eapply Forall_impl; [|exact G]. intros a [_ Ha]. exact Ha.
      - destruct He as [-> | ->]; [constructor|]. constructor; [intros []|constructor]. }
    exists (match r ++ e with [] => [47] | _ => 47 :: join_slash (r ++ e) end). cbn [bindr].
    split; [destruct (r ++ e); reflexivity|]. split; [destruct (r ++ e); eexists; reflexivity|].
    assert (Q : filter nonempty (r ++ e) = r).
    { rewrite filter_app, filter_good by assumption. destruct He as [-> | ->]; cbn; apply app_nil_r. }
    pose proof (comps_rooted (r ++ e) Gs) as K. rewrite Q in K. exact K.
  - intros W. rewrite (resolve_escapes f (fields_ne _ _ F) Hn ds W). reflexivity.
Qed.

(** ** The way from one directory to another *)
Lemma common_spec t f : exists c t' f', t = c ++ t' /\ f = c ++ f' /\ length c = common_length t f.
Proof.
  revert f. induction t as [|x t IH]; intros f; cbn [common_length].
  - exists [], [], f. auto.
  - destruct f as [|y f]; [exists [], (x :: t), []; auto|].
    destruct (str_eqb x y) eqn:E.
    + apply str_eqb_ok in E. subst y. destruct (IH f) as (c & t' & f' & -> & -> & L).
      exists (x :: c), t', f'. cbn. repeat split; try reflexivity. congruence.
    + exists [], (x :: t), (y :: f). auto.
Qed.

Lemma follow_ups f' : forall c l r, follow c l r -> follow (c ++ f') (repeat dotdot (length f') ++ l) r.
Proof.
  induction f' as [|x f' IH] using rev_ind; intros c l r W.
  - cbn. rewrite app_nil_r. exact W.
  - rewrite app_length. cbn [length]. rewrite Nat.add_1_r. cbn [repeat app]. rewrite app_assoc.
    apply W_up. apply IH. exact W.
Qed.

Lemma follow_downs t' : Forall (fun x => x <> dot /\ x <> dotdot) t' -> forall c, follow c t' (c ++ t').
Proof.
  induction 1 as [|x t' [N1 N2] _ IH]; intros c.
  - rewrite app_nil_r. constructor.
  - apply W_down; [assumption|assumption|]. replace (c ++ x :: t') with ((c ++ [x]) ++ t') by (rewrite <- app_assoc; reflexivity). apply IH.
Qed.

Lemma skipn_len {B} (c t : list B) : skipn (length c) (c ++ t) = t.
Proof. rewrite skipn_app, skipn_all, Nat.sub_diag. reflexivity. Qed.

(** the parts of the relative path *)
Definition way (t f : list (list Z)) : list (list Z) :=
  repeat dotdot (length f - common_length t f) ++ skipn (common_length t f) t.

Lemma way_follow t f : Forall (fun x => x <> dot /\ x <> dotdot) t -> follow f (way t f) t.
Proof.
  intros Ht. unfold way. destruct (common_spec t f) as (c & t' & f' & E1 & E2 & L).
  rewrite <- L. rewrite E2 at 2. rewrite app_length.
  replace (length c + length f' - length c)%nat with (length f') by lia.
  rewrite E1 at 1. rewrite skipn_len. rewrite E2 at 1. apply follow_ups. rewrite E1. apply follow_downs.
  rewrite E1 in Ht. apply Forall_app in Ht. tauto.
Qed.

Lemma way_good t f : Forall good t -> Forall good (way t f).
Proof.
  intros G. unfold way. apply Forall_app. split.
  - apply Forall_forall. intros x Hx. apply repeat_spec in Hx. subst x. split; [discriminate|].
    cbn. intros [K|[K|[]]]; discriminate.
  - rewrite Forall_forall in *. intros x Hx. apply G.
    rewrite <- (firstn_skipn (common_length t f) t). apply in_or_app. right. exact Hx.
Qed.

Lemma way_len t f : length (way t f) = (length f - common_length t f + (length t - common_length t f))%nat.
Proof. unfold way. rewrite app_length, repeat_length, skipn_length. lia. Qed.

Lemma get_rel target from t f : absolute target -> absolute from -> components target t -> components from f ->
  exists rel, get_relative_path target from = Ok rel /\ ~ absolute rel /\
    (fields rel (way t f) \/ (way t f = [] /\ rel = dot)).
Proof.
  intros A1 A2 C1 C2. unfold get_relative_path.
  apply starts_abs in A1. apply starts_abs in A2. rewrite A1, A2. cbn [negb orb].
  apply comps_iff in C1 as E1. apply comps_iff in C2 as E2. rewrite <- E1, <- E2.
  cbv zeta. match goal with |- context [repeat ?a ?b ++ ?c] => change (repeat a b ++ c) with (way t f) end. pose proof (way_good t f (comps_good _ _ C1)) as G.
  destruct (way t f) as [|x w] eqn:Ew.
  - exists dot. split; [reflexivity|]. split; [intros (r & K); discriminate|auto].
  - exists (join_slash (x :: w)). split; [reflexivity|].
    assert (F : fields (join_slash (x :: w)) (x :: w)).
    { apply join_fields; [discriminate|]. eapply Forall_impl; [|exact G]. intros a [_ Ha]. exact Ha. }
    split; [|left; exact F].
    intros (r & K). inversion G as [|? ? [Hx Hs] ?]; subst. cbn [join_slash] in K.
    destruct x as [|a x]; [contradiction|]. destruct w; cbn in K; injection K as -> _; apply Hs; left; reflexivity.
Qed.

(** No path is shorter. *)
Lemma common_snoc d x t : common_length t (d ++ [x]) = common_length t d \/
  (common_length t (d ++ [x]) = S (common_length t d) /\ common_length t d = length d).
Proof.
  revert t. induction d as [|y d IH]; intros t; cbn [app].
  - destruct t as [|z t]; [left; reflexivity|]. cbn [common_length]. destruct (str_eqb z x); [|left; reflexivity].
    right. destruct t; auto.
  - destruct t as [|z t]; [left; reflexivity|]. cbn [common_length length]. destruct (str_eqb z y); [|left; reflexivity].
    destruct (IH t) as [->|[-> ->]]; [left; reflexivity|right; auto].
Qed.
Lemma common_le t f : (common_length t f <= length t)%nat /\ (common_length t f <= length f)%nat.
Proof.
  revert f. induction t as [|x t IH]; intros [|y f]; cbn [common_length length]; try lia.
  destruct (str_eqb x y); [|lia]. specialize (IH f). lia.
Qed.
Lemma common_refl t : common_length t t = length t.
Proof.
  induction t as [|x t IH]; cbn [common_length length]; [reflexivity|].
  replace (str_eqb x x) with true by (symmetry; apply str_eqb_ok; reflexivity). congruence.
Qed.
Lemma way_shortest f l t : follow f l t -> (length (way t f) <= length l)%nat.
Proof.
  induction 1 as [d|d l r _ IH|d x l r _ IH|d x l r N1 N2 _ IH]; rewrite way_len in *; cbn [length].
  - rewrite common_refl. lia.
  - lia.
  - pose proof (common_le r d). pose proof (common_le r (d ++ [x])). rewrite app_length in *. cbn [length] in *.
    destruct (common_snoc d x r) as [->|[-> ?]]; lia.
  - pose proof (common_le r d). pose proof (common_le r (d ++ [x])). rewrite app_length in *. cbn [length] in *.
    destruct (common_snoc d x r) as [E|[E ?]]; rewrite E in *; lia.
Qed.

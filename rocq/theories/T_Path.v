(** C81: relative paths. *)
From Verif Require Import Base P_Base S_Path M_Path P_Path.

(** get_relative_path gives a relative path which, followed from the one directory, leads
    to the other (unless the target is written with '.' or '..'), ... *)
Theorem C81_relative_leads_to_target : forall target from t f,
  absolute target -> absolute from -> components target t -> components from f ->
  ~ In dot t -> ~ In dotdot t ->
  exists rel l, get_relative_path target from = Ok rel /\ ~ absolute rel /\
    components rel l /\ follow f l t.
Proof.
  intros target from t f A1 A2 C1 C2 N1 N2.
  destruct (get_rel target from t f A1 A2 C1 C2) as (rel & E & NA & D).
  assert (W : follow f (way t f) t).
  { apply way_follow. apply Forall_forall. intros x Hx. split; intros ->; contradiction. }
  pose proof (way_good t f (comps_good _ _ C1)) as G.
  exists rel. destruct D as [D|[D1 D2]].
  - exists (way t f). split; [exact E|]. split; [exact NA|]. split; [|exact W].
    exists (way t f). split; [exact D|]. symmetry. apply filter_good. exact G.
  - exists [dot]. split; [exact E|]. split; [exact NA|]. split.
    + subst rel. apply comps_iff. reflexivity.
    + apply W_dot. rewrite D1 in W. exact W.
Qed.
Print Assumptions C81_relative_leads_to_target.

(** ... of all such paths none has fewer components (but '.' is given for no component), ... *)
Theorem C81_relative_is_shortest : forall target from t f rel l m,
  absolute target -> absolute from -> components target t -> components from f ->
  get_relative_path target from = Ok rel -> components rel l -> rel <> dot ->
  follow f m t -> (length l <= length m)%nat.
Proof.
  intros target from t f rel l m A1 A2 C1 C2 E C N W.
  destruct (get_rel target from t f A1 A2 C1 C2) as (rel' & E' & _ & D).
  assert (rel' = rel) by congruence. subst rel'.
  destruct D as [D|[_ D]]; [|contradiction].
  assert (l = way t f).
  { apply comps_iff in C. subst l. rewrite <- (fields_split _ _ D). apply filter_good. apply way_good. eapply comps_good. exact C1. }
  subst l. apply way_shortest. exact W.
Qed.
Print Assumptions C81_relative_is_shortest.

(** ... and resolve_relative_path turns it back into a path to the target. *)
Theorem C81_round_trip : forall target from t,
  absolute target -> absolute from -> components target t -> ~ In dot t -> ~ In dotdot t ->
  exists rel p, get_relative_path target from = Ok rel /\
    resolve_relative_path from rel = Ok p /\ absolute p /\ components p t.
Proof.
  intros target from t A1 A2 C1 N1 N2.
  assert (C2 : components from (filter nonempty (split_slash from))) by (apply comps_iff; reflexivity).
  set (f := filter nonempty (split_slash from)) in *. clearbody f.
  destruct (get_rel target from t f A1 A2 C1 C2) as (rel & E & NA & D).
  assert (W : follow f (way t f) t).
  { apply way_follow. apply Forall_forall. intros x Hx. split; intros ->; contradiction. }
  pose proof (way_good t f (comps_good _ _ C1)) as G.
  exists rel. destruct D as [D|[D1 D2]].
  - destruct (resolve_ok from rel (way t f) f A2 NA C2 D) as [R _].
    { intros K. rewrite Forall_forall in G. destruct (G []) as [K' _]; [|contradiction].
      clear -K. induction (way t f) as [|x w IH]; [destruct K|]. destruct w as [|y w]; [destruct K|].
      destruct K as [K|K]; [left; exact K|right; apply IH; exact K]. }
    rewrite (filter_good _ G) in R. destruct (R t W) as (p & P1 & P2 & P3). exists p. auto.
  - subst rel. destruct (resolve_ok from dot [dot] f A2 NA C2) as [R _].
    + apply F_last. cbn. intros [K|[]]. discriminate.
    + intros [].
    + destruct (R t) as (p & P1 & P2 & P3); [|exists p; auto].
      cbn. apply W_dot. rewrite D1 in W. exact W.
Qed.
Print Assumptions C81_round_trip.

(** Both paths must be absolute. *)
Theorem C81_relative_needs_absolute : forall target from,
  ~ (absolute target /\ absolute from) <-> get_relative_path target from = Exn ValueError.
Proof.
  intros target from. unfold get_relative_path.
  destruct (starts_slash target) eqn:E1; destruct (starts_slash from) eqn:E2; cbn [negb orb].
  - apply starts_abs in E1. apply starts_abs in E2.
    destruct (_ ++ _); split; intros H; try discriminate; exfalso; apply H; auto.
  - split; [reflexivity|]. intros _ [_ H]. apply starts_abs in H. congruence.
  - split; [reflexivity|]. intros _ [H _]. apply starts_abs in H. congruence.
  - split; [reflexivity|]. intros _ [H _]. apply starts_abs in H. congruence.
Qed.
Print Assumptions C81_relative_needs_absolute.

(** resolve_relative_path follows the relative path, and raises ValueError if that leads
    above the root.  Partial: only the last of the texts between the slashes of the relative
    path may be empty. *)
Theorem C81_resolve_partial : forall start rel fs d l,
  absolute start -> ~ absolute rel -> components start d -> fields rel fs -> components rel l ->
  ~ In [] (removelast fs) ->
  (exists r p, follow d l r /\ resolve_relative_path start rel = Ok p /\ absolute p /\ components p r)
  \/ (escapes d l /\ resolve_relative_path start rel = Exn ValueError).
Proof.
  intros start rel fs d l A NA C F L N.
  destruct (resolve_ok start rel fs d A NA C F N) as [R X].
  assert (l = filter nonempty fs).
  { apply comps_iff in L. rewrite L. rewrite (fields_split _ _ F). reflexivity. }
  subst l. destruct (follow_total (filter nonempty fs) d) as [(r & W)|W].
  - left. destruct (R r W) as (p & P). exists r, p. auto.
  - right. auto.
Qed.
Print Assumptions C81_resolve_partial.

(** Where it leads is determined. *)
Theorem C81_follow_unique : forall l d r r', follow d l r -> follow d l r' -> r' = r.
Proof.
  induction l as [|x l IH]; intros d r r' H H'.
  - inversion H; inversion H'; subst; congruence.
  - inversion H; subst; inversion H'; subst; try contradiction; eauto.
    + apply app_inj_tail in H0 as [<- _]. eauto.
Qed.
Print Assumptions C81_follow_unique.

(** An empty text between slashes counts as a name that '..' removes: from the root,
    a//../b leads to /a/b instead of /b. *)
Theorem C81_resolve_refuted :
  ~ (forall start rel d l r p, absolute start -> ~ absolute rel -> components start d ->
     components rel l -> follow d l r -> resolve_relative_path start rel = Ok p -> components p r).
Proof.
  intros H.
  specialize (H [47] [97;47;47;46;46;47;98] [] [[97]; dotdot; [98]] [[98]] [47;97;47;98]).
  assert (K : components [47;97;47;98] [[98]]).
  { apply H.
    - eexists. reflexivity.
    - intros (r & E). discriminate.
    - apply comps_iff. reflexivity.
    - apply comps_iff. reflexivity.
    - apply W_down; [discriminate|discriminate|]. apply (W_up []). apply W_down; [discriminate|discriminate|]. apply W_end.
    - vm_compute. reflexivity. }
  apply comps_iff in K. vm_compute in K. discriminate.
Qed.
Print Assumptions C81_resolve_refuted.

(** The documentation says ValueError for an absolute second argument; it is returned. *)
Theorem C81_absolute_rel_refuted :
  ~ (forall start rel, absolute rel -> resolve_relative_path start rel = Exn ValueError) /\
  (forall start rel, absolute start -> absolute rel -> resolve_relative_path start rel = Ok rel).
Proof.
  split.
  - intros H. specialize (H [47] [47;97]). assert (K : absolute [47;97]) by (eexists; reflexivity).
    specialize (H K). vm_compute in H. discriminate.
  - intros s r A B. unfold resolve_relative_path. apply starts_abs in A. apply starts_abs in B. rewrite A, B. reflexivity.
Qed.
Print Assumptions C81_absolute_rel_refuted.

(** The hypotheses can be met: from /a/b//c to /a/x is ../../x, and back. *)
Example C81_case :
  absolute [47;97;47;120] /\ components [47;97;47;120] [[97]; [120]] /\
  get_relative_path [47;97;47;120] [47;97;47;98;47;47;99] = Ok [46;46;47;46;46;47;120] /\
  resolve_relative_path [47;97;47;98;47;47;99] [46;46;47;46;46;47;120] = Ok [47;97;47;120] /\
  resolve_relative_path [47;97] [46;46;47;46;46] = Exn ValueError.
Proof.
  split; [eexists; reflexivity|]. split; [apply comps_iff; reflexivity|].
  split; [vm_compute; reflexivity|]. split; vm_compute; reflexivity.
Qed.

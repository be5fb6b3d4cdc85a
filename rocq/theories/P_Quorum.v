(** Proofs about the client's quorums. *)
From Coq Require Import List ZArith Lia Bool Arith.
From Verif Require Import S_Quorum M_Quorum.
Import ListNotations.
Open Scope Z_scope.

Lemma quorum_half : forall rf n, (quorum_size rf <= n)%nat <-> (rf < 2 * n)%nat.
Proof.
  intros rf n. unfold quorum_size.
  pose proof (Nat.div_mod rf 2 ltac:(lia)) as E.
  pose proof (Nat.mod_upper_bound rf 2 ltac:(lia)). lia.
Qed.

Lemma okp_favourable : forall o b, okp o b = true <-> favourable o b.
Proof.
  intros o b. unfold okp, favourable, DB_ERR_NO_CONSUMER, DB_ERR_DUPLICATE_QUEUE,
    DB_ERR_DUPLICATE_CONSUMER.
  destruct o, b; rewrite ?orb_true_iff, ?negb_true_iff, ?Z.eqb_eq, ?Z.ltb_ge;
    try (split; intro; (discriminate || contradiction || assumption)); try tauto.
  rewrite Z.geb_le. tauto.
Qed.

Lemma not_ok_status : forall o b, fits o b -> okp o b = false -> status_of b <> 0.
Proof.
  intros o b F K E.
  assert (okp o b = true); [|congruence].
  destruct o, b; cbn in F, E |- *; try contradiction; subst; reflexivity.
Qed.

Definition acc (o : op) (rs : list reply) := filter (fun r => okp o (what r)) rs.

Lemma count_spec : forall o rs k m,
  fst (count_ok o rs k m) = (k + length (acc o rs))%nat.
Proof.
  intros o rs. induction rs as [|r rs IH]; intros k m; cbn [count_ok acc filter].
  - cbn. lia.
  - destruct (okp o (what r)) eqn:E.
    + rewrite IH. cbn [length]. fold (acc o rs). lia.
    + destruct (reported o (what r)); rewrite IH; reflexivity.
Qed.

Lemma minority_spec : forall o rs k m,
  snd (count_ok o rs k m) = m \/
  exists r, In r rs /\ okp o (what r) = false /\ snd (count_ok o rs k m) = status_of (what r).
Proof.
  intros o rs. induction rs as [|r rs IH]; intros k m; cbn [count_ok].
  - left; reflexivity.
  - destruct (okp o (what r)) eqn:E.
    + destruct (IH (S k) m) as [H|(x & Hi & Ho & Hs)]; [left; exact H|].
      right; exists x; repeat split; auto. right; exact Hi.
    + destruct (reported o (what r)).
      * destruct (IH k (status_of (what r))) as [H|(x & Hi & Ho & Hs)].
        -- right; exists r; repeat split; auto. left; reflexivity.
        -- right; exists x; repeat split; auto. right; exact Hi.
      * destruct (IH k m) as [H|(x & Hi & Ho & Hs)]; [left; exact H|].
        right; exists x; repeat split; auto. right; exact Hi.
Qed.

Lemma reported_all : forall o b, o <> Validate -> reported o b = true.
Proof. intros o b H; destruct o; try reflexivity; congruence. Qed.

Lemma acc_all : forall o rs, Forall (fun r => okp o (what r) = true) rs -> acc o rs = rs.
Proof.
  intros o rs H; induction H as [|r rs Hr _ IH]; cbn [acc filter]; [reflexivity|].
  rewrite Hr. f_equal; exact IH.
Qed.

Lemma minority_none : forall o rs k m,
  Forall (fun r => okp o (what r) = true) rs -> snd (count_ok o rs k m) = m.
Proof.
  intros o rs k m H; revert k; induction H as [|r rs Hr _ IH]; intro k; cbn [count_ok];
    [reflexivity|]. rewrite Hr. apply IH.
Qed.

(** A minority status that is not 0 stays so. *)
Lemma minority_some : forall o rs k m, o <> Validate ->
  Forall (fun r => fits o (what r)) rs ->
  snd (count_ok o rs k m) = 0 -> Forall (fun r => okp o (what r) = true) rs /\ m = 0.
Proof.
  intros o rs k m V F; revert k m; induction F as [|r rs Hr F IH]; intros k m H;
    cbn [count_ok] in H.
  - split; [constructor|exact H].
  - destruct (okp o (what r)) eqn:E.
    + destruct (IH _ _ H) as [A ->]. split; [constructor; assumption|reflexivity].
    + rewrite (reported_all o (what r) V) in H. destruct (IH _ _ H) as [_ Z0].
      exfalso; revert Z0; apply not_ok_status with (o := o); assumption.
Qed.

Lemma acc_length : forall o rs, (length (acc o rs) <= length rs)%nat.
Proof.
  intros o rs; induction rs as [|r rs IH]; cbn [acc filter length]; [lia|].
  fold (acc o rs). destruct (okp o (what r)); cbn [length]; lia.
Qed.

(** ** Runs *)

Lemma run_app : forall rf o a b s,
  run rf o (a ++ b) s = match run rf o a s with Some t => run rf o b t | None => None end.
Proof.
  intros rf o a. induction a as [|e a IH]; intros b s; cbn [app run]; [reflexivity|].
  destruct (step rf o e s); [apply IH|reflexivity].
Qed.

Lemma arrivals_app : forall a b, arrivals (a ++ b) = arrivals a ++ arrivals b.
Proof.
  induction a as [|e a IH]; intro b; [reflexivity|].
  destruct e; cbn [app arrivals]; rewrite ?IH; reflexivity.
Qed.

(** How an outcome came about. *)
Definition decided (rf : nat) (o : op) (es : list event) (r : outcome) : Prop :=
  exists es1 e es2, es = es1 ++ e :: es2 /\
   ((e = Count /\ (length (arrivals es1) < quorum_size rf)%nat /\
     r = Outcome NO_QUORUM_ERR 0 None) \/
    (e = Conclude /\ (quorum_size rf <= length (arrivals es1))%nat /\
     r = conclude o (quorum_size rf) (arrivals es1))).

Lemma decided_more : forall rf o es r x, decided rf o es r -> decided rf o (es ++ x) r.
Proof.
  intros rf o es r x (a & e & b & -> & H). exists a, e, (b ++ x).
  split; [rewrite <- app_assoc; reflexivity|exact H].
Qed.

Definition inv (rf : nat) (o : op) (es : list event) (s : state) : Prop :=
  match who s with
  | Returned r => decided rf o es r
  | Concluded r => got s = arrivals es /\ decided rf o es r
  | Enough => got s = arrivals es /\ (quorum_size rf <= length (got s))%nat
  | _ => got s = arrivals es
  end.

Lemma inv_got : forall rf o es s, inv rf o es s ->
  (forall r, who s <> Returned r) -> got s = arrivals es.
Proof.
  intros rf o es s H N. unfold inv in H. destruct (who s); try tauto.
  exfalso; eapply N; reflexivity.
Qed.

Lemma inv_run : forall rf o es s, run rf o es init = Some s -> inv rf o es s.
Proof.
  intros rf o es. induction es as [|e es IH] using rev_ind; intros s H.
  - cbn in H. injection H as <-. reflexivity.
  - rewrite run_app in H. destruct (run rf o es init) as [t|] eqn:R; [|discriminate].
    specialize (IH t eq_refl). cbn [run] in H.
    destruct (step rf o e t) as [s'|] eqn:S; [|discriminate]. injection H as ->.
    destruct e; cbn [step] in S.
    + unfold arrive in S. destruct (signalling t); [discriminate|].
      unfold inv in *. rewrite arrivals_app. cbn [arrivals].
      destruct (who t) eqn:W; injection S as <-; cbn [who got];
        rewrite ?W; try (rewrite IH; reflexivity).
      * destruct IH as [G L]. rewrite app_length, <- G. split; [reflexivity|lia].
      * destruct IH as [G D]. rewrite G. split; [reflexivity|apply decided_more; exact D].
      * apply decided_more; exact IH.
    + destruct (signalling t && negb (holds_lock (who t))); [|discriminate].
      injection S as <-. unfold inv in *. rewrite arrivals_app, app_nil_r. cbn [who got].
      destruct (who t); cbn; try exact IH.
      * destruct IH as [G D]. split; [exact G|apply decided_more; exact D].
      * apply decided_more; exact IH.
    + unfold inv in *. rewrite arrivals_app, app_nil_r.
      destruct (who t); try discriminate. injection S as <-. exact IH.
    + unfold inv in *. rewrite arrivals_app, app_nil_r.
      destruct (who t); try discriminate. injection S as <-. cbn [who got].
      destruct (quorum_size rf <=? length (got t))%nat; exact IH.
    + unfold inv in *. rewrite arrivals_app, app_nil_r.
      destruct (who t); try discriminate. injection S as <-. exact IH.
    + unfold inv in *. rewrite arrivals_app, app_nil_r.
      destruct (who t); try discriminate. injection S as <-. exact IH.
    + unfold inv in *. rewrite arrivals_app, app_nil_r.
      destruct (who t); try discriminate. injection S as <-. cbn [who got].
      destruct (length (got t) <? quorum_size rf)%nat eqn:L.
      * apply Nat.ltb_lt in L. split; [exact IH|].
        exists es, Count, []. split; [reflexivity|]. left. rewrite <- IH. auto.
      * apply Nat.ltb_ge in L. split; [exact IH|exact L].
    + unfold inv in *. rewrite arrivals_app, app_nil_r.
      destruct (who t); try discriminate. injection S as <-. cbn [who got].
      destruct IH as [G L]. split; [exact G|].
      exists es, Conclude, []. split; [reflexivity|]. right. rewrite <- G. auto.
    + unfold inv in *.
      destruct (who t); try discriminate. destruct (signalling t); [discriminate|].
      injection S as <-. cbn [who]. apply decided_more. tauto.
Qed.

(** A returned call: too few servers, or a decision. *)
Lemma call_returned : forall rf o servers es s r,
  call rf o servers es = Some s -> who s = Returned r ->
  ((length servers < quorum_size rf)%nat /\ r = Outcome NO_QUORUM_ERR 0 None) \/
  ((quorum_size rf <= length servers)%nat /\ decided rf o es r).
Proof.
  intros rf o servers es s r C W. unfold call in C.
  destruct (length servers <? quorum_size rf)%nat eqn:L.
  - injection C as <-. cbn in W. injection W as <-. apply Nat.ltb_lt in L. left; auto.
  - apply Nat.ltb_ge in L. right. split; [exact L|].
    apply inv_run in C. unfold inv in C. rewrite W in C. exact C.
Qed.

(** ** Majorities *)

Lemma NoDup_map_filter : forall (p : reply -> bool) rs,
  NoDup (map from rs) -> NoDup (map from (filter p rs)).
Proof.
  intros p rs; induction rs as [|r rs IH]; cbn [map filter]; intro H; [constructor|].
  inversion H as [|x l N D]; subst. destruct (p r); [|auto].
  cbn [map]. constructor; [|auto]. intro I. apply N.
  apply in_map_iff in I. destruct I as (y & E & Y). apply filter_In in Y.
  apply in_map_iff. exists y. tauto.
Qed.

Lemma NoDup_app_l : forall {A} (a b : list A), NoDup (a ++ b) -> NoDup a.
Proof.
  intros A a; induction a as [|x a IH]; intros b H; [constructor|].
  cbn in H. inversion H; subst. constructor; [|eauto].
  intro I. apply H2. apply in_or_app. left; exact I.
Qed.

Definition succeeded (o : op) (r : outcome) : Prop :=
  match o with ReadQueue => 0 <= ret r | _ => ret r = 0 end.

(** The concluding loop succeeds only with a quorum of accepted replies. *)
Lemma conclude_success : forall o q rs, (1 <= q)%nat -> (q <= length rs)%nat ->
  Forall (fun r => fits o (what r)) rs ->
  succeeded o (conclude o q rs) -> (q <= length (acc o rs))%nat.
Proof.
  intros o q rs Q L F S. unfold conclude in S.
  pose proof (count_spec o rs 0 0) as C. cbn [Nat.add] in C.
  pose proof (minority_some o rs 0 0) as M.
  destruct (count_ok o rs 0 0) as [ok m] eqn:E. cbn [fst snd] in *. subst ok.
  assert (X : (length (acc o rs) <? q)%nat = true -> (q <= length (acc o rs))%nat).
  { intro H. rewrite H in S. destruct o; cbn [ret succeeded] in S; try discriminate; try (exfalso; apply S; reflexivity).
    destruct (q <=? length (acc Abort rs))%nat eqn:B; [apply Nat.leb_le; exact B|].
    destruct (M ltac:(discriminate) F S) as [A _].
    rewrite acc_all in * by exact A. exact L. }
  destruct (length (acc o rs) <? q)%nat eqn:B; [auto|].
  apply Nat.ltb_ge in B. exact B.
Qed.

Lemma acc_witness : forall o rs n, In n (map from (acc o rs)) ->
  exists a, In a rs /\ from a = n /\ favourable o (what a).
Proof.
  intros o rs n H. apply in_map_iff in H. destruct H as (a & E & I).
  apply filter_In in I. destruct I as [I K]. exists a.
  repeat split; auto. apply okp_favourable; exact K.
Qed.

Lemma Forall_app_l : forall {A} (P : A -> Prop) a b, Forall P (a ++ b) -> Forall P a.
Proof. intros A P a b H. apply Forall_app in H. tauto. Qed.

Lemma success_quorum : forall rf o servers es s r,
  call rf o servers es = Some s -> who s = Returned r ->
  Forall (fun a => fits o (what a)) (arrivals es) ->
  succeeded o r ->
  exists es1 es2, es = es1 ++ Conclude :: es2 /\
    r = conclude o (quorum_size rf) (arrivals es1) /\
    (quorum_size rf <= length (acc o (arrivals es1)))%nat.
Proof.
  intros rf o servers es s r C W F S.
  destruct (call_returned _ _ _ _ _ _ C W) as [[_ ->]|[_ D]].
  { destruct o; cbn [ret succeeded] in S; try discriminate; exfalso; apply S; reflexivity. }
  destruct D as (es1 & e & es2 & -> & [(-> & _ & ->)|(-> & L & ->)]).
  { destruct o; cbn [ret succeeded] in S; try discriminate; exfalso; apply S; reflexivity. }
  exists es1, es2. repeat split.
  rewrite arrivals_app in F. apply Forall_app_l in F.
  apply conclude_success; try assumption. unfold quorum_size; lia.
Qed.

(** Two majorities of at most [rf] servers meet. *)
Lemma majorities_meet : forall rf (servers A B : list nat),
  (length servers <= rf)%nat -> majority rf A -> majority rf B ->
  incl A servers -> incl B servers -> exists n, In n A /\ In n B.
Proof.
  intros rf servers A B L [NA LA] [NB LB] IA IB.
  destruct (in_dec Nat.eq_dec 0%nat []) as [[]|_].
  assert (D : (exists n, In n A /\ In n B) \/ (forall n, In n A -> ~ In n B)).
  { clear. induction A as [|a A [(n & H)|H]].
    - right; intros n [].
    - left; exists n; cbn; tauto.
    - destruct (in_dec Nat.eq_dec a B) as [I|I].
      + left; exists a; cbn; tauto.
      + right; intros n [<-|X]; auto. }
  destruct D as [D|D]; [exact D|exfalso].
  assert (N : NoDup (A ++ B)).
  { clear - NA NB D. induction A as [|a A IH]; cbn; [exact NB|].
    inversion NA; subst. constructor.
    - rewrite in_app_iff. intros [X|X]; [auto|]. apply (D a); [left; reflexivity|exact X].
    - apply IH; auto. intros n I. apply D. right; exact I. }
  assert (I : incl (A ++ B) servers) by (apply incl_app; assumption).
  pose proof (NoDup_incl_length N I) as K. rewrite app_length in K. lia.
Qed.

(** ** Waiting *)

(** The communication thread owes a signal whenever the caller sleeps although
    enough valid replies are there. *)
Definition awake (rf : nat) (s : state) : Prop :=
  match who s with
  | Sleepy | Asleep => (quorum_size rf <= n_valid (got s))%nat -> signalling s = true
  | _ => True
  end.

Lemma n_valid_le : forall rs, (n_valid rs <= length rs)%nat.
Proof.
  unfold n_valid. induction rs as [|r rs IH]; cbn [filter length]; [lia|].
  destruct (valid_reply (what r)); cbn [length]; lia.
Qed.

Lemma awake_step : forall rf o e s s', step rf o e s = Some s' -> awake rf s -> awake rf s'.
Proof.
  intros rf o e s s' S A. destruct e; cbn [step] in S.
  - unfold arrive in S. destruct (signalling s); [discriminate|].
    unfold awake in *. destruct (who s) eqn:W; injection S as <-; cbn [who got signalling];
      rewrite ?W; auto; intro H; apply Nat.leb_le; exact H.
  - destruct (signalling s && negb (holds_lock (who s))) eqn:E; [|discriminate].
    apply andb_true_iff in E. destruct E as [_ E].
    injection S as <-. unfold awake in *. cbn [who got signalling].
    destruct (who s); cbn in *; auto; discriminate.
  - destruct (who s); try discriminate. injection S as <-. exact I.
  - destruct (who s); try discriminate. injection S as <-. unfold awake; cbn [who got signalling].
    destruct (quorum_size rf <=? length (got s))%nat eqn:E; [exact I|].
    apply Nat.leb_gt in E. intro H. pose proof (n_valid_le (got s)). lia.
  - unfold awake in *. destruct (who s); try discriminate. injection S as <-. exact A.
  - destruct (who s); try discriminate. injection S as <-. exact I.
  - destruct (who s); try discriminate. injection S as <-. unfold awake; cbn [who].
    destruct (length (got s) <? quorum_size rf)%nat; exact I.
  - destruct (who s); try discriminate. injection S as <-. exact I.
  - destruct (who s); try discriminate. destruct (signalling s); [discriminate|].
    injection S as <-. exact I.
Qed.

Lemma awake_run : forall rf o es s s', run rf o es s = Some s' -> awake rf s -> awake rf s'.
Proof.
  intros rf o es; induction es as [|e es IH]; intros s s' R A; cbn [run] in R.
  - injection R as <-; exact A.
  - destruct (step rf o e s) as [t|] eqn:S; [|discriminate].
    eapply IH; [exact R|]. eapply awake_step; eassumption.
Qed.

Lemma favourable_valid : forall o b, o <> Unsubscribe -> favourable o b -> valid_reply b = true.
Proof.
  intros o b U F. destruct o, b; cbn in F; try contradiction; try congruence;
    unfold valid_reply, DB_ERR_DUPLICATE_QUEUE, DB_ERR_DUPLICATE_CONSUMER;
    try (subst; reflexivity); try (destruct F; subst; reflexivity); try reflexivity.
  replace (status <? 0) with false by (symmetry; apply Z.ltb_ge; exact F). reflexivity.
Qed.

(** Without a time-out the caller goes on only when a quorum has replied. *)
Definition enough (rf : nat) (s : state) : Prop :=
  match who s with
  | Woken | Enough => (quorum_size rf <= length (got s))%nat
  | _ => True
  end /\ (signalling s = true -> match who s with Returned _ => True | _ => (quorum_size rf <= length (got s))%nat end).

Lemma enough_step : forall rf o e s s', e <> Timeout ->
  step rf o e s = Some s' -> enough rf s -> enough rf s'.
Proof.
  intros rf o e s s' N S [A B]. unfold enough in *. destruct e; cbn [step] in S.
  - unfold arrive in S. destruct (signalling s) eqn:G; [discriminate|].
    destruct (who s) eqn:W; injection S as <-; cbn [who got signalling];
      rewrite ?W, ?app_length; cbn [length]; split; auto; try lia;
      try (intro H; apply Nat.leb_le in H;
           pose proof (n_valid_le (got s ++ [r])) as K; rewrite app_length in K;
           cbn [length] in K; lia).
  - destruct (signalling s && negb (holds_lock (who s))) eqn:E; [|discriminate].
    apply andb_true_iff in E. destruct E as [E _]. specialize (B E).
    injection S as <-. cbn [who got signalling].
    split; [destruct (who s); auto|discriminate].
  - destruct (who s); try discriminate. injection S as <-. cbn [who got signalling]. auto.
  - destruct (who s); try discriminate. injection S as <-. cbn [who got signalling].
    destruct (quorum_size rf <=? length (got s))%nat eqn:E; split; auto.
    apply Nat.leb_le; exact E.
  - destruct (who s); try discriminate. injection S as <-. cbn [who got signalling]. auto.
  - congruence.
  - destruct (who s); try discriminate. injection S as <-. cbn [who got signalling].
    destruct (length (got s) <? quorum_size rf)%nat; split; auto.
  - destruct (who s); try discriminate. injection S as <-. cbn [who got signalling]. auto.
  - destruct (who s); try discriminate. destruct (signalling s); [discriminate|].
    injection S as <-. cbn [who got signalling]. auto.
Qed.

Lemma enough_run : forall rf o es s s', ~ In Timeout es ->
  run rf o es s = Some s' -> enough rf s -> enough rf s'.
Proof.
  intros rf o es; induction es as [|e es IH]; intros s s' N R A; cbn [run] in R.
  - injection R as <-; exact A.
  - destruct (step rf o e s) as [t|] eqn:S; [|discriminate].
    eapply IH; [|exact R|].
    + intro I; apply N; right; exact I.
    + eapply enough_step; [|exact S|exact A]. intro E; apply N; left; exact E.
Qed.

(** A decision by [Count] needs a time-out before it. *)
Lemma count_needs_timeout : forall rf o es1 es2 s, ~ In Timeout es1 ->
  run rf o (es1 ++ Count :: es2) init = Some s ->
  (quorum_size rf <= length (arrivals es1))%nat.
Proof.
  intros rf o es1 es2 s N R. rewrite run_app in R.
  destruct (run rf o es1 init) as [t|] eqn:R1; [|discriminate].
  assert (E : enough rf t).
  { eapply enough_run; [exact N|exact R1|]. split; cbn; [exact I|discriminate]. }
  pose proof (inv_run _ _ _ _ R1) as V. cbn [run step] in R.
  unfold inv in V. destruct E as [E _]. destruct (who t); try discriminate.
  rewrite <- V. exact E.
Qed.

(** ** Space for the replies *)

Definition bounded (rf : nat) (es : list event) (s : state) : Prop :=
  overrun s = true -> (rf < length (arrivals es))%nat.

Lemma bounded_run : forall rf o es s, run rf o es init = Some s -> bounded rf es s.
Proof.
  intros rf o es. induction es as [|e es IH] using rev_ind; intros s H.
  - cbn in H. injection H as <-. intro X; discriminate.
  - rewrite run_app in H. destruct (run rf o es init) as [t|] eqn:R; [|discriminate].
    specialize (IH t eq_refl). cbn [run] in H.
    destruct (step rf o e t) as [s'|] eqn:S; [|discriminate]. injection H as ->.
    pose proof (inv_got _ _ _ _ (inv_run _ _ _ _ R)) as G.
    unfold bounded in *. rewrite arrivals_app, app_length. intro V.
    destruct e; cbn [step arrivals length] in *.
    + unfold arrive in S. destruct (signalling t); [discriminate|].
      destruct (who t) eqn:W;
        (injection S as <-; cbn [overrun] in V;
         [ (apply orb_true_iff in V; destruct V as [V|V];
           [specialize (IH V); lia|];
           apply Nat.ltb_lt in V; rewrite app_length in V; cbn [length] in V;
           rewrite <- G by congruence; lia) ]) || (injection S as <-; specialize (IH V); lia).
    + destruct (signalling t && negb (holds_lock (who t))); [|discriminate].
      injection S as <-. specialize (IH V). lia.
    + destruct (who t); try discriminate. injection S as <-. specialize (IH V). lia.
    + destruct (who t); try discriminate. injection S as <-. specialize (IH V). lia.
    + destruct (who t); try discriminate. injection S as <-. specialize (IH V). lia.
    + destruct (who t); try discriminate. injection S as <-. specialize (IH V). lia.
    + destruct (who t); try discriminate. injection S as <-. specialize (IH V). lia.
    + destruct (who t); try discriminate. injection S as <-. specialize (IH V). lia.
    + destruct (who t); try discriminate. destruct (signalling t); [discriminate|].
      injection S as <-. specialize (IH V). lia.
Qed.

(** ** Queue reads *)

Lemma best_spec : forall o rs b0 b, best_ok o rs b0 = Some b ->
  (Some b = b0 \/ exists r, In r (acc o rs) /\ what r = b) /\
  (forall r, In r (acc o rs) -> upto_of (what r) <= upto_of b) /\
  (forall c, b0 = Some c -> upto_of c <= upto_of b).
Proof.
  intros o rs. induction rs as [|r rs IH]; intros b0 b H; cbn [best_ok] in H.
  - repeat split.
    + left; congruence.
    + intros r [].
    + intros c E. rewrite E in H; injection H as ->. lia.
  - unfold acc; cbn [filter]; fold (acc o rs). destruct (okp o (what r)) eqn:K.
    + apply IH in H. destruct H as (H1 & H2 & H3).
      assert (X : upto_of (what r) <= upto_of b /\ (forall c, b0 = Some c -> upto_of c <= upto_of b)).
      { destruct b0 as [c0|].
        - destruct (upto_of (what r) >? upto_of c0) eqn:E.
          + apply Z.gtb_lt in E. specialize (H3 _ eq_refl). split; [lia|].
            intros c Q. injection Q as <-. lia.
          + specialize (H3 _ eq_refl). rewrite Z.gtb_ltb in E. apply Z.ltb_ge in E.
            split; [lia|]. intros c Q. injection Q as <-. lia.
        - specialize (H3 _ eq_refl). split; [lia|]. intros c Q; discriminate. }
      split; [|split].
      * destruct H1 as [H1|(x & Hx & Ex)].
        -- destruct b0 as [c0|].
           ++ destruct (upto_of (what r) >? upto_of c0).
              ** injection H1 as ->. right. exists r. split; [left; reflexivity|reflexivity].
              ** left; exact H1.
           ++ injection H1 as ->. right. exists r. split; [left; reflexivity|reflexivity].
        -- right. exists x. split; [right; exact Hx|exact Ex].
      * intros x [<-|Hx]; [tauto|auto].
      * tauto.
    + apply IH in H. tauto.
Qed.

Lemma best_some : forall o rs b0, (acc o rs <> [] \/ b0 <> None) -> best_ok o rs b0 <> None.
Proof.
  intros o rs. induction rs as [|r rs IH]; intros b0 H; cbn [best_ok].
  - destruct H as [H|H]; [cbn in H; congruence|exact H].
  - unfold acc in H; cbn [filter] in H; fold (acc o rs) in H.
    destruct (okp o (what r)); apply IH; [right|tauto].
    destruct b0 as [c|]; [destruct (upto_of (what r) >? upto_of c)|]; discriminate.
Qed.

Lemma first_some : forall o rs, acc o rs <> [] ->
  exists r, In r (acc o rs) /\ first_ok o rs = Some (what r).
Proof.
  intros o rs. induction rs as [|r rs IH]; intro H; [cbn in H; congruence|].
  unfold acc in *; cbn [filter first_ok] in *; fold (acc o rs) in *.
  destruct (okp o (what r)).
  - exists r. split; [left; reflexivity|reflexivity].
  - apply IH; exact H.
Qed.

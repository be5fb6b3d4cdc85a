(** Proofs about sleeping and waking. *)
From Verif Require Import Base M_Wake.
Local Open Scope nat_scope.

Lemma wupd_same {A} (f : nat -> A) k x : wupd f k x k = x.
Proof. unfold wupd. now rewrite Nat.eqb_refl. Qed.
Lemma wupd_other {A} (f : nat -> A) k x k' : k' <> k -> wupd f k x k' = f k'.
Proof. unfold wupd. intros H. apply Nat.eqb_neq in H. now rewrite H. Qed.
Lemma wupd_cases {A} (f : nat -> A) k x k' : (k' = k /\ wupd f k x k' = x) \/ (k' <> k /\ wupd f k x k' = f k').
Proof. destruct (Nat.eq_dec k' k) as [E|N]; [left|right]; split; auto; [subst; apply wupd_same|now apply wupd_other]. Qed.

Section WakeProofs.
Variable n shared : nat.
Hypothesis shared_big : n < shared.
Hypothesis some_worker : 1 <= n.
Notation wstep := (wstep n shared).
Notation wrun := (wrun n shared).

Definition up (p : phase) : Prop := match p with PPoll | PPre => False | _ => True end.
Definition up_own (p : phase) : Prop := match p with PPoll | PPre | PShared => False | _ => True end.

Record winv (s : wst) : Prop := {
  wi_new : forall t, t <= n -> wph s t = PNew -> wpend s t = true;
  wi_work : forall t, t <= n -> wstat s t = WWorking -> wph s t = PRun;
  wi_noex : forall t, t <= n -> wstat s t = WNoExist -> wph s t = PNew;
  wi_scan : forall t i, In (WScan i) (wjobs s t) -> 1 <= i;
  wi_out : forall t, n < t -> wph s t = PPre;
  wi_zero : wph s 0 <> PShared;
  wi_own : forall t, t <= n -> wq s t <> [] ->
     wpend s t = true \/ up_own (wph s t) \/ exists t', In (WHead t) (wjobs s t');
  wi_shared : wq s shared <> [] ->
     (exists i, 1 <= i <= n /\ (wpend s i = true \/ up (wph s i))) \/
     exists t' j, In j (wjobs s t') /\ (j = WHead shared \/ exists k, j = WScan k /\ k <= n)
}.

Lemma winv_init : winv (winit n).
Proof.
  split; cbn [wph wpend wstat wjobs wq winit]; intros; try discriminate; try contradiction; auto.
  - apply Nat.leb_le in H. now rewrite H.
  - apply Nat.leb_le in H. now rewrite H.
  - apply Nat.leb_gt in H. now rewrite H.
Qed.

Ltac other := rewrite ?wupd_other by congruence.
Ltac cas0 f k x k' := let E := fresh "E" in let N := fresh "N" in destruct (wupd_cases f k x k') as [[E N]|[E N]]; rewrite N in *.
Ltac cas f k x k' := let E := fresh "E" in let N := fresh "N" in destruct (wupd_cases f k x k') as [[E N]|[E N]]; rewrite N in *; [subst k'|].


Lemma inv_move s t p pend' stat' : winv s -> t <= n -> p <> PNew -> (p = PShared -> t <> 0) ->
  (forall t', t' <> t -> pend' t' = wpend s t') -> (forall t', t' <> t -> stat' t' = wstat s t') ->
  (stat' t = WWorking -> p = PRun) -> stat' t <> WNoExist ->
  (wq s t <> [] -> pend' t = true \/ up_own p \/ exists t', In (WHead t) (wjobs s t')) ->
  (1 <= t -> wq s shared <> [] -> pend' t = true \/ up p \/ (wpend s t = false /\ ~ up (wph s t))) ->
  winv (mkW (wq s) pend' (wupd (wph s) t p) (wjobs s) stat').
Proof.
  intros I T P P0 Hp Hs Hw Hn Own Sh. split; cbn [wph wpend wstat wjobs wq].
  - intros t' L. cas (wph s) t p t'; [congruence|]. rewrite Hp by auto. now apply (wi_new _ I).
  - intros t' L. cas (wph s) t p t'; [auto|]. rewrite Hs by auto. now apply (wi_work _ I).
  - intros t' L. cas (wph s) t p t'; [congruence|]. rewrite Hs by auto. now apply (wi_noex _ I).
  - exact (wi_scan _ I).
  - intros t' L. rewrite wupd_other by lia. now apply (wi_out _ I).
  - cas0 (wph s) t p 0; [intros Q; apply P0 in Q; congruence|]. apply (wi_zero _ I).
  - intros t' L. cas (wph s) t p t'; [auto|]. rewrite Hp by auto. now apply (wi_own _ I).
  - intros Q. destruct (wi_shared _ I Q) as [(i & L & C)|C]; [|now right].
    destruct (Nat.eq_dec i t) as [->|D].
    + destruct (Sh ltac:(lia) Q) as [H|[H|[H1 H2]]].
      * left. exists t. split; [lia|]. now left.
      * left. exists t. split; [lia|]. rewrite wupd_same. now right.
      * destruct C; [congruence|contradiction].
    + left. exists i. split; [lia|]. rewrite Hp, wupd_other by auto. exact C.
Qed.

Lemma not_new s t : winv s -> t <= n -> wph s t <> PNew -> wstat s t <> WNoExist.
Proof. intros I L H K. apply H. now apply (wi_noex _ I). Qed.
Lemma worker s t : winv s -> wph s t <> PPre -> t <= n.
Proof. intros I H. destruct (Nat.leb_spec t n); [assumption|]. exfalso. apply H. now apply (wi_out _ I). Qed.
Lemma not_work s t : winv s -> t <= n -> wph s t <> PRun -> wstat s t <> WWorking.
Proof. intros I L H K. apply H. now apply (wi_work _ I). Qed.

Lemma inv_enq s t q a extra : winv s -> wjobs s t = [] -> valid n shared q = true ->
  (t <= n -> up_own (wph s t)) \/ extra = [WHead q] -> (extra = [] \/ extra = [WHead q]) ->
  (n < t -> extra = [WHead q]) ->
  winv (mkW (wupd (wq s) q (wq s q ++ [a])) (wpend s) (wph s) (wupd (wjobs s) t (enq_jobs n t q ++ extra)) (wstat s)).
Proof.
  intros I J V U X Out.
  assert (K : forall t' j, In j (wjobs s t') -> In j (wupd (wjobs s) t (enq_jobs n t q ++ extra) t')).
  { intros t' j H. cas (wjobs s) t (enq_jobs n t q ++ extra) t'; [rewrite J in H; contradiction|exact H]. }
  assert (H : t = q \/ In (WHead q) (enq_jobs n t q ++ extra)).
  { unfold enq_jobs. destruct (Nat.leb_spec t n) as [L|L]; [|right; rewrite (Out L); apply in_app_iff; right; now left].
    destruct (Nat.eqb_spec t q); cbn; auto. }
  split; cbn [wph wpend wstat wjobs wq].
  - exact (wi_new _ I).
  - exact (wi_work _ I).
  - exact (wi_noex _ I).
  - intros t' i. cas (wjobs s) t (enq_jobs n t q ++ extra) t'; [|apply (wi_scan _ I)].
    intros Q. apply in_app_iff in Q. exfalso. destruct Q as [Q|Q].
    + unfold enq_jobs in Q. destruct (_ && _); [destruct Q as [Q|[]]|contradiction]. discriminate.
    + destruct X as [->| ->]; [contradiction|]. destruct Q as [Q|[]]. discriminate.
  - exact (wi_out _ I).
  - exact (wi_zero _ I).
  - intros t' L. cas (wq s) q (wq s q ++ [a]) t'.
    + intros _. destruct H as [->|H].
      * destruct U as [U| ->]; [right; left; auto|]. right. right. exists q. rewrite wupd_same. apply in_app_iff. right. now left.
      * right. right. exists t. now rewrite wupd_same.
    + intros Q. destruct (wi_own _ I t' L Q) as [C|[C|(t'' & C)]]; auto. right. right. eauto.
  - cas0 (wq s) q (wq s q ++ [a]) shared.
    + intros _. rewrite <- E in *. right. exists t, (WHead shared). rewrite wupd_same. split; [|now left].
      destruct H as [->|H]; [|exact H]. rewrite (Out shared_big). apply in_app_iff. right. now left.
    + intros Q. destruct (wi_shared _ I Q) as [C|(t' & j & C & D)]; auto. right. exists t', j. split; [|exact D]. now apply K.
Qed.

Lemma inv_take s t q a r : winv s -> wjobs s t = [] -> t <= n -> wph s t <> PNew -> wstat s t <> WWorking -> wq s q = a :: r ->
  winv (mkW (wupd (wq s) q r) (wpend s) (wupd (wph s) t PGot) (wupd (wjobs s) t [WHead shared]) (wstat s)).
Proof.
  intros I J L Nn Nw E.
  assert (K : forall t' j, In j (wjobs s t') -> In j (wupd (wjobs s) t [WHead shared] t')).
  { intros t' j H. cas (wjobs s) t [WHead shared] t'; [rewrite J in H; contradiction|exact H]. }
  split; cbn [wph wpend wstat wjobs wq].
  - intros t' L'. cas (wph s) t PGot t'; [discriminate|]. now apply (wi_new _ I).
  - intros t' L'. cas (wph s) t PGot t'; [congruence|]. now apply (wi_work _ I).
  - intros t' L' H. cas (wph s) t PGot t'; [exfalso; eapply not_new; eauto|]. now apply (wi_noex _ I).
  - intros t' i. cas (wjobs s) t [WHead shared] t'; [intros [H|[]]; discriminate|apply (wi_scan _ I)].
  - intros t' L'. rewrite wupd_other by lia. now apply (wi_out _ I).
  - cas0 (wph s) t PGot 0; [discriminate|apply (wi_zero _ I)].
  - intros t' L'. intros Q. assert (Q' : wq s t' <> []).
    { cas (wq s) q r t'; [rewrite E; discriminate|exact Q]. }
    cas (wph s) t PGot t'; [right; left; exact Logic.I|].
    destruct (wi_own _ I t' L' Q') as [C|[C|(t'' & C)]]; auto. right. right. eauto.
  - intros _. right. exists t, (WHead shared). rewrite wupd_same. split; [now left|now left].
Qed.

Lemma inv_job s t j rest : winv s -> wjobs s t = j :: rest -> winv (job_step n shared t j rest s).
Proof.
  intros I E.
  assert (K : forall t' x, In x (wjobs s t') -> x <> j -> In x (wupd (wjobs s) t rest t')).
  { intros t' x H N. cas (wjobs s) t rest t'; [rewrite E in H; destruct H; [congruence|assumption]|exact H]. }
  assert (Sc : forall t' i, In (WScan i) (wupd (wjobs s) t rest t') -> 1 <= i).
  { intros t' i. cas (wjobs s) t rest t'; [|apply (wi_scan _ I)]. intros H. apply (wi_scan _ I t). rewrite E. now right. }
  assert (Pnew : forall q t', t' <= n -> wph s t' = PNew -> wupd (wpend s) q true t' = true).
  { intros q t' L H. cas (wpend s) q true t'; [reflexivity|]. now apply (wi_new _ I). }
  assert (Pk : forall q i, wpend s i = true -> wupd (wpend s) q true i = true).
  { intros q i H. cas (wpend s) q true i; auto. }
  destruct j as [q|i]; cbn [job_step].
  - destruct (wq s q) as [|a r] eqn:Eq.
    + split; cbn [wph wpend wstat wjobs wq set_jobs]; try apply I; auto.
      * intros t' L Q. destruct (wi_own _ I t' L Q) as [C|[C|(t'' & C)]]; auto. right. right. exists t''. apply K; auto. congruence.
      * intros Q. destruct (wi_shared _ I Q) as [C|(t' & x & C & D)]; auto. right. exists t', x. split; [|exact D]. apply K; auto.
        intros ->. destruct D as [D|(k & D & _)]; [|discriminate]. injection D as ->. congruence.
    + destruct (Nat.eqb_spec q shared) as [->|N].
      * split; cbn [wph wpend wstat wjobs wq set_jobs]; try apply I; auto.
        -- intros t' i. cas (wjobs s) t (WScan 1 :: rest) t'; [|apply (wi_scan _ I)].
           intros [H|H]; [injection H as <-; lia|]. apply (wi_scan _ I t). rewrite E. now right.
        -- intros t' L Q. destruct (wi_own _ I t' L Q) as [C|[C|(t'' & C)]]; auto. right. right. exists t''.
           cas (wjobs s) t (WScan 1 :: rest) t''; [|exact C]. right. rewrite E in C. destruct C as [C|C]; [|exact C].
           injection C as C. lia.
        -- intros Q. right. exists t, (WScan 1). rewrite wupd_same. split; [now left|]. right. exists 1. split; [reflexivity|exact some_worker].
      * split; cbn [wph wpend wstat wjobs wq set_jobs set_pend]; try apply I; auto.
        -- intros t' L Q. destruct (wi_own _ I t' L Q) as [C|[C|(t'' & C)]]; auto.
           destruct (Nat.eq_dec t' q) as [->|D]; [left; apply wupd_same|]. right. right. exists t''. apply K; auto. congruence.
        -- intros Q. destruct (wi_shared _ I Q) as [(k & L & C)|(t' & x & C & D)].
           ++ left. exists k. split; [exact L|]. destruct C; auto.
           ++ right. exists t', x. split; [|exact D]. apply K; auto. intros ->. destruct D as [D|(k & D & _)]; [|discriminate]. congruence.
  - assert (L1 : 1 <= i) by (apply (wi_scan _ I t); rewrite E; now left).
    destruct (Nat.ltb_spec n i) as [L|L].
    + split; cbn [wph wpend wstat wjobs wq set_jobs]; try apply I; auto.
      * intros t' L' Q. destruct (wi_own _ I t' L' Q) as [C|[C|(t'' & C)]]; auto. right. right. exists t''. apply K; auto. congruence.
      * intros Q. destruct (wi_shared _ I Q) as [C|(t' & x & C & D)]; auto. right. exists t', x. split; [|exact D]. apply K; auto.
        intros ->. destruct D as [D|(k & D & D')]; [discriminate|]. injection D as ->. lia.
    + assert (Go : wpend s i = true \/ up (wph s i) -> winv (set_jobs (wupd (wjobs s) t (WScan (S i) :: rest)) s)).
      { intros U. split; cbn [wph wpend wstat wjobs wq set_jobs]; try apply I; auto.
        - intros t' k. cas (wjobs s) t (WScan (S i) :: rest) t'; [|apply (wi_scan _ I)].
          intros [H|H]; [injection H as <-; lia|]. apply (wi_scan _ I t). rewrite E. now right.
        - intros t' L' Q. destruct (wi_own _ I t' L' Q) as [C|[C|(t'' & C)]]; auto. right. right. exists t''.
          cas (wjobs s) t (WScan (S i) :: rest) t''; [|exact C]. right. rewrite E in C. destruct C as [C|C]; [discriminate|exact C].
        - intros Q. left. exists i. auto. }
      destruct (wstat s i) eqn:Es.
      * apply Go. left. apply (wi_new _ I); auto. now apply (wi_noex _ I).
      * split; cbn [wph wpend wstat wjobs wq set_jobs set_pend]; try apply I; auto.
        -- intros t' L' Q. destruct (wi_own _ I t' L' Q) as [C|[C|(t'' & C)]]; auto. right. right. exists t''. apply K; auto. congruence.
        -- intros Q. left. exists i. split; [lia|]. left. apply wupd_same.
      * apply Go. right. rewrite (wi_work _ I i L Es). exact Logic.I.
Qed.

Lemma winv_step s l s' : winv s -> wstep s l s' -> winv s'.
Proof.
  intros I St. destruct St as
    [t L P J|t P J Pe|t P J|t P J|t L P J|t q a P J V|t L P J|t a r P J Q|t P J Q|t a r P J Q|t P J Q|t P J|t q a P J V|t P J|t P J|t P J|t j rest J].
  - (* start *) apply (inv_move s t PPoll (wpend s) (wupd (wstat s) t WIdle)); auto; try discriminate;
      rewrite ?wupd_same; try discriminate.
    + intros; now rewrite wupd_other.
    + intros _. left. now apply (wi_new _ I).
    + intros _ _. left. now apply (wi_new _ I).
  - (* poll *) assert (L : t <= n) by (apply (worker s t I); congruence).
    apply (inv_move s t PCb (wupd (wpend s) t false) (wstat s)); auto; try discriminate.
    + intros; now rewrite wupd_other.
    + intros H. exfalso. revert H. apply not_work; auto. congruence.
    + apply not_new; auto. congruence.
    + intros _. right. left. exact Logic.I.
    + intros _ _. right. left. exact Logic.I.
  - (* io *) assert (L : t <= n) by (apply (worker s t I); congruence).
    apply (inv_move s t PCb (wpend s) (wstat s)); auto; try discriminate.
    + intros H. exfalso. revert H. apply not_work; auto. congruence.
    + apply not_new; auto. congruence.
    + intros _. right. left. exact Logic.I.
    + intros _ _. right. left. exact Logic.I.
  - (* timer *) assert (L : t <= n) by (apply (worker s t I); congruence).
    apply (inv_move s t PPre (wpend s) (wstat s)); auto; try discriminate.
    + intros H. exfalso. revert H. apply not_work; auto. congruence.
    + apply not_new; auto. congruence.
    + intros Q. destruct (wi_own _ I t L Q) as [C|[C|C]]; auto. rewrite P in C. contradiction.
    + intros _ _. destruct (wpend s t); auto. right. right. rewrite P. auto.
  - (* back *)
    apply (inv_move s t PPoll (wpend s) (wstat s)); auto; try discriminate.
    + intros H. exfalso. revert H. apply not_work; auto. congruence.
    + apply not_new; auto. congruence.
    + intros Q. destruct (wi_own _ I t L Q) as [C|[C|C]]; auto. rewrite P in C. contradiction.
    + intros _ _. destruct (wpend s t); auto. right. right. rewrite P. auto.
  - (* async *) apply (inv_enq s t q a [WHead q]); auto.
  - (* check *)
    apply (inv_move s t PTop (wpend s) (wstat s)); auto; try discriminate.
    + intros H. exfalso. revert H. apply not_work; auto. congruence.
    + apply not_new; auto. congruence.
    + intros _. right. left. exact Logic.I.
    + intros _ _. right. left. exact Logic.I.
  - (* own *) assert (L : t <= n) by (apply (worker s t I); congruence).
    apply (inv_take s t t a r); auto; [congruence|]. apply not_work; auto. congruence.
  - (* own none *) assert (L : t <= n) by (apply (worker s t I); congruence).
    apply (inv_move s t (if t =? 0 then PPoll else PShared) (wpend s) (wstat s)); auto; try discriminate.
    + destruct (t =? 0); discriminate.
    + destruct (Nat.eqb_spec t 0); [discriminate|auto].
    + intros H. exfalso. revert H. apply not_work; auto. congruence.
    + apply not_new; auto. congruence.
    + intros T _. destruct (Nat.eqb_spec t 0); [lia|]. right. left. exact Logic.I.
  - (* shared *) assert (L : t <= n) by (apply (worker s t I); congruence).
    apply (inv_take s t shared a r); auto; [congruence|]. apply not_work; auto. congruence.
  - (* shared none *) assert (L : t <= n) by (apply (worker s t I); congruence).
    apply (inv_move s t PPoll (wpend s) (wstat s)); auto; try discriminate.
    + intros H. exfalso. revert H. apply not_work; auto. congruence.
    + apply not_new; auto. congruence.
    + intros Q'. destruct (wi_own _ I t L Q') as [C|[C|C]]; auto. rewrite P in C. contradiction.
  - (* work *) assert (L : t <= n) by (apply (worker s t I); congruence).
    apply (inv_move s t PRun (wpend s) (wupd (wstat s) t WWorking)); auto; try discriminate; rewrite ?wupd_same; try discriminate.
    + intros; now rewrite wupd_other.
    + intros _. right. left. exact Logic.I.
    + intros _ _. right. left. exact Logic.I.
  - (* ready *) assert (L : t <= n) by (apply (worker s t I); congruence).
    unfold set_q, set_jobs. cbn [wq wpend wph wjobs wstat].
    rewrite <- (app_nil_r (enq_jobs n t q)). apply (inv_enq s t q a []); auto.
    + left. intros _. rewrite P. exact Logic.I.
    + lia.
  - (* done *) assert (L : t <= n) by (apply (worker s t I); congruence).
    apply (inv_move s t PEnd (wpend s) (wupd (wstat s) t WIdle)); auto; try discriminate; rewrite ?wupd_same; try discriminate.
    + intros; now rewrite wupd_other.
    + intros _. right. left. exact Logic.I.
    + intros _ _. right. left. exact Logic.I.
  - (* again *) assert (L : t <= n) by (apply (worker s t I); congruence).
    apply (inv_move s t PTop (wpend s) (wstat s)); auto; try discriminate.
    + intros H. exfalso. revert H. apply not_work; auto. congruence.
    + apply not_new; auto. congruence.
    + intros _. right. left. exact Logic.I.
    + intros _ _. right. left. exact Logic.I.
  - (* yield *) assert (L : t <= n) by (apply (worker s t I); congruence).
    apply (inv_move s t PPoll (wupd (wpend s) t true) (wstat s)); auto; try discriminate.
    + intros; now rewrite wupd_other.
    + intros H. exfalso. revert H. apply not_work; auto. congruence.
    + apply not_new; auto. congruence.
    + intros _. left. apply wupd_same.
    + intros _ _. left. apply wupd_same.
  - (* job *) now apply inv_job.
Qed.

Lemma winv_run s ls s' : winv s -> wrun s ls s' -> winv s'.
Proof. intros I R. induction R; auto. apply IHR. eapply winv_step; eauto. Qed.

(** ** Progress *)
(** Steps that threads make on their own: no new work arrives, nothing happens outside. *)
Definition internal (l : wlabel) : Prop :=
  match l with WAsync _ _ _ | WReady _ _ _ | WIo _ | WTimer _ | WYield _ => False | _ => True end.
Definition way (s s' : wst) : Prop := exists ls, Forall internal ls /\ wrun s ls s'.

Lemma way_refl s : way s s. Proof. exists []. split; constructor. Qed.
Lemma run_app s1 l1 s2 l2 s3 : wrun s1 l1 s2 -> wrun s2 l2 s3 -> wrun s1 (l1 ++ l2) s3.
Proof. induction 1; cbn; auto. intros H2. econstructor; eauto. Qed.
Lemma way_trans s1 s2 s3 : way s1 s2 -> way s2 s3 -> way s1 s3.
Proof. intros (l1 & F1 & R1) (l2 & F2 & R2). exists (l1 ++ l2). split; [now apply Forall_app|eapply run_app; eauto]. Qed.
Lemma way_step s l s1 s2 : wstep s l s1 -> internal l -> way s1 s2 -> way s s2.
Proof. intros St F (ls & Fs & R). exists (l :: ls). split; [now constructor|econstructor; eauto]. Qed.
Lemma way_inv s s' : winv s -> way s s' -> winv s'.
Proof. intros I (ls & _ & R). eapply winv_run; eauto. Qed.

Definition called (s : wst) : Prop := exists i, 1 <= i <= n /\ (wpend s i = true \/ up (wph s i)).

(** The pending wake-ups of a thread can be completed; this loses no pending flag. *)
Lemma finish_jobs t : forall s, winv s -> exists s', way s s' /\
  (forall q, wq s' q = wq s q) /\ (forall u, wph s' u = wph s u) /\ (forall u, wpend s u = true -> wpend s' u = true) /\
  wjobs s' t = [] /\ (forall u, u <> t -> wjobs s' u = wjobs s u) /\
  (forall q, q <= n -> In (WHead q) (wjobs s t) -> wq s q <> [] -> wpend s' q = true) /\
  (wq s shared <> [] -> (In (WHead shared) (wjobs s t) \/ exists k, In (WScan k) (wjobs s t) /\ k <= n) -> called s').
Proof.
  assert (Main : forall c s, winv s -> forall j rest, wjobs s t = j :: rest ->
            (match j with WHead _ => n + 2 | WScan i => n + 1 - i end <= c) ->
     exists s', way s s' /\ (forall q, wq s' q = wq s q) /\ (forall u, wph s' u = wph s u) /\ (forall u, wpend s u = true -> wpend s' u = true) /\
       wjobs s' t = rest /\ (forall u, u <> t -> wjobs s' u = wjobs s u) /\
       (forall q, q <= n -> j = WHead q -> wq s q <> [] -> wpend s' q = true) /\
       (wq s shared <> [] -> (j = WHead shared \/ exists k, j = WScan k /\ k <= n) -> called s')).
  { induction c as [|c IH]; intros s I j rest E B.
    - destruct j as [q|i]; [lia|].
      eexists. split; [eapply way_step; [eapply ws_job; exact E|exact Logic.I|apply way_refl]|].
      cbn [job_step]. destruct (Nat.ltb_spec n i) as [L|L]; [|lia].
      cbn [wph wpend wstat wjobs wq set_jobs]. rewrite wupd_same.
      repeat split; auto; [intros; now rewrite wupd_other|discriminate|].
      intros _ [D|(k & D & D')]; [discriminate|]. injection D as ->. lia.
    - pose proof (ws_job n shared s t j rest E) as St. pose proof (inv_job s t j rest I E) as I'.
      destruct j as [q|i]; cbn [job_step] in St, I'.
      + destruct (wq s q) as [|a r] eqn:Eq.
        * eexists. split; [eapply way_step; [exact St|exact Logic.I|apply way_refl]|].
          cbn [wph wpend wstat wjobs wq set_jobs]. rewrite wupd_same.
          repeat split; auto; [intros; now rewrite wupd_other|congruence|].
          intros Q [D|(k & D & _)]; congruence.
        * destruct (Nat.eqb_spec q shared) as [Es|N].
          -- destruct (IH _ I' (WScan 1) rest) as (s' & W & Q' & P' & Pe' & J' & O' & _ & C').
             ++ cbn [wjobs set_jobs]. apply wupd_same.
             ++ lia.
             ++ exists s'. split; [eapply way_step; [exact St|exact Logic.I|exact W]|].
                cbn [wph wpend wstat wjobs wq set_jobs] in *.
                repeat split; auto; [intros u Hu; rewrite O', wupd_other by auto; reflexivity|intros q' L D; exfalso; injection D as ->; lia|].
                intros Q _. apply C'; auto. right. exists 1. auto.
          -- eexists. split; [eapply way_step; [exact St|exact Logic.I|apply way_refl]|].
             cbn [wph wpend wstat wjobs wq set_jobs set_pend]. rewrite wupd_same.
             repeat split; auto.
             ++ intros u Hu. cas (wpend s) q true u; auto.
             ++ intros; now rewrite wupd_other.
             ++ intros q' L D _. injection D as ->. apply wupd_same.
             ++ intros _ [D|(k & D & _)]; [congruence|discriminate].
      + destruct (Nat.ltb_spec n i) as [L|L].
        * eexists. split; [eapply way_step; [exact St|exact Logic.I|apply way_refl]|].
          cbn [wph wpend wstat wjobs wq set_jobs]. rewrite wupd_same.
          repeat split; auto; [intros; now rewrite wupd_other|discriminate|].
          intros _ [D|(k & D & D')]; [discriminate|]. injection D as ->. lia.
        * assert (L1 : 1 <= i) by (apply (wi_scan _ I t); rewrite E; now left).
          assert (Go : wpend s i = true \/ up (wph s i) -> wstep s (WJob t) (set_jobs (wupd (wjobs s) t (WScan (S i) :: rest)) s) ->
                  winv (set_jobs (wupd (wjobs s) t (WScan (S i) :: rest)) s) ->
            exists s', way s s' /\ (forall q, wq s' q = wq s q) /\ (forall u, wph s' u = wph s u) /\ (forall u, wpend s u = true -> wpend s' u = true) /\
             wjobs s' t = rest /\ (forall u, u <> t -> wjobs s' u = wjobs s u) /\
             (forall q, q <= n -> WScan i = WHead q -> wq s q <> [] -> wpend s' q = true) /\
             (wq s shared <> [] -> (WScan i = WHead shared \/ exists k, WScan i = WScan k /\ k <= n) -> called s')).
          { intros U St1 I1. destruct (IH _ I1 (WScan (S i)) rest) as (s' & W & Q' & P' & Pe' & J' & O' & _ & C').
            - cbn [wjobs set_jobs]. apply wupd_same.
            - lia.
            - exists s'. split; [eapply way_step; [exact St1|exact Logic.I|exact W]|].
              cbn [wph wpend wstat wjobs wq set_jobs] in *.
              repeat split; auto; [intros u Hu; rewrite O', wupd_other by auto; reflexivity|discriminate|].
              intros _ _. exists i. split; [lia|]. rewrite P'. destruct U; auto. }
          destruct (wstat s i) eqn:Es.
          -- apply Go; auto. left. apply (wi_new _ I); auto. now apply (wi_noex _ I).
          -- eexists. split; [eapply way_step; [exact St|exact Logic.I|apply way_refl]|].
             cbn [wph wpend wstat wjobs wq set_jobs set_pend]. rewrite wupd_same.
             repeat split; auto.
             ++ intros u Hu. cas (wpend s) i true u; auto.
             ++ intros; now rewrite wupd_other.
             ++ discriminate.
             ++ intros _ _. exists i. split; [lia|]. left. cbn. apply wupd_same.
          -- apply Go; auto. right. rewrite (wi_work _ I i L Es). exact Logic.I. }
  intros s I. remember (wjobs s t) as js eqn:Ej. symmetry in Ej. revert s I Ej.
  induction js as [|j rest IH]; intros s I E.
  - exists s. split; [apply way_refl|]. rewrite E. repeat split; auto. intros _ [[]|(k & [] & _)].
  - destruct (Main _ s I j rest E (le_n _)) as (s1 & W1 & Q1 & P1 & Pe1 & J1 & O1 & H1 & C1).
    assert (I1 : winv s1) by (eapply way_inv; eauto).
    destruct (IH s1 I1 J1) as (s2 & W2 & Q2 & P2 & Pe2 & J2 & O2 & H2 & C2).
    exists s2. split; [eapply way_trans; eauto|].
    split; [intros; now rewrite Q2, Q1|]. split; [intros; now rewrite P2, P1|]. split; [auto|]. split; [exact J2|].
    split; [intros u Hu; rewrite O2, O1; auto|]. split.
    + intros q L D Q. destruct D as [D|D]; [auto|]. apply H2; auto. now rewrite Q1.
    + intros Q D.
      assert (K : (j = WHead shared \/ exists k, j = WScan k /\ k <= n) \/ (In (WHead shared) rest \/ exists k, In (WScan k) rest /\ k <= n)).
      { destruct D as [[D|D]|(k & [D|D] & L)]; eauto 6. }
      destruct K as [K|K].
      * destruct (C1 Q K) as (i & L & [C|C]); exists i; (split; [exact L|]); [left; auto|right; now rewrite P2].
      * apply C2; [now rewrite Q1|exact K].
Qed.

Definition at_top (s : wst) (t : nat) : Prop := exists s', way s s' /\ (forall q, wq s' q = wq s q) /\ wph s' t = PTop /\ wjobs s' t = [].

Lemma top_via s l s1 t : wstep s l s1 -> internal l -> (forall q, wq s1 q = wq s q) -> at_top s1 t -> at_top s t.
Proof. intros St Il Q (s' & W & Q' & P & J). exists s'. split; [eapply way_step; eauto|]. split; [intros; now rewrite Q', Q|auto]. Qed.

Lemma top_end s t : wph s t = PEnd -> wjobs s t = [] -> at_top s t.
Proof.
  intros P J. eapply top_via; [apply (ws_again n shared s t P J)|exact Logic.I|reflexivity|].
  exists (move t PTop s). split; [apply way_refl|]. split; [reflexivity|]. cbn. rewrite wupd_same. auto.
Qed.
Lemma top_run s t : wph s t = PRun -> wjobs s t = [] -> at_top s t.
Proof.
  intros P J. eapply top_via; [apply (ws_done n shared s t P J)|exact Logic.I|reflexivity|].
  apply top_end; cbn; [apply wupd_same|exact J].
Qed.
Lemma top_got s t : wph s t = PGot -> wjobs s t = [] -> at_top s t.
Proof.
  intros P J. eapply top_via; [apply (ws_work n shared s t P J)|exact Logic.I|reflexivity|].
  apply top_run; cbn; [apply wupd_same|exact J].
Qed.
Lemma top_cb s t : t <= n -> wph s t = PCb -> wjobs s t = [] -> at_top s t.
Proof.
  intros L P J. eapply top_via; [apply (ws_check n shared s t L P J)|exact Logic.I|reflexivity|].
  exists (move t PTop s). split; [apply way_refl|]. split; [reflexivity|]. cbn. rewrite wupd_same. auto.
Qed.
Lemma top_poll s t : t <= n -> wph s t = PPoll -> wjobs s t = [] -> wpend s t = true -> at_top s t.
Proof.
  intros L P J Pe. eapply top_via; [apply (ws_poll n shared s t P J Pe)|exact Logic.I|reflexivity|].
  apply top_cb; cbn; [exact L|apply wupd_same|exact J].
Qed.
Lemma top_pre s t : t <= n -> wph s t = PPre -> wjobs s t = [] -> wpend s t = true -> at_top s t.
Proof.
  intros L P J Pe. eapply top_via; [apply (ws_back n shared s t L P J)|exact Logic.I|reflexivity|].
  apply top_poll; cbn; [exact L|apply wupd_same|exact J|exact Pe].
Qed.
Lemma top_new s t : t <= n -> wph s t = PNew -> wjobs s t = [] -> wpend s t = true -> at_top s t.
Proof.
  intros L P J Pe. eapply top_via; [apply (ws_start n shared s t L P J)|exact Logic.I|reflexivity|].
  apply top_poll; cbn; [exact L|apply wupd_same|exact J|exact Pe].
Qed.
Lemma top_any s t : winv s -> t <= n -> wph s t <> PShared -> wjobs s t = [] -> wpend s t = true \/ up_own (wph s t) -> at_top s t.
Proof.
  intros I L N J C. destruct (wph s t) eqn:P; try (destruct C as [C|C]; [|contradiction C]).
  - apply top_new; auto. now apply (wi_new _ I).
  - now apply top_poll.
  - now apply top_pre.
  - now apply top_cb.
  - exists s. split; [apply way_refl|]. auto.
  - contradiction.
  - now apply top_got.
  - now apply top_run.
  - now apply top_end.
Qed.

Definition served (s : wst) (q a : nat) : Prop := exists s' t s'', way s s' /\ wstep s' (WTake t q a) s''.

Lemma served_via s s' q a : way s s' -> served s' q a -> served s q a.
Proof. intros W (s1 & t & s2 & W1 & St). exists s1, t, s2. split; [eapply way_trans; eauto|exact St]. Qed.

(** After a take, the thread gets back to the top of its loop. *)
Lemma top_take s l t q a r : winv s -> wstep s l (move t PGot (set_q (wupd (wq s) q r) (set_jobs (wupd (wjobs s) t [WHead shared]) s))) ->
  internal l -> wq s q = a :: r ->
  exists s', way s s' /\ wq s' q = r /\ (forall q', q' <> q -> wq s' q' = wq s q') /\ wph s' t = PTop /\ wjobs s' t = [].
Proof.
  intros I St Il Q. assert (I1 := winv_step _ _ _ I St).
  destruct (finish_jobs t _ I1) as (s2 & W2 & Q2 & P2 & _ & J2 & _).
  assert (T : at_top s2 t).
  { apply top_got; [|exact J2]. rewrite P2. cbn. apply wupd_same. }
  destruct T as (s3 & W3 & Q3 & P3 & J3). exists s3. split; [eapply way_step; [exact St|exact Il|eapply way_trans; eauto]|].
  split; [rewrite Q3, Q2; cbn; apply wupd_same|]. split; [|auto].
  intros q' N. rewrite Q3, Q2. cbn. now rewrite wupd_other.
Qed.

(** A worker at the top of its loop first empties its own queue and then turns to the shared one. *)
Lemma serve_shared t a r : 1 <= t <= n -> forall own s, winv s -> wq s t = own -> wq s shared = a :: r ->
  wph s t = PTop -> wjobs s t = [] -> served s shared a.
Proof.
  intros L. induction own as [|x own IH]; intros s I Qo Qs P J.
  - pose proof (ws_own_none n shared s t P J Qo) as St. destruct (Nat.eqb_spec t 0); [lia|].
    eapply served_via; [eapply way_step; [exact St|exact Logic.I|apply way_refl]|].
    eexists _, t, _. split; [apply way_refl|]. apply (ws_shared n shared _ t a r); cbn; [apply wupd_same|exact J|exact Qs].
  - pose proof (ws_own n shared s t x own P J Qo) as St.
    destruct (top_take s _ t t x own I St Logic.I Qo) as (s' & W & Q1 & Q2 & P' & J').
    eapply served_via; [exact W|]. apply (IH s'); auto; [eapply way_inv; eauto|]. rewrite Q2; [exact Qs|lia].
Qed.

Lemma serve_own_cov s t a r : winv s -> t <= n -> wq s t = a :: r -> wpend s t = true \/ up_own (wph s t) -> served s t a.
Proof.
  intros I L Q C. destruct (finish_jobs t s I) as (s1 & W1 & Q1 & P1 & Pe1 & J1 & _).
  assert (I1 : winv s1) by (eapply way_inv; eauto). eapply served_via; [exact W1|].
  assert (C1 : wpend s1 t = true \/ up_own (wph s1 t)) by (rewrite P1; destruct C; auto).
  assert (Top : forall s, winv s -> wq s t = a :: r -> at_top s t -> served s t a).
  { clear. intros s I Q (s' & W & Q' & P & J). eapply served_via; [exact W|].
    eexists s', t, _. split; [apply way_refl|]. apply (ws_own n shared s' t a r); auto. now rewrite Q', Q. }
  assert (D : wph s1 t = PShared \/ wph s1 t <> PShared) by (destruct (wph s1 t); auto; right; discriminate).
  destruct D as [D|D]; [|apply Top; auto; [now rewrite Q1|now apply top_any]].
  rewrite D in C1. destruct C1 as [C1|[]].
  assert (T0 : t <> 0) by (intros ->; now apply (wi_zero _ I1)).
  destruct (wq s1 shared) as [|x y] eqn:Qs.
  - pose proof (ws_shared_none n shared s1 t D J1 Qs) as St.
    eapply served_via; [eapply way_step; [exact St|exact Logic.I|apply way_refl]|].
    apply Top; [eapply winv_step; eauto|cbn; now rewrite Q1|]. apply top_poll; cbn; [exact L|apply wupd_same|exact J1|exact C1].
  - pose proof (ws_shared n shared s1 t x y D J1 Qs) as St.
    destruct (top_take s1 _ t shared x y I1 St Logic.I Qs) as (s' & W & Q2 & Q3 & P' & J').
    eapply served_via; [exact W|]. apply Top; [eapply way_inv; eauto|rewrite Q3, Q1; [exact Q|lia]|].
    exists s'. split; [apply way_refl|]. auto.
Qed.

Lemma serve_shared_cov s a r : winv s -> wq s shared = a :: r -> called s -> served s shared a.
Proof.
  intros I Q (t & L & C). destruct (finish_jobs t s I) as (s1 & W1 & Q1 & P1 & Pe1 & J1 & _).
  assert (I1 : winv s1) by (eapply way_inv; eauto). eapply served_via; [exact W1|].
  assert (C1 : wpend s1 t = true \/ up (wph s1 t)) by (rewrite P1; destruct C; auto).
  assert (D : wph s1 t = PShared \/ wph s1 t <> PShared) by (destruct (wph s1 t); auto; right; discriminate).
  destruct D as [D|D].
  - eexists s1, t, _. split; [apply way_refl|]. apply (ws_shared n shared s1 t a r); auto. now rewrite Q1.
  - assert (C2 : wpend s1 t = true \/ up_own (wph s1 t)) by (destruct C1 as [C1|C1]; auto; right; destruct (wph s1 t); auto; contradiction).
    destruct (top_any s1 t I1 ltac:(lia) D J1 C2) as (s2 & W2 & Q2 & P2 & J2).
    eapply served_via; [exact W2|]. eapply (serve_shared t a r L); eauto; [eapply way_inv; eauto|]. now rewrite Q2, Q1.
Qed.

Lemma served_always s q a r : winv s -> valid n shared q = true -> wq s q = a :: r -> served s q a.
Proof.
  intros I V Q. apply orb_prop in V. destruct V as [V|V].
  - apply Nat.leb_le in V. assert (N : wq s q <> []) by (rewrite Q; discriminate).
    destruct (wi_own _ I q V N) as [C|[C|(t & C)]]; [eapply serve_own_cov; eauto..|].
    destruct (finish_jobs t s I) as (s1 & W1 & Q1 & _ & _ & _ & _ & H & _).
    eapply served_via; [exact W1|]. eapply serve_own_cov; [eapply way_inv; eauto|exact V|rewrite Q1; exact Q|]. left. now apply H.
  - apply Nat.eqb_eq in V. subst q. assert (N : wq s shared <> []) by (rewrite Q; discriminate).
    destruct (wi_shared _ I N) as [C|(t & j & C & D)]; [eapply serve_shared_cov; eauto|].
    destruct (finish_jobs t s I) as (s1 & W1 & Q1 & _ & _ & _ & _ & _ & H).
    eapply served_via; [exact W1|]. eapply serve_shared_cov; [eapply way_inv; eauto|rewrite Q1; exact Q|]. apply H; auto.
    destruct D as [->|(k & -> & L)]; eauto.
Qed.
End WakeProofs.

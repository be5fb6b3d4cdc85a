(** Proofs about the pause of worker threads. *)
From Verif Require Import Base M_Pause S_Pause.
Local Open Scope nat_scope.

Definition cnt (f : nat -> bool) (n : nat) : nat := length (filter f (seq 0 n)).

Lemma cnt_S f n : cnt f (S n) = cnt f n + (if f n then 1 else 0).
Proof. unfold cnt. rewrite seq_S, filter_app, app_length. cbn [filter plus]. destruct (f n); reflexivity. Qed.

Lemma cnt_set f n w : f w = false -> cnt (pset f w true) n = cnt f n + (if w <? n then 1 else 0).
Proof.
  intro F. induction n as [|n IH]; [reflexivity|]. rewrite !cnt_S, IH. unfold pset at 1.
  destruct (Nat.eqb_spec n w) as [->|N].
  - rewrite F. destruct (w <? w) eqn:A; destruct (w <? S w) eqn:B; lia.
  - destruct (w <? n) eqn:A; destruct (w <? S n) eqn:B; lia.
Qed.

Lemma cnt_none n : cnt (fun _ => false) n = 0.
Proof. induction n as [|n IH]; [reflexivity|]. rewrite cnt_S, IH. reflexivity. Qed.

Lemma cnt_le f n : cnt f n <= n.
Proof. induction n as [|n IH]; [cbn; lia|]. rewrite cnt_S. destruct (f n); lia. Qed.

(** If all but one of n + 1 are counted, then the one not counted is the only one. *)
Lemma cnt_miss f : forall n w i, w < n -> i < n -> f w = false -> f i = false -> i <> w -> cnt f n + 2 <= n.
Proof.
  induction n as [|n IH]; intros w i W I Fw Fi N; [lia|]. rewrite cnt_S.
  destruct (Nat.eq_dec w n) as [->|Nw].
  - rewrite Fw. clear IH. assert (cnt f n + 1 <= n); [|lia]. assert (I' : i < n) by lia. clear - I' Fi.
    revert I'. induction n as [|n IH]; intro I; [lia|]. rewrite cnt_S. destruct (Nat.eq_dec i n) as [->|Ni].
    + rewrite Fi. pose proof (cnt_le f n). lia.
    + destruct (f n); lia.
  - destruct (Nat.eq_dec i n) as [->|Ni].
    + rewrite Fi. assert (cnt f n + 1 <= n); [|lia]. assert (W' : w < n) by lia. clear - W' Fw.
      revert W'. induction n as [|n IH]; intro I; [lia|]. rewrite cnt_S. destruct (Nat.eq_dec w n) as [->|Ni].
      * rewrite Fw. pose proof (cnt_le f n). lia.
      * destruct (f n); lia.
    + assert (cnt f n + 2 <= n) by (apply (IH w i); auto; lia). destruct (f n); lia.
Qed.

Lemma cnt_all f n w : w < n -> f w = false -> (forall i, i < n -> i <> w -> f i = true) -> cnt f n + 1 = n.
Proof.
  revert w. induction n as [|n IH]; intros w W F H; [lia|]. rewrite cnt_S. destruct (Nat.eq_dec w n) as [->|N].
  - rewrite F. assert (A : forall m, m <= n -> cnt f m = m).
    { induction m as [|m IHm]; intro M; [reflexivity|]. rewrite cnt_S, IHm, (H m) by lia. lia. }
    rewrite A by lia. lia.
  - rewrite (H n) by lia. assert (cnt f n + 1 = n); [|lia]. apply (IH w); auto; try lia; try (intros; apply H; lia).
Qed.

(** A worker that cannot execute actor code. *)
Definition stopped (s : pst) (i : nat) : Prop :=
  pphase s i = PParked \/ pexit s = true /\ (pphase s i = PTop \/ pphase s i = PFree).

Record pinv (n : nat) (s : pst) : Prop := {
  pi_cnt : preq s = true -> pcount s = cnt (pparked s) (S n);
  pi_own : preq s = true -> exists o, powner s = Some o /\ o <= n /\ pparked s o = false;
  pi_stop : preq s = true -> forall i, i <= n -> pparked s i = true -> stopped s i;
  pi_wait : forall w, w <= n -> pphase s w = PWait -> preq s = true /\ powner s = Some w /\ holds (plog s) w = false;
  pi_hold : forall w, holds (plog s) w = true -> w <= n /\ preq s = true /\ powner s = Some w /\ n <= pcount s /\ pphase s w <> PParked /\ pphase s w <> PWait;
  pi_rel : preq s = true -> forall o, powner s = Some o -> pphase s o = PWait \/ holds (plog s) o = true
}.

Lemma pset_same {A} (f : nat -> A) w x : pset f w x w = x.
Proof. unfold pset. now rewrite Nat.eqb_refl. Qed.
Lemma pset_other {A} (f : nat -> A) w x i : i <> w -> pset f w x i = f i.
Proof. intro N. unfold pset. destruct (Nat.eqb_spec i w); congruence. Qed.

Ltac psetd i w := destruct (Nat.eq_dec i w) as [->|?]; [rewrite ?pset_same in *|rewrite ?(pset_other _ w _ i) in * by assumption].

(** Going to another phase outside of the pause code. *)
Lemma goto_inv n s w x : pinv n s -> pphase s w <> PWait -> w <= n -> x = PTop \/ x = PFree \/ x = PExec ->
  (preq s = true -> pparked s w = true -> pexit s = true /\ x <> PExec) -> pinv n (goto s w x).
Proof.
  intros [C O S W H RL] NW L X P. split; cbn [goto preq powner pcount pparked pexit pphase plog]; auto.
  - intros R i Li Pi. specialize (S R i Li Pi). unfold stopped in *. cbn [goto pexit pphase]. psetd i w; auto.
    destruct (P R Pi) as [E NE]. right. split; auto. intuition (subst; try congruence; auto).
  - intros v Lv Pv. psetd v w; [destruct X as [->|[->| ->]]; discriminate|]. auto.
  - intros v Hv. destruct (H v Hv) as (A & B & D & E & F & G). repeat split; auto; psetd v w; auto; destruct X as [->|[->| ->]]; discriminate.
  - intros R o E. destruct (RL R o E) as [A|A]; [|auto]. psetd o w; [congruence|auto].
Qed.

Lemma pstep_inv n s s' : pinv n s -> pstep n s s' -> pinv n s'.
Proof.
  intros I T. pose proof I as I0. destruct I as [C O S W H RL].
  assert (NW : forall w, pphase s w = PTop \/ pphase s w = PParked \/ pphase s w = PFree \/ pphase s w = PExec -> pphase s w <> PWait) by (intros w D E; rewrite E in D; intuition discriminate).
  destruct T as [w L P|w L P E|w L P E|w L P E|w L P|w L P|w L P|w L P| | ].
  - unfold pause_check. destruct (preq s) eqn:R; cbn [andb].
    2:{ apply goto_inv; [auto|apply NW; tauto| auto..|]. intros A; congruence. }
    destruct (O eq_refl) as (o & Eo & Lo & Po). unfold is_owner. rewrite Eo.
    destruct (Nat.eqb_spec o w) as [->|No]; cbn [negb andb].
    { apply goto_inv; [auto|apply NW; tauto| auto..|]. intros _ A. congruence. }
    destruct (pexit s) eqn:X; cbn [negb].
    { apply goto_inv; [auto|apply NW; tauto| auto..|]. intros; split; [assumption|discriminate]. }
    destruct (pparked s w) eqn:K.
    + split; cbn [goto preq powner pcount pparked pexit pphase plog]; auto.
      * intros _ i Li Pi. unfold stopped. cbn [goto pexit pphase]. psetd i w; auto. apply (S eq_refl i Li Pi).
      * intros v Lv Pv. psetd v w; [discriminate|]. destruct (W v Lv Pv) as (_ & A1 & A2); repeat split; auto; congruence.
      * intros v Hv. destruct (H v Hv) as (A & B & D & F & G & J). assert (v <> w) by congruence. repeat split; auto; psetd v w; auto; congruence.
      * intros _ v Ev. assert (v <> w) by congruence. rewrite pset_other by auto. apply RL; auto; congruence.
    + split; cbn [preq powner pcount pparked pexit pphase plog].
      * intros _. rewrite cnt_set, C by auto. destruct (Nat.ltb_spec w (Datatypes.S n)); lia.
      * intros _. exists o. repeat split; auto. rewrite pset_other; auto.
      * intros _ i Li Pi. unfold stopped. cbn [pexit pphase]. psetd i w; auto. destruct (S eq_refl i Li Pi) as [A|[A _]]; [auto|congruence].
      * intros v Lv Pv. psetd v w; [discriminate|]. destruct (W v Lv Pv) as (_ & A1 & A2); repeat split; auto; congruence.
      * intros v Hv. destruct (H v Hv) as (A & B & D & F & G & J). assert (v <> w) by congruence. repeat split; auto; psetd v w; auto; congruence.
      * intros _ v Ev. assert (v <> w) by congruence. rewrite pset_other by auto. apply RL; auto; congruence.
  - apply goto_inv; [auto|apply NW; tauto| auto..|]. intros; split; [assumption|discriminate].
  - apply goto_inv; [auto|apply NW; tauto| auto..|]. intros R K. destruct (S R w L K) as [A|[A _]]; congruence.
  - apply goto_inv; [auto|apply NW; tauto| auto..|]. intros R K. destruct (S R w L K) as [A|[A _]]; congruence.
  - apply goto_inv; [auto|apply NW; tauto| auto..|]. intros R K. destruct (S R w L K) as [A|[A [B|B]]]; congruence.
  - unfold pause_begin. destruct (negb (pstarted s) || preq s || pexit s) eqn:G.
    + split; cbn [preq powner pcount pparked pexit pphase plog holds]; auto.
    + apply Bool.orb_false_iff in G. destruct G as [G X]. apply Bool.orb_false_iff in G. destruct G as [G R].
      split; cbn [preq powner pcount pparked pexit pphase plog].
      * intros _. now rewrite cnt_none.
      * intros _. exists w. auto.
      * intros _ i Li Pi. discriminate.
      * intros v Lv Pv. psetd v w.
        -- repeat split; auto. destruct (holds (plog s) w) eqn:Hw; auto. destruct (H w Hw) as (_ & B & _). congruence.
        -- destruct (W v Lv Pv) as (A & _). congruence.
      * intros v Hv. destruct (H v Hv) as (_ & B & _). congruence.
      * intros _ v Ev. injection Ev as <-. rewrite pset_same. auto.
  - destruct (W w L P) as (R & Eo & Hw). unfold pause_wait. destruct ((pcount s <? n) && negb (pexit s)) eqn:G; [exact I0|].
    destruct (pexit s) eqn:X.
    + split; cbn [preq powner pcount pparked pexit pphase plog holds]; try discriminate.
      * intros v Lv Pv. psetd v w; [discriminate|]. destruct (W v Lv Pv) as (_ & A & _). congruence.
      * intros v Hv. destruct (H v Hv) as (_ & _ & A & _ & _ & B). assert (v = w) by congruence. subst v. congruence.
    + split; cbn [preq powner pcount pparked pexit pphase plog holds]; auto.
      * intros _ i Li Pi. specialize (S R i Li Pi). unfold stopped in *. cbn [pexit pphase]. psetd i w; destruct S as [A|[A _]]; auto; congruence.
      * intros v Lv Pv. psetd v w; [discriminate|]. destruct (W v Lv Pv) as (_ & A & _). congruence.
      * intros v Hv. assert (v = w).
        { destruct (Nat.eqb_spec w v) as [->|N]; auto. destruct (H v Hv) as (_ & _ & A & _). congruence. }
        subst v. rewrite pset_same. repeat split; auto; try discriminate. destruct (Nat.ltb_spec (pcount s) n); [discriminate G|lia].
      * intros _ v Ev. assert (v = w) by congruence. subst v. rewrite Nat.eqb_refl. auto.
  - unfold pause_end. unfold is_owner. destruct (preq s) eqn:R; cbn [negb orb].
    2:{ split; cbn [preq powner pcount pparked pexit pphase plog holds]; try discriminate.
        - intros v Lv Pv. destruct (W v Lv Pv) as (A & _). congruence.
        - intros v Hv. destruct (Nat.eqb_spec w v); [discriminate|]. destruct (H v Hv) as (_ & A & _). congruence. }
    destruct (O eq_refl) as (o & Eo & Lo & Po). rewrite Eo. destruct (Nat.eqb_spec o w) as [->|N]; cbn [negb].
    + split; cbn [preq powner pcount pparked pexit pphase plog holds]; try discriminate.
      * intros v Lv Pv. destruct (W v Lv Pv) as (_ & A & _). assert (v = w) by congruence. subst v. congruence.
      * intros v Hv. destruct (Nat.eqb_spec w v) as [E|E]; [discriminate|]. destruct (H v Hv) as (_ & _ & A & _). congruence.
    + split; cbn [preq powner pcount pparked pexit pphase plog holds]; auto.
      * intros _. exists o; auto.
      * intros v Lv Pv. destruct (W v Lv Pv) as (A & B & D). repeat split; auto; try congruence. destruct (Nat.eqb_spec w v); auto.
      * intros v Hv. destruct (Nat.eqb_spec w v) as [E|E]; [discriminate|]. auto. destruct (H v Hv) as (A & B & D & F & G). repeat split; try tauto; try congruence.
      * intros _ v Ev. destruct (Nat.eqb_spec w v); [congruence|]. apply RL; auto; congruence.
  - split; cbn [preq powner pcount pparked pexit pphase plog holds]; auto.
  - split; cbn [preq powner pcount pparked pexit pphase plog holds]; auto.
    intros R i Li Pi. destruct (S R i Li Pi) as [A|[A B]]; [left|right]; auto.
Qed.

Lemma preach_inv n s : preach n s -> pinv n s.
Proof.
  induction 1 as [|s s' R IH T]; [|eapply pstep_inv; eauto]. split; cbn; try discriminate.
Qed.

(** While w holds the pause, all others are stopped. *)
Lemma hold_stopped n s w : pinv n s -> holds (plog s) w = true -> forall i, i <= n -> i <> w -> stopped s i.
Proof.
  intros I Hw i Li Ni. destruct (pi_hold _ _ I w Hw) as (Lw & R & Eo & C & _).
  apply (pi_stop _ _ I R i Li). destruct (pparked s i) eqn:K; auto. exfalso.
  destruct (pi_own _ _ I R) as (o & Eo' & _ & Po). assert (o = w) by congruence. subst o.
  pose proof (pi_cnt _ _ I R). assert (cnt (pparked s) (S n) + 2 <= S n) by (apply (cnt_miss _ (S n) w i); auto; lia). lia.
Qed.

(** Rounds of checking of parked workers. *)
Lemma checks_reach n l : forall s, preach n s -> (forall i, In i l -> i <= n) -> preq s = true -> pexit s = false ->
  (forall i, In i l -> pphase s i = PParked \/ pphase s i = PTop) -> (forall i, In i l -> powner s <> Some i) ->
  let s' := checks s l in
  preach n s' /\ preq s' = true /\ pexit s' = false /\ powner s' = powner s /\ plog s' = plog s /\
  (forall i, ~ In i l -> pphase s' i = pphase s i) /\ (forall i, pparked s i = true \/ In i l -> pparked s' i = true).
Proof.
  induction l as [|w l IH]; intros s R L Q X P O; cbn [checks fold_left].
  { repeat split; auto. intros i [A|[]]; auto. }
  assert (Ow : is_owner s w = false).
  { unfold is_owner. destruct (powner s) as [o|] eqn:E; auto. destruct (Nat.eqb_spec o w) as [->|]; auto. exfalso. apply (O w); [left; auto|reflexivity]. }
  set (s1 := pause_check s w). assert (R1 : preach n s1).
  { eapply pr_step; [exact R|]. apply ps_check; [apply L; left; auto|]. destruct (P w); auto. left; auto. }
  assert (F : preq s1 = true /\ pexit s1 = false /\ powner s1 = powner s /\ plog s1 = plog s /\
              (forall i, i <> w -> pphase s1 i = pphase s i) /\ pphase s1 w = PParked /\ (forall i, pparked s i = true \/ i = w -> pparked s1 i = true)).
  { unfold s1, pause_check. rewrite Q, X, Ow. cbn [negb andb]. destruct (pparked s w) eqn:K; cbn [goto preq powner pcount pparked pexit pphase plog]; repeat split; auto.
    - intros. now rewrite pset_other.
    - now rewrite pset_same.
    - intros i [A| ->]; auto.
    - intros. now rewrite pset_other.
    - now rewrite pset_same.
    - intros i A. psetd i w; auto. destruct A; congruence. }
  destruct F as (F1 & F2 & F3 & F4 & F5 & F6 & F7). clearbody s1.
  destruct (IH s1) as (G1 & G2 & G3 & G4 & G5 & G6 & G7); auto.
  - intros i A. apply L. now right.
  - intros i A. destruct (Nat.eq_dec i w) as [->|N]; [auto|]. rewrite F5 by auto. apply P. now right.
  - intros i A. rewrite F3. apply O. now right.
  - fold (checks s1 l). repeat split; auto; try congruence.
    + intros i A. rewrite G6 by (intro; apply A; now right). apply F5. intro; subst; apply A; now left.
    + intros i A. apply G7. destruct A as [A|[A|A]]; auto.
Qed.

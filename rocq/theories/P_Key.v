(** Proofs about the key allocator. *)
From Verif Require Import Base M_Key.
Local Open Scope Z_scope.

Definition pcok (k0 : Z) (s : kst) (p : kpc) : Prop :=
  match p with
  | KOut => True
  | KIn => knext s = wrapS 64 (k0 - zlen (kout s))
  | KLoaded v => knext s = v /\ v = wrapS 64 (k0 - zlen (kout s))
  | KStored r => knext s = r /\ r = wrapS 64 (k0 - 1 - zlen (kout s))
  end.

Record kinv (k0 : Z) (s : kst) : Prop := {
  ki_out : rev (map snd (kout s)) = map (fun i => wrapS 64 (k0 - 1 - Z.of_nat i)) (seq 0 (length (kout s)));
  ki_free : klock s = false -> (forall t, kpcs s t = KOut) /\ knext s = wrapS 64 (k0 - zlen (kout s));
  ki_one : forall t t', kpcs s t <> KOut -> kpcs s t' <> KOut -> t = t';
  ki_pc : forall t, pcok k0 s (kpcs s t)
}.

Lemma wrapS_pred a : wrapS 64 (wrapS 64 a - 1) = wrapS 64 (a - 1).
Proof. unfold wrapS. lia. Qed.

Lemma upd_same (f : nat -> kpc) t x : kupd f t x t = x.
Proof. unfold kupd. now rewrite Nat.eqb_refl. Qed.
Lemma upd_other (f : nat -> kpc) t x t' : t' <> t -> kupd f t x t' = f t'.
Proof. unfold kupd. intros H. apply Nat.eqb_neq in H. now rewrite H. Qed.

Lemma locked k0 s t : kinv k0 s -> kpcs s t <> KOut -> klock s = true.
Proof. intros I H. destruct (klock s) eqn:E; [reflexivity|]. destruct (ki_free _ _ I E) as [F _]. now destruct (H (F t)). Qed.

Lemma kinv_step k0 s s' : - 2 ^ 63 <= k0 < 2 ^ 63 -> kinv k0 s -> kstep s s' -> kinv k0 s'.
Proof.
  intros R I St. destruct St as [t Hp Hl|t Hp|t v Hp|t r Hp].
  - destruct (ki_free _ _ I Hl) as [F N]. split; cbn [kout klock kpcs knext].
    + exact (ki_out _ _ I).
    + discriminate.
    + intros a b Ha Hb. destruct (Nat.eq_dec a t) as [->|Na]; destruct (Nat.eq_dec b t) as [->|Nb]; auto;
        [rewrite upd_other in Hb by auto|rewrite upd_other in Ha by auto|rewrite upd_other in Ha by auto]; exfalso; eauto.
    + intros a. destruct (Nat.eq_dec a t) as [->|Na]; [rewrite upd_same|rewrite upd_other by auto; rewrite F]; cbn; auto.
  - pose proof (ki_pc _ _ I t) as P. rewrite Hp in P. cbn in P.
    assert (L : klock s = true) by (apply (locked k0 s t I); congruence).
    assert (O : forall a, a <> t -> kpcs s a = KOut).
    { intros a Na. destruct (kpcs s a) eqn:E; auto; exfalso; apply Na; apply (ki_one _ _ I); congruence. }
    split; cbn [kout klock kpcs knext].
    + exact (ki_out _ _ I).
    + intros F; congruence.
    + intros a b Ha Hb. destruct (Nat.eq_dec a t) as [->|Na]; destruct (Nat.eq_dec b t) as [->|Nb]; auto;
        [rewrite upd_other in Hb by auto|rewrite upd_other in Ha by auto|rewrite upd_other in Ha by auto]; exfalso; eauto.
    + intros a. destruct (Nat.eq_dec a t) as [->|Na]; [rewrite upd_same|rewrite upd_other by auto; rewrite O by auto]; cbn; auto.
  - pose proof (ki_pc _ _ I t) as P. rewrite Hp in P. cbn in P. destruct P as [P1 P2].
    assert (L : klock s = true) by (apply (locked k0 s t I); congruence).
    assert (O : forall a, a <> t -> kpcs s a = KOut).
    { intros a Na. destruct (kpcs s a) eqn:E; auto; exfalso; apply Na; apply (ki_one _ _ I); congruence. }
    split; cbn [kout klock kpcs knext].
    + exact (ki_out _ _ I).
    + intros F; congruence.
    + intros a b Ha Hb. destruct (Nat.eq_dec a t) as [->|Na]; destruct (Nat.eq_dec b t) as [->|Nb]; auto;
        [rewrite upd_other in Hb by auto|rewrite upd_other in Ha by auto|rewrite upd_other in Ha by auto]; exfalso; eauto.
    + intros a. destruct (Nat.eq_dec a t) as [->|Na]; [rewrite upd_same|rewrite upd_other by auto; rewrite O by auto]; cbn; auto.
      split; [reflexivity|]. rewrite P2, wrapS_pred. f_equal. lia.
  - pose proof (ki_pc _ _ I t) as P. rewrite Hp in P. cbn in P. destruct P as [P1 P2].
    assert (O : forall a, a <> t -> kpcs s a = KOut).
    { intros a Na. destruct (kpcs s a) eqn:E; auto; exfalso; apply Na; apply (ki_one _ _ I); congruence. }
    assert (Z1 : zlen ((t, r) :: kout s) = zlen (kout s) + 1) by (unfold zlen; cbn [length]; lia).
    split; cbn [kout klock kpcs knext].
    + cbn [map snd rev length]. rewrite (ki_out _ _ I), seq_S, map_app. cbn [map Nat.add]. rewrite P2. unfold zlen. reflexivity.
    + intros _. split; [|rewrite Z1, P1, P2; f_equal; lia].
      intros a. destruct (Nat.eq_dec a t) as [->|Na]; [apply upd_same|rewrite upd_other by auto; auto].
    + intros a b Ha Hb. destruct (Nat.eq_dec a t) as [->|Na]; [rewrite upd_same in Ha; congruence|].
      rewrite upd_other in Ha by auto. exfalso; eauto.
    + intros a. destruct (Nat.eq_dec a t) as [->|Na]; [rewrite upd_same|rewrite upd_other by auto; rewrite O by auto]; cbn; auto.
Qed.

Lemma kreach_inv k0 s : - 2 ^ 63 <= k0 < 2 ^ 63 -> kreach k0 s -> kinv k0 s.
Proof.
  intros R H. induction H as [|s s' H IH St]; [|eapply kinv_step; eauto].
  split; cbn; auto; [|congruence]. intros _. split; [auto|]. unfold wrapS, zlen. cbn [length]. lia.
Qed.

Lemma wrapS_inj a b : wrapS 64 a = wrapS 64 b -> Z.abs (a - b) < 2 ^ 64 -> a = b.
Proof. unfold wrapS. intros. lia. Qed.

Lemma keys_nodup k0 n : Z.of_nat n <= 2 ^ 64 -> NoDup (map (fun i => wrapS 64 (k0 - 1 - Z.of_nat i)) (seq 0 n)).
Proof.
  intros Hn. assert (H : forall l, NoDup l -> (forall i, In i l -> (i < n)%nat) -> NoDup (map (fun i => wrapS 64 (k0 - 1 - Z.of_nat i)) l)).
  { induction l as [|x l IH]; cbn [map]; intros N B; [constructor|]. inversion N; subst. constructor.
    - intros K. apply in_map_iff in K. destruct K as (y & E & K). apply wrapS_inj in E.
      + assert (y = x) by lia. subst. contradiction.
      + pose proof (B x (or_introl eq_refl)). pose proof (B y (or_intror K)). lia.
    - apply IH; auto. intros i K. apply B. now right. }
  apply H; [apply seq_NoDup|]. intros i K. apply in_seq in K. lia.
Qed.

Lemma rec_fold ks : forall m, fold_left (fun m k => if k <? m then k else m) ks m <= m /\
  forall k, In k ks -> fold_left (fun m k => if k <? m then k else m) ks m <= k.
Proof.
  induction ks as [|x ks IH]; cbn [fold_left]; intros m; [split; [lia|contradiction]|].
  destruct (IH (if x <? m then x else m)) as [H1 H2]. destruct (Z.ltb_spec x m).
  - split; [lia|]. intros k [->|K]; auto.
  - split; [lia|]. intros k [->|K]; [lia|auto].
Qed.

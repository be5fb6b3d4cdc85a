(** Lemmas for the command line theorems: sub-commands. *)
From Verif Require Import Base P_Base S_Argparse M_Argparse P_Argparse.

Lemma values_own k n l : values k n l = vals n (own k (uses l)).
Proof.
  unfold values, vals, own. induction (uses l) as [|[[k' n'] v] us IH]; [reflexivity|].
  cbn [filter fst snd]. destruct (Nat.eqb k' k); cbn [andb map filter fst snd]; [|exact IH].
  destruct (teqb n' n); cbn [map snd]; [f_equal|]; exact IH.
Qed.

Lemma own_flags_others k j fs : k <> j -> own k (flag_uses (others j fs)) = own k (flag_uses fs).
Proof.
  intros N. induction fs as [|[[k' c] n] fs IH]; [reflexivity|].
  unfold others. cbn [filter fst snd]. fold (others j fs).
  destruct (Nat.eqb k' j) eqn:E; cbn [negb].
  - rewrite IH. apply Nat.eqb_eq in E. subst k'. unfold flag_uses, own. cbn [map filter fst snd].
    replace (Nat.eqb j k) with false by (symmetry; apply Nat.eqb_neq; congruence). reflexivity.
  - unfold flag_uses, own in *. cbn [map filter fst snd]. destruct (Nat.eqb k' k); cbn [map fst snd]; [f_equal|]; exact IH.
Qed.

Lemma own_left1 k j i : k <> j -> own k (uses (left1 j i)) = own k (uses1 i).
Proof.
  intros N.
  assert (ONE : forall k' n v i, uses1 i = [(k', n, v)] ->
    own k (uses (if negb (Nat.eqb k' j) then [i] else [])) = own k (uses1 i)).
  { intros k' n v i0 E. destruct (Nat.eqb k' j) eqn:Ek; cbn [negb uses flat_map]; [|rewrite app_nil_r; reflexivity].
    apply Nat.eqb_eq in Ek. subst k'. rewrite E. unfold own. cbn [filter fst snd].
    replace (Nat.eqb j k) with false by (symmetry; apply Nat.eqb_neq; congruence). reflexivity. }
  assert (GR : forall fs, own k (uses (match others j fs with [] => [] | fs' => [Group fs'] end)) = own k (flag_uses fs)).
  { intros fs. rewrite <- (own_flags_others k j fs N). destruct (others j fs); [reflexivity|].
    cbn [uses flat_map]. rewrite app_nil_r. reflexivity. }
  destruct i as [k' n|k' n v|k' n v|fs|fs k' c n v|k' c n v|v|n]; cbn [left1].
  - eapply ONE. reflexivity.
  - eapply ONE. reflexivity.
  - eapply ONE. reflexivity.
  - apply GR.
  - cbn [uses1]. fold (flag_uses fs). rewrite own_app. destruct (Nat.eqb k' j) eqn:Ek; cbn [negb].
    + apply Nat.eqb_eq in Ek. subst k'. fold (others j fs). rewrite GR. unfold own at 3. cbn [filter fst snd].
      replace (Nat.eqb j k) with false by (symmetry; apply Nat.eqb_neq; congruence). cbn [map]. rewrite app_nil_r. reflexivity.
    + cbn [uses flat_map uses1]. rewrite app_nil_r. fold (others j fs). fold (flag_uses (others j fs)). rewrite own_app, own_flags_others by assumption. reflexivity.
  - eapply ONE. reflexivity.
  - reflexivity.
  - reflexivity.
Qed.

Lemma own_left_over k j l : k <> j -> forall sb, own k (uses (left_over j sb l)) = own k (uses l).
Proof.
  intros N. induction l as [|i l IH]; intros sb; [reflexivity|].
  change (uses (i :: l)) with (uses1 i ++ uses l). rewrite own_app.
  assert (G : left_over j sb (i :: l) = left1 j i ++ left_over j sb l \/ exists n b, i = Cmd n /\ left_over j sb (i :: l) = b ++ left_over j true l /\ (b = [] \/ b = [Cmd n] )).
  { destruct i; try (left; reflexivity). right. exists name. cbn [left_over]. destruct sb.
    - exists [Cmd name]. auto.
    - exists []. auto. }
  destruct G as [->|(n & b & -> & -> & Hb)]; unfold uses; rewrite flat_map_app, own_app; fold uses.
  - fold (uses (left1 j i)). rewrite own_left1 by assumption. f_equal. apply IH.
  - change (flat_map uses1 l) with (uses l). rewrite <- (IH true). destruct Hb as [-> | ->]; reflexivity.
Qed.

Lemma positionals_app a b : positionals (a ++ b) = positionals a ++ positionals b.
Proof. induction a as [|i a IH]; [reflexivity|]. destruct i; cbn [app positionals]; rewrite IH; reflexivity. Qed.

Lemma positionals_left j l : forall sb, positionals (left_over j sb l) = positionals l.
Proof.
  induction l as [|i l IH]; intros sb; [reflexivity|].
  destruct i as [k n|k n v|k n v|fs|fs k c n v|k c n v|v|n]; cbn [left_over positionals]; rewrite ?positionals_app, ?IH; cbn [left1].
  - destruct (Nat.eqb k j); reflexivity.
  - destruct (Nat.eqb k j); reflexivity.
  - destruct (Nat.eqb k j); reflexivity.
  - fold (others j fs). destruct (others j fs); reflexivity.
  - fold (others j fs). destruct (Nat.eqb k j); cbn [negb]; [|reflexivity]. destruct (others j fs); reflexivity.
  - destruct (Nat.eqb k j); reflexivity.
  - reflexivity.
  - destruct sb; cbn [positionals]; apply IH.
Qed.

Lemma write_pos vs : write (map Pos vs) = vs.
Proof. induction vs as [|v vs IH]; cbn; [reflexivity|]. f_equal. exact IH. Qed.

Lemma line_head p j l ps f : line_ok p j l ps f -> exists ps', ps = p :: ps'.
Proof. destruct 1; eauto. Qed.

Section Chain.
Variable int_of : list Z -> option Z.

(** What may follow the items: nothing, or -- and any arguments. *)
Definition wtail (tail : option (list (list Z))) : list (list Z) :=
  match tail with None => [] | Some t => [45; 45] :: t end.
Definition otail (tail : option (list (list Z))) : list (list Z) :=
  match tail with None => [] | Some t => t end.

Lemma scan_tail p tail res seen : scan int_of p (wtail tail) res seen = Done (res, otail tail, seen).
Proof. destruct tail; reflexivity. Qed.

Definition all_ints (j : nat) (ps : list parser) (l : list item) : Prop :=
  forall k p n d, nth_error ps k = Some p -> lookup n (p_opts p) = Some d ->
    ints_ok int_of d (values (j + k) n l).

Lemma good_uses p j l sb : made p -> items_ok p j sb l ->
  (forall n d, lookup n (p_opts p) = Some d -> ints_ok int_of d (values j n l)) <->
  Forall (good_use int_of p) (own j (uses l)).
Proof.
  intros M H. pose proof (uses_declared p j l sb M H) as D. split.
  - intros G. apply Forall_forall. intros [n v] Hu. rewrite Forall_forall in D. specialize (D _ Hu). cbn [fst] in D.
    destruct (lookup n (p_opts p)) as [d|] eqn:E; [|contradiction]. exists d. split; [exact E|].
    intros Ht. cbn [snd]. apply (G n d E Ht). rewrite values_own. unfold vals. apply in_map_iff. exists (n, v). split; [reflexivity|].
    apply filter_In. split; [exact Hu|]. apply teqb_refl.
  - intros F n d Hd Ht v Hv. rewrite values_own in Hv. unfold vals in Hv. apply in_map_iff in Hv as ([n' v'] & <- & Hu).
    apply filter_In in Hu as [Hu En]. cbn [fst snd] in *. apply teqb_ok in En. subst n'.
    rewrite Forall_forall in F. destruct (F _ Hu) as (d' & Hd' & Hi). cbn [fst snd] in *. apply Hi. congruence.
Qed.

Lemma nodup_app_l {B} (a b : list B) : NoDup (a ++ b) -> NoDup a.
Proof. induction a as [|x a IH]; intros H; [constructor|]. inversion H; subst. constructor; [|auto]. intros K. apply H2. apply in_or_app. auto. Qed.
Lemma nodup_app_r {B} (a b : list B) : NoDup (a ++ b) -> NoDup b.
Proof. induction a as [|x a IH]; intros H; [exact H|]. inversion H; auto. Qed.
Lemma nodup_app_d {B} (a b : list B) x : NoDup (a ++ b) -> In x a -> ~ In x b.
Proof.
  induction a as [|y a IH]; intros H K; [destruct K|]. inversion H; subst. destruct K as [->|K]; [|auto].
  intros L. apply H2. apply in_or_app. auto.
Qed.

(** The options of one parser after its defaults and its part of the command line. *)
Lemma stage p j l res tail : made p -> NoDup (names p) -> items_ok p j false l ->
  (forall n, In n (names p) -> lookup n res = None) ->
  (forall n d, lookup n (p_opts p) = Some d -> ints_ok int_of d (values j n l)) ->
  exists res',
    scan int_of p (write l ++ wtail tail) (arg_defaults (p_args p) (opt_defaults (p_opts p) res)) None =
      Done (res', write (left_over j false l) ++ otail tail, first_cmd l) /\
    (forall n, ~ In n (names p) -> lookup n res' = lookup n res) /\
    (forall n d, lookup n (p_opts p) = Some d -> lookup n res' = mean int_of d (values j n l)) /\
    (forall d, In d (p_args p) -> lookup (ad_name d) res' = argdef d).
Proof.
  intros M ND H Hr HI. unfold names in *.
  pose proof (nodup_app_l _ _ ND) as ND1. pose proof (nodup_app_r _ _ ND) as ND2.
  rewrite (scan_items int_of p j l _ _ None false); [|reflexivity|discriminate|exact H].
  set (res0 := arg_defaults (p_args p) (opt_defaults (p_opts p) res)).
  destruct (apply_done int_of p (own j (uses l)) res0) as (res' & E).
  { apply (good_uses p j l false M H). exact HI. }
  rewrite E. cbn [bindo]. rewrite scan_tail. cbn [add_rest bindo].
  exists res'. split; [reflexivity|].
  destruct (apply_look int_of p _ _ _ E) as [L1 L2].
  split; [|split].
  - intros n Hn. rewrite L2; [|apply lookup_none; intros K; apply Hn; apply in_or_app; auto].
    unfold res0. rewrite arg_defaults_other by (intros K; apply Hn; apply in_or_app; auto).
    rewrite opt_defaults_look by assumption. replace (lookup n (p_opts p)) with (@None optdecl); [reflexivity|].
    symmetry. apply lookup_none. intros K. apply Hn. apply in_or_app. auto.
  - intros n d Hd. rewrite (L1 n d Hd). rewrite <- values_own. rewrite <- (steps_mean int_of d (values j n l)) by (apply (HI n); assumption).
    f_equal. unfold res0. pose proof (lookup_in _ _ _ Hd) as Hin.
    rewrite arg_defaults_other by (eapply nodup_app_d; [exact ND|exact Hin]).
    rewrite opt_defaults_look by assumption. rewrite Hd. unfold defval. destruct (od_default d); [reflexivity|].
    apply Hr. apply in_or_app. left. exact Hin.
  - intros d Hd.
    assert (No : lookup (ad_name d) (p_opts p) = None).
    { apply lookup_none. intros K. eapply nodup_app_d; [exact ND|exact K|]. apply in_map. exact Hd. }
    rewrite (L2 _ No). unfold res0. apply arg_defaults_look; [assumption|exact Hd|].
    rewrite opt_defaults_look by assumption. rewrite No. apply Hr. apply in_or_app. right. apply in_map. exact Hd.
Qed.

Lemma chain p j l ps f : line_ok p j l ps f -> forall tail a0 fuel as' lo,
  (length ps <= fuel)%nat -> (tail <> None -> length ps = 1%nat) ->
  NoDup (flat_map names ps) -> Forall made ps ->
  (forall n, In n (flat_map names ps) -> lookup n (a_opts a0) = None) ->
  all_ints j ps l -> deals_all ps (positionals l ++ otail tail) as' lo ->
  exists a p', consume int_of fuel p (write l ++ wtail tail) a0 = Done (a, lo, p') /\
    a_cmd a = (match f with Some _ => f | None => a_cmd a0 end) /\
    (forall n, ~ In n (flat_map names ps) -> lookup n (a_opts a) = lookup n (a_opts a0)) /\
    (forall k q n d, nth_error ps k = Some q -> lookup n (p_opts q) = Some d ->
       lookup n (a_opts a) = mean int_of d (values (j + k) n l)) /\
    (forall k q ak d, nth_error ps k = Some q -> nth_error as' k = Some ak -> In d (p_args q) ->
       lookup (ad_name d) (a_opts a) = match lookup (ad_name d) ak with Some v => Some (typed v) | None => argdef d end) /\
    (exists ak, nth_error as' 0 = Some ak /\ incl (p_args p') (p_args p) /\
       forall d, In d (p_args p) -> lookup (ad_name d) ak = None -> In d (p_args p')).
Proof.
  induction 1 as [p j l Hok Hc Hpos|p j l n f sub ps f' Hok Hc Hsub Hl IH];
    intros tail a0 fuel as' lo Hf Ht ND M Hr HI D.
  - (* the last parser *)
    destruct fuel as [|fuel]; [cbn in Hf; lia|].
    inversion M as [|? ? Mp _]; subst. cbn [flat_map] in *. rewrite app_nil_r in *.
    destruct (stage p j l (a_opts a0) tail Mp ND Hok Hr) as (res & E & L0 & L1 & L2).
    { intros n d Hd. rewrite <- (Nat.add_0_r j). apply (HI 0%nat p n d); [reflexivity|exact Hd]. }
    inversion D as [|? ? ? as0 mid ak ? D0 D1]; subst. inversion D0; subst.
    assert (ND2 : NoDup (map ad_name (p_args p))) by (eapply nodup_app_r; exact ND).
    destruct (deal_ok _ _ _ _ D1 ND2 res) as (res' & ds' & Ed & L & I1 & I2 & I3).
    { intros d Hd. rewrite (L2 d Hd). unfold argdef. destruct (negb (ad_required d)); [|reflexivity]. destruct (ad_nargs d); reflexivity. }
    exists (Args res' (a_cmd a0)), (Parser (p_opts p) (p_shorts p) ds' (p_cmds p)).
    assert (Ec : consume int_of (S fuel) p (write l ++ wtail tail) a0 = Done (Args res' (a_cmd a0), lo, Parser (p_opts p) (p_shorts p) ds' (p_cmds p))).
    { cbn [consume]. destruct p as [o s ds cmds]. cbn [p_opts p_shorts p_args p_cmds] in *.
      rewrite E. cbn [bindo]. rewrite Hc. cbn [bindo a_opts a_cmd]. rewrite Hpos, write_pos. rewrite Ed. reflexivity. }
    split; [exact Ec|]. split; [reflexivity|]. cbn [a_opts].
    assert (Out : forall m, lookup m ak <> None -> In m (names p)).
    { intros m Hm. unfold names. apply in_or_app. right. apply I3. exact Hm. }
    split; [|split; [|split]].
    + intros m Hm. rewrite L. destruct (lookup m ak) eqn:Em; [exfalso; apply Hm, Out; congruence|]. apply L0. exact Hm.
    + intros k q m d Hk Hd. destruct k as [|k]; [|destruct k; discriminate]. injection Hk as <-. rewrite Nat.add_0_r.
      rewrite L. destruct (lookup m ak) eqn:Em; [|apply L1; exact Hd].
      exfalso. eapply nodup_app_d; [exact ND|eapply lookup_in; exact Hd|]. apply I3. congruence.
    + intros k q ak' d Hk Hak Hd. destruct k as [|k]; [|destruct k; discriminate]. injection Hk as <-. injection Hak as <-.
      rewrite L. rewrite (L2 d Hd). reflexivity.
    + exists ak. split; [reflexivity|]. split; [exact I2|exact I1].
  - (* a sub-command *)
    destruct fuel as [|fuel]; [cbn in Hf; lia|]. cbn [length] in Hf.
    destruct (line_head _ _ _ _ _ Hl) as (ps' & Eps).
    assert (tail = None) as -> by (destruct tail; [|reflexivity]; exfalso; assert (K : S (length ps) = 1%nat) by (apply Ht; discriminate); subst ps; cbn in K; lia).
    inversion M as [|? ? Mp Ms]; subst. cbn [flat_map] in ND, Hr.
    destruct (stage p j l (a_opts a0) None Mp (nodup_app_l _ _ ND) Hok) as (res & E & L0 & L1 & L2).
    { intros m Hm. apply Hr. apply in_or_app. auto. }
    { intros m d Hd. rewrite <- (Nat.add_0_r j). apply (HI 0%nat p m d); [reflexivity|exact Hd]. }
    cbn [otail wtail] in *. rewrite !app_nil_r in E.
    inversion D as [|? ? ? as0 mid ak ? D0 D1]; subst.
    destruct (IH None (Args res (Some f)) fuel as0 mid) as (a1 & sub' & Es & Cc & O1 & O2 & O3 & _).
    { lia. } { congruence. } { eapply nodup_app_r. exact ND. } { exact Ms. }
    { intros m Hm. cbn [a_opts]. rewrite L0; [apply Hr; apply in_or_app; auto|]. intros K. eapply nodup_app_d; [exact ND|exact K|exact Hm]. }
    { intros k q m d Hk Hd. replace (S j + k)%nat with (j + S k)%nat by lia.
      rewrite values_own, own_left_over by lia. rewrite <- values_own. apply (HI (S k) q m d); [exact Hk|exact Hd]. }
    { cbn [otail]. rewrite positionals_left. exact D0. }
    cbn [wtail a_cmd a_opts] in *. rewrite app_nil_r in Es.
    assert (ND2 : NoDup (map ad_name (p_args p))) by (eapply nodup_app_r, nodup_app_l; exact ND).
    assert (Keep : forall m, In m (names p) -> lookup m (a_opts a1) = lookup m res).
    { intros m Hm. apply O1. eapply nodup_app_d; [exact ND|exact Hm]. }
    destruct (deal_ok _ _ _ _ D1 ND2 (a_opts a1)) as (res' & ds' & Ed & L & I1 & I2 & I3).
    { intros d Hd. rewrite Keep by (unfold names; apply in_or_app; right; apply in_map; exact Hd).
      rewrite (L2 d Hd). unfold argdef. destruct (negb (ad_required d)); [|reflexivity]. destruct (ad_nargs d); reflexivity. }
    exists (Args res' (a_cmd a1)), (Parser (p_opts p) (p_shorts p) ds' (set n (f, sub') (p_cmds p))).
    split.
    { cbn [consume]. destruct p as [o s ds cmds]. cbn [p_opts p_shorts p_args p_cmds wtail] in *.
      rewrite app_nil_r. rewrite E. cbn [bindo]. rewrite Hc, Hsub.
rewrite Es. cbn [bindo]. rewrite Ed. reflexivity. }
    split; [cbn [a_cmd]; rewrite Cc; destruct f'; reflexivity|]. cbn [a_opts].
    assert (Out : forall m, lookup m ak <> None -> In m (names p)).
    { intros m Hm. unfold names. apply in_or_app. right. apply I3. exact Hm. }
    split; [|split; [|split]].
    + intros m Hm. cbn [flat_map] in Hm. rewrite L. destruct (lookup m ak) eqn:Em; [exfalso; apply Hm, in_or_app; left; apply Out; congruence|].
      rewrite O1 by (intros K; apply Hm, in_or_app; auto). apply L0. intros K. apply Hm, in_or_app. auto.
    + intros k q m d Hk Hd. destruct k as [|k]; cbn [nth_error] in Hk.
      * injection Hk as <-. rewrite Nat.add_0_r. rewrite L. destruct (lookup m ak) eqn:Em.
        -- exfalso. eapply nodup_app_d; [exact (nodup_app_l _ _ ND)|eapply lookup_in; exact Hd|]. apply I3. congruence.
        -- rewrite Keep by (unfold names; apply in_or_app; left; eapply lookup_in; exact Hd). apply L1. exact Hd.
      * assert (Hin : In m (flat_map names (sub :: ps'))).
        { apply in_flat_map. exists q. split; [eapply nth_error_In; exact Hk|]. unfold names. apply in_or_app. left. eapply lookup_in. exact Hd. }
        rewrite L. destruct (lookup m ak) eqn:Em.
        -- exfalso. eapply nodup_app_d; [exact ND| |exact Hin]. apply Out. congruence.
        -- rewrite (O2 k q m d Hk Hd). replace (S j + k)%nat with (j + S k)%nat by lia.
           f_equal. rewrite !values_own. rewrite own_left_over by lia. reflexivity.
    + intros k q ak' d Hk Hak Hd. destruct k as [|k]; cbn [nth_error] in Hk, Hak.
      * injection Hk as <-. injection Hak as <-. rewrite L.
        rewrite Keep by (unfold names; apply in_or_app; right; apply in_map; exact Hd). rewrite (L2 d Hd). reflexivity.
      * assert (Hin : In (ad_name d) (flat_map names (sub :: ps'))).
        { apply in_flat_map. exists q. split; [eapply nth_error_In; exact Hk|]. unfold names. apply in_or_app. right. apply in_map. exact Hd. }
        rewrite L. destruct (lookup (ad_name d) ak) eqn:Em.
        -- exfalso. eapply nodup_app_d; [exact ND| |exact Hin]. apply Out. congruence.
        -- exact (O3 k q ak' d Hk Hak Hd).
    + exists ak. split; [reflexivity|]. split; [exact I2|exact I1].
Qed.

(** A value that is no integer where one is needed. *)
Lemma chain_bad p j l ps f : line_ok p j l ps f -> forall tail a0 fuel,
  (length ps <= fuel)%nat -> (tail <> None -> length ps = 1%nat) -> Forall made ps -> ~ all_ints j ps l ->
  consume int_of fuel p (write l ++ wtail tail) a0 = ArgError.
Proof.
  assert (Dec : forall q i t sb, made q -> items_ok q i sb t ->
    {Forall (good_use int_of q) (own i (uses t))} + {~ Forall (good_use int_of q) (own i (uses t))}).
  { intros q i t sb M H. apply Forall_dec. intros [n v]. unfold good_use. cbn [fst snd].
    destruct (lookup n (p_opts q)) as [d|] eqn:E; [|right; intros (d & K & _); discriminate].
    destruct (od_type d) eqn:Et; try (left; exists d; split; [reflexivity|rewrite Et; discriminate]).
    destruct (int_of v) eqn:Ei.
    - left. exists d. split; [reflexivity|]. intros _. discriminate.
    - right. intros (d' & K & G). injection K as <-. apply G; [exact Et|reflexivity]. }
  induction 1 as [p j l Hok Hc Hpos|p j l n f sub ps f' Hok Hc Hsub Hl IH];
    intros tail a0 fuel Hf Ht M HB; (destruct fuel as [|fuel]; [cbn in Hf; lia|]);
    inversion M as [|? ? Mp Ms]; subst; cbn [consume]; destruct p as [o s ds cmds] eqn:Ep; rewrite <- Ep in *.
  - rewrite (scan_items int_of p j l _ _ None false); [|reflexivity|discriminate|exact Hok].
    rewrite apply_bad; [reflexivity|eapply uses_declared; eassumption|].
    intros K. apply HB. intros k q m d Hk Hd. destruct k as [|k]; [|destruct k; discriminate]. injection Hk as <-.
    rewrite Nat.add_0_r. apply (good_uses p j l false Mp Hok); assumption.
  - rewrite (scan_items int_of p j l _ _ None false); [|reflexivity|discriminate|exact Hok].
    destruct (Dec p j l false Mp Hok) as [G|G].
    + destruct (apply_done int_of p (own j (uses l)) (arg_defaults ds (opt_defaults o (a_opts a0))) G) as (res' & E).
      rewrite E. cbn [bindo]. rewrite scan_tail. cbn [add_rest bindo]. rewrite Hc.
      assert (cmds = p_cmds p) as -> by (rewrite Ep; reflexivity). rewrite Hsub.
      destruct (line_head _ _ _ _ _ Hl) as (ps' & Eps).
      assert (tail = None) as -> by (destruct tail; [|reflexivity]; exfalso; assert (K : S (length ps) = 1%nat) by (apply Ht; discriminate); subst ps; cbn in K; lia).
      cbn [otail]. rewrite app_nil_r.
      specialize (IH None (Args res' (Some f)) fuel). cbn [wtail] in IH. rewrite app_nil_r in IH. rewrite IH; [reflexivity| | | |].
      * cbn in Hf. lia.
      * congruence.
      * exact Ms.
      * intros K. apply HB. intros k q m d Hk Hd. destruct k as [|k]; cbn [nth_error] in Hk.
        -- injection Hk as <-. rewrite Nat.add_0_r. apply (good_uses p j l false Mp Hok); assumption.
        -- specialize (K k q m d Hk Hd). replace (j + S k)%nat with (S j + k)%nat by lia.
           rewrite values_own, own_left_over in K by lia. rewrite values_own. exact K.
    + rewrite apply_bad; [reflexivity|eapply uses_declared; eassumption|exact G].
Qed.
End Chain.

Lemma deals_all_total ps : Forall known_nargs ps -> forall vs, exists as' lo, deals_all ps vs as' lo.
Proof.
  induction 1 as [|p ps Hp _ IH]; intros vs; [exists [], vs; constructor|].
  destruct (IH vs) as (as' & mid & D). destruct (deals_total _ Hp mid) as (a & lo & D').
  exists (a :: as'), lo. econstructor; eassumption.
Qed.

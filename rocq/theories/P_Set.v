(** Proofs about M_Set: the hash table represents a finite set, for hashes below 2^63. *)
From Verif Require Import Base P_Base M_Dict S_Dict P_Probe P_Dict M_Set S_Set M_SetApi.

(** ** Finite sets as lists *)
Section SetList.
Context {K : Type}.
Variable keq same : K -> K -> bool.
Variable hash : K -> Z.
Hypothesis HL : key_laws keq same hash.
Local Notation mem := (mem keq).
Local Notation different := (different keq).
Local Notation card := (card keq).

Lemma keq_sym x y : keq x y = keq y x.
Proof.
  destruct (keq x y) eqn:E, (keq y x) eqn:E2; try reflexivity.
  - rewrite (kl_sym _ _ _ HL _ _ E) in E2. discriminate.
  - rewrite (kl_sym _ _ _ HL _ _ E2) in E. discriminate.
Qed.
Lemma keq_cong x y z : keq x y = true -> keq x z = keq y z.
Proof.
  intros H. destruct (keq x z) eqn:E, (keq y z) eqn:E2; try reflexivity.
  - rewrite (kl_trans _ _ _ HL y x z) in E2; [discriminate| |exact E]. rewrite keq_sym. exact H.
  - rewrite (kl_trans _ _ _ HL x y z H E2) in E. discriminate.
Qed.
Lemma mem_cong x y A : keq x y = true -> mem x A = mem y A.
Proof.
  intros H. induction A as [|a A IH]; [reflexivity|]. unfold S_Set.mem in *. cbn [existsb].
  rewrite IH, (keq_cong x y a H). reflexivity.
Qed.
Lemma mem_cons x a A : mem x (a :: A) = keq x a || mem x A.
Proof. reflexivity. Qed.
Lemma mem_app x A B : mem x (A ++ B) = mem x A || mem x B.
Proof. unfold S_Set.mem. apply existsb_app. Qed.
Lemma mem_mid x a A B : mem x (A ++ a :: B) = keq x a || mem x (A ++ B).
Proof. rewrite !mem_app, mem_cons. destruct (mem x A), (keq x a), (mem x B); reflexivity. Qed.
Lemma mem_in x A : In x A -> mem x A = true.
Proof. intros H. apply existsb_exists. exists x. split; [exact H|apply (kl_refl _ _ _ HL)]. Qed.
Lemma mem_ex x A : mem x A = true -> exists y, In y A /\ keq x y = true.
Proof. intros H. apply existsb_exists in H. exact H. Qed.

Lemma mem_filter x A (f : K -> bool) : (forall y z, keq y z = true -> f y = f z) ->
  mem x (filter f A) = mem x A && f x.
Proof.
  intros Hf. induction A as [|a A IH]; [reflexivity|]. cbn [filter]. destruct (f a) eqn:E.
  - rewrite !mem_cons, IH. destruct (keq x a) eqn:E2; [|reflexivity]. cbn. rewrite (Hf x a E2), E. reflexivity.
  - rewrite mem_cons, IH. destruct (keq x a) eqn:E2; [|reflexivity]. rewrite (Hf x a E2), E.
    rewrite !Bool.andb_false_r. reflexivity.
Qed.
Lemma mem_minus x A k : mem x (minus keq A k) = mem x A && negb (keq x k).
Proof.
  unfold minus. rewrite mem_filter.
  - rewrite (keq_sym k x). reflexivity.
  - intros y z H. rewrite (keq_sym k y), (keq_sym k z), (keq_cong y z k H). reflexivity.
Qed.
Lemma mem_inter x A B : mem x (inter keq A B) = mem x A && mem x B.
Proof. unfold inter. apply mem_filter. intros y z H. apply mem_cong. exact H. Qed.
Lemma mem_diff x A B : mem x (diff keq A B) = mem x A && negb (mem x B).
Proof. unfold diff. apply mem_filter. intros y z H. f_equal. apply mem_cong. exact H. Qed.

Lemma different_mid a A B : different (A ++ a :: B) <-> mem a (A ++ B) = false /\ different (A ++ B).
Proof.
  induction A as [|x A IH]; cbn [app S_Set.different]; [tauto|].
  rewrite IH, mem_mid, mem_cons, (keq_sym x a).
  destruct (keq a x), (mem a (A ++ B)), (mem x (A ++ B)); cbn; intuition discriminate.
Qed.

Lemma card_different A : different A -> card A = zlen A.
Proof.
  unfold zlen. induction A as [|a A IH]; [reflexivity|]. cbn [S_Set.different S_Set.card length]. intros [H1 H2].
  rewrite H1, (IH H2). lia.
Qed.
Lemma card_nonneg A : 0 <= card A.
Proof. induction A as [|a A IH]; cbn [S_Set.card]; [lia|]. destruct (mem a A); lia. Qed.

Lemma remove_one a B : mem a B = true -> exists B1 b B2, B = B1 ++ b :: B2 /\ keq a b = true.
Proof.
  intros H. destruct (mem_ex a B H) as (b & Hb & E). destruct (in_split b B Hb) as (B1 & B2 & ->). eauto.
Qed.

Lemma dedup_ex B : exists D, different D /\ (forall x, mem x D = mem x B) /\ card B = card D.
Proof.
  induction B as [|b B (D & D1 & D2 & D3)]; [exists []; repeat split|].
  cbn [S_Set.card]. destruct (mem b B) eqn:E.
  - exists D. split; [exact D1|]. split; [|exact D3]. intros x. rewrite mem_cons, D2.
    destruct (keq x b) eqn:E2; [|reflexivity]. cbn. rewrite (mem_cong x b B E2). exact E.
  - exists (b :: D). split; [cbn [S_Set.different]; split; [rewrite D2; exact E|exact D1]|].
    split; [intros x; rewrite !mem_cons, D2; reflexivity|]. cbn [S_Set.card]. rewrite D2, E, D3. reflexivity.
Qed.

Lemma distinct_le A B : different A -> (forall x, mem x A = true -> mem x B = true) -> card A <= card B.
Proof.
  intros HA HS. destruct (dedup_ex B) as (D & D1 & D2 & ->). rewrite (card_different A HA), (card_different D D1).
  assert (HS' : forall x, mem x A = true -> mem x D = true) by (intros x Hx; rewrite D2; auto).
  clear HS D2 B. revert D D1 HS'. induction A as [|a A IH]; intros D D1 HS; [unfold zlen; cbn; lia|].
  destruct HA as [HA1 HA2].
  destruct (remove_one a D) as (B1 & b & B2 & -> & E).
  { apply HS. rewrite mem_cons, (kl_refl _ _ _ HL). reflexivity. }
  apply different_mid in D1. destruct D1 as [D1 D1'].
  specialize (IH HA2 (B1 ++ B2) D1'). rewrite zlen_app in *. unfold zlen in *. cbn [length].
  assert (Z.of_nat (length A) <= Z.of_nat (length B1) + Z.of_nat (length B2)); [|lia].
  apply IH. intros x Hx. specialize (HS x). rewrite mem_cons, Hx, Bool.orb_true_r in HS. specialize (HS eq_refl).
  rewrite mem_mid in HS. apply Bool.orb_true_iff in HS. destruct HS as [HS|HS]; [|exact HS].
  exfalso. rewrite (mem_cong a x A) in HA1; [congruence|].
  apply (kl_trans _ _ _ HL a b x); [exact E|]. rewrite keq_sym. exact HS.
Qed.

Lemma card_le A B : (forall x, mem x A = true -> mem x B = true) -> card A <= card B.
Proof.
  intros H. destruct (dedup_ex A) as (D & D1 & D2 & ->). apply distinct_le; [exact D1|].
  intros x Hx. apply H. rewrite <- D2. exact Hx.
Qed.
Lemma card_ext A B : (forall x, mem x A = mem x B) -> card A = card B.
Proof. intros H. apply Z.le_antisymm; apply card_le; intros x Hx; congruence. Qed.
Lemma card_app A B : card (A ++ B) <= card A + card B.
Proof.
  induction A as [|a A IH]; cbn [app S_Set.card]; [lia|]. rewrite mem_app.
  destruct (mem a A); cbn [orb]; [exact IH|]. destruct (mem a B); lia.
Qed.
Lemma subset_spec A B : subset keq A B = true <-> forall x, mem x A = true -> mem x B = true.
Proof.
  unfold subset. rewrite forallb_forall. split.
  - intros H x Hx. destruct (mem_ex x A Hx) as (y & Hy & E). rewrite (mem_cong x y B E). apply H. exact Hy.
  - intros H x Hx. apply H. apply mem_in. exact Hx.
Qed.
Lemma subset_ext A B A' B' : (forall x, mem x A = mem x A') -> (forall x, mem x B = mem x B') ->
  subset keq A B = subset keq A' B'.
Proof.
  intros H1 H2. apply Bool.eq_iff_eq_true. rewrite !subset_spec.
  split; intros H x; [rewrite <- H1, <- H2|rewrite H1, H2]; apply H.
Qed.
(** Equal-sized: inclusion one way is equality; a smaller set is not a superset. *)
Lemma subset_card A B : subset keq A B = true -> card A = card B -> subset keq B A = true.
Proof.
  intros H1 H2. destruct (subset keq B A) eqn:E; [reflexivity|exfalso].
  assert (exists b, In b B /\ mem b A = false) as (b & Hb & Eb).
  { unfold subset in E. clear -E. induction B as [|b B IH]; [discriminate|]. cbn [forallb] in E.
    destruct (S_Set.mem keq b A) eqn:Eb; [|exists b; split; [left; reflexivity|exact Eb]].
    destruct (IH E) as (b' & H & H'). exists b'. split; [right; exact H|exact H']. }
  assert (Hc : card (b :: A) <= card B).
  { apply card_le. intros x Hx. rewrite mem_cons in Hx. apply Bool.orb_true_iff in Hx. destruct Hx as [Hx|Hx].
    - rewrite (mem_cong x b B Hx). apply mem_in. exact Hb.
    - apply (proj1 (subset_spec A B) H1). exact Hx. }
  cbn [S_Set.card] in Hc. rewrite Eb in Hc. lia.
Qed.
Lemma subset_card_le A B : subset keq A B = true -> card A <= card B.
Proof. intros H. apply card_le. apply subset_spec. exact H. Qed.
End SetList.

(** ** The table *)
Section Tab.
Context {K : Type}.
Variable keq same : K -> K -> bool.
Variable hash : K -> Z.
Hypothesis HL : key_laws keq same hash.
Hypothesis Hlow : forall k, hash k < 2 ^ 63.
Local Notation mem := (mem keq).
Local Notation different := (different keq).
Local Notation card := (card keq).
Local Notation entry := (sentry K).

Lemma shash_id k : shash hash k = hash k.
Proof.
  unfold shash. apply wrapS_id; [lia|]. unfold inS. pose proof (kl_u64 _ _ _ HL k). specialize (Hlow k).
  change (64 - 1) with 63. lia.
Qed.

Lemma snext_eq size i p : pow2size size ->
  s_next (size - 1) i p = Z.land (wrapU 64 (i * 5 + Z.shiftr p 5 + 1)) (size - 1).
Proof.
  intros (k & -> & Hk). unfold s_next. rewrite !land_mask.
  replace (i * 5 + 1 + Z.shiftr p 5) with (i * 5 + Z.shiftr p 5 + 1) by ring.
  generalize (i * 5 + Z.shiftr p 5 + 1). intros x.
  assert (E : forall y, y mod 2 ^ Z.of_nat k = (y mod 2 ^ 64) mod 2 ^ Z.of_nat k).
  { intros y. replace (2 ^ 64) with (2 ^ Z.of_nat k * 2 ^ (64 - Z.of_nat k)).
    - rewrite Z.rem_mul_r by (apply Z.pow_nonzero || apply Z.pow_pos_nonneg; lia).
      rewrite Z.mul_comm, Z.mod_add, Z.mod_mod by (apply Z.pow_nonzero; lia). reflexivity.
    - rewrite <- Z.pow_add_r by lia. f_equal. lia. }
  rewrite (E (wrapS 64 x)), wrapS_mod by lia. reflexivity.
Qed.

Definition vis_clean (tab : list entry) (i : Z) : res (option Z) :=
  do e <- orUB (zget tab i);
  Ok (match se_key e with KNull => Some i | _ => None end).
Definition vis_look (tab : list entry) (key : K) (h : Z) (i : Z) : res (option Z) :=
  do e <- orUB (zget tab i);
  match se_key e with
  | KNull => Ok (Some i)
  | k => do hit <- (if se_hash e =? h then match k with KElem x => Ok (same x key || keq x key) | _ => UB end
                    else Ok false);
         Ok (if hit then Some i else None)
  end.

Lemma clean_probe size tab : pow2size size -> forall fuel i p,
  clean_loop fuel tab (size - 1) i p = probe fuel size i p (vis_clean tab).
Proof.
  intros HP. induction fuel as [|f IH]; intros i p; [reflexivity|]. cbn [clean_loop probe]. unfold vis_clean at 1.
  destruct (orUB (zget tab i)) as [e| | |]; cbn [bindr]; try reflexivity.
  destruct (se_key e); cbn [bindr]; [reflexivity| |]; rewrite (snext_eq _ _ _ HP); apply IH.
Qed.
Lemma look_probe size tab key h : pow2size size -> forall fuel i p,
  look_loop keq same fuel tab (size - 1) i p key h = probe fuel size i p (vis_look tab key h).
Proof.
  intros HP. induction fuel as [|f IH]; intros i p; [reflexivity|]. cbn [look_loop probe]. unfold vis_look at 1.
  destruct (orUB (zget tab i)) as [e| | |]; cbn [bindr]; try reflexivity.
  destruct (se_key e) as [| |x]; cbn [bindr]; [reflexivity| |]; destruct (se_hash e =? h); cbn [bindr]; try reflexivity;
    try (rewrite (snext_eq _ _ _ HP); apply IH).
  destruct (same x key || keq x key); cbn [bindr]; [reflexivity|]. rewrite (snext_eq _ _ _ HP). apply IH.
Qed.

Definition nonnull (e : entry) : bool := match se_key e with KNull => false | _ => true end.
Definition elem_of (e : entry) : list K := match se_key e with KElem k => [k] | _ => [] end.
Definition elems (tab : list entry) : list K := flat_map elem_of tab.
Definition used (tab : list entry) : Z := zlen (filter nonnull tab).

Definition busy (tab : list entry) (j : Z) : Prop := exists e, zget tab j = Some e /\ nonnull e = true.
Record tinv (size : Z) (tab : list entry) : Prop := {
  t_pow : pow2size size;
  t_len : zlen tab = size;
  t_hash : forall j k h, zget tab j = Some (mkSE (KElem k) h) -> h = hash k;
  t_dum : forall j h, zget tab j = Some (mkSE KDummy h) -> h = -1;
  t_reach : forall j k h, zget tab j = Some (mkSE (KElem k) h) ->
     exists n, slot size (hash k) n = j /\ forall m, (m < n)%nat -> busy tab (slot size (hash k) m);
  t_diff : different (elems tab)
}.

Lemma busy_dec tab j : {busy tab j} + {~ busy tab j}.
Proof.
  destruct (zget tab j) as [e|] eqn:E.
  - destruct (nonnull e) eqn:E2; [left; exists e; auto|right; intros (e' & H & H')]; congruence.
  - right. intros (e' & H & H'). congruence.
Qed.

Lemma elems_app a b : elems (a ++ b) = elems a ++ elems b.
Proof. apply flat_map_app. Qed.
Lemma elems_mid a e b : elems (a ++ e :: b) = elems a ++ elem_of e ++ elems b.
Proof. rewrite elems_app. reflexivity. Qed.
Lemma used_mid a e b : used (a ++ e :: b) = used (a ++ b) + (if nonnull e then 1 else 0).
Proof.
  unfold used. rewrite !filter_app. cbn [filter]. rewrite !zlen_app. unfold zlen.
  destruct (nonnull e); cbn [length]; lia.
Qed.
Lemma elems_entry tab k : In k (elems tab) <-> exists j h, zget tab j = Some (mkSE (KElem k) h).
Proof.
  unfold elems. rewrite in_flat_map. split.
  - intros (e & H & H'). apply In_nth_error in H. destruct H as (n & Hn). exists (Z.of_nat n), (se_hash e).
    rewrite zget_of_nat, Hn. destruct e as [ek eh]. cbn in *. destruct ek; cbn in H'; try contradiction.
    destruct H' as [->|[]]. reflexivity.
  - intros (j & h & H). exists (mkSE (KElem k) h). split; [|left; reflexivity].
    rewrite zget_nat in H by (apply zget_range in H; lia). eapply nth_error_In. exact H.
Qed.
Lemma mem_entry tab x : mem x (elems tab) = true <-> exists j k h, zget tab j = Some (mkSE (KElem k) h) /\ keq x k = true.
Proof.
  split.
  - intros H. destruct (mem_ex keq x _ H) as (k & Hk & E). apply elems_entry in Hk. destruct Hk as (j & h & Hk). eauto 6.
  - intros (j & k & h & H & E). rewrite (mem_cong keq same hash HL x k _ E). apply (mem_in keq same hash HL).
    apply elems_entry. eauto.
Qed.

(** A free slot exists as long as not all entries are in use. *)
Lemma free_slot tab : used tab < zlen tab -> exists j, 0 <= j < zlen tab /\ exists e, zget tab j = Some e /\ se_key e = KNull.
Proof.
  intros H. assert (exists e, In e tab /\ nonnull e = false) as (e & Hin & He).
  { clear -H. induction tab as [|e tab IH]; [unfold used in H; cbn in H; lia|].
    destruct (nonnull e) eqn:E.
    - change (e :: tab) with ([] ++ e :: tab) in H at 1. rewrite used_mid, E in H. cbn [app] in H.
      destruct IH as (e' & H1 & H2); [unfold zlen in *; cbn [length] in H; lia|]. exists e'. split; [right; exact H1|exact H2].
    - exists e. split; [left; reflexivity|exact E]. }
  apply In_nth_error in Hin. destruct Hin as (n & Hn). exists (Z.of_nat n). rewrite zget_of_nat.
  split.
  - assert (n < length tab)%nat by (apply nth_error_Some; congruence). unfold zlen. lia.
  - exists e. split; [exact Hn|]. unfold nonnull in He. destruct (se_key e); [reflexivity|discriminate..].
Qed.

(** The first slot of a probe sequence that is not busy. *)
Lemma first_free size tab h : pow2size size -> zlen tab = size -> 0 <= h < 2 ^ 64 -> used tab < size ->
  exists n, (n <= Z.to_nat size + 13)%nat /\ (exists e, zget tab (slot size h n) = Some e /\ se_key e = KNull) /\
     forall m, (m < n)%nat -> busy tab (slot size h m).
Proof.
  intros HP Hl Hh Hu. destruct (free_slot tab) as (j & Hj & e & He & He'); [lia|].
  destruct (cover size h j HP Hh) as (n0 & Hn0 & E0); [lia|].
  destruct (least (fun n => ~ busy tab (slot size h n))) with (n := n0) as (n & H1 & H2 & H3).
  - intros n. destruct (busy_dec tab (slot size h n)); [right; tauto|left; assumption].
  - rewrite E0. intros (e' & H & H'). unfold nonnull in H'. rewrite He in H. injection H as <-. rewrite He' in H'. discriminate.
  - exists n. split; [lia|]. split.
    + pose proof (slot_range size h n HP) as Hr. destruct (zget_some tab (slot size h n)) as (e' & E'); [lia|].
      exists e'. split; [exact E'|]. destruct (se_key e') eqn:E3; [reflexivity| |];
        (exfalso; apply H2; exists e'; split; [exact E'|]; unfold nonnull; rewrite E3; reflexivity).
    + intros m Hm. destruct (busy_dec tab (slot size h m)) as [H|H]; [exact H|]. exfalso. exact (H3 m Hm H).
Qed.

Lemma empty_inv size : pow2size size -> 0 <= size -> tinv size (repeat (mkSE KNull 0) (Z.to_nat size)).
Proof.
  intros HP H0. assert (E : forall n, elems (repeat (mkSE KNull 0) n) = []).
  { induction n as [|n IH]; [reflexivity|]. exact IH. }
  assert (G : forall j e, zget (repeat (@mkSE K KNull 0) (Z.to_nat size)) j = Some e -> e = mkSE KNull 0).
  { intros j e H. pose proof (zget_range _ _ _ H). rewrite zget_nat in H by lia. apply nth_error_In in H.
    apply repeat_spec in H. exact H. }
  constructor.
  - exact HP.
  - unfold zlen. rewrite repeat_length. lia.
  - intros j k h H. apply G in H. discriminate.
  - intros j h H. apply G in H. discriminate.
  - intros j k h H. apply G in H. discriminate.
  - rewrite E. exact I.
Qed.
Lemma used_repeat n : used (repeat (mkSE KNull 0) n) = 0.
Proof. unfold used. induction n as [|n IH]; [reflexivity|]. exact IH. Qed.
Lemma elems_repeat n : elems (repeat (mkSE KNull 0) n) = [].
Proof. induction n as [|n IH]; [reflexivity|]. exact IH. Qed.

(** Putting a new element into a slot on its probe sequence that holds none. *)
Lemma place size tab k j e n : tinv size tab -> zget tab j = Some e -> elem_of e = [] -> slot size (hash k) n = j ->
  (forall m, (m < n)%nat -> busy tab (slot size (hash k) m)) -> mem k (elems tab) = false ->
  exists tab', zset tab j (mkSE (KElem k) (hash k)) = Some tab' /\ tinv size tab' /\
    used tab' = used tab + (if nonnull e then 0 else 1) /\
    zlen (elems tab') = zlen (elems tab) + 1 /\ forall x, mem x (elems tab') = keq x k || mem x (elems tab).
Proof.
  intros HT He Hne Hs Hb Hk. destruct (zset_split tab j e He) as (l1 & l2 & El & Hl & Hz).
  pose proof (zget_range _ _ _ He) as Hr.
  destruct (zset_get tab j (mkSE (KElem k) (hash k)) Hr) as (tab' & Z1 & Z2 & Z3). exists tab'. split; [exact Z1|].
  rewrite Hz in Z1. injection Z1 as <-.
  assert (Ee : elems tab = elems l1 ++ elems l2) by (rewrite El, elems_mid, Hne; reflexivity).
  assert (Ee' : elems (l1 ++ mkSE (KElem k) (hash k) :: l2) = elems l1 ++ k :: elems l2) by (rewrite elems_mid; reflexivity).
  destruct HT as [HP Hlen Hh Hd Hre Hdi].
  split; [constructor|split; [|split]].
  - exact HP.
  - lia.
  - intros i k' h H. rewrite Z3 in H. destruct (i =? j); [injection H as <- <-; reflexivity|eapply Hh; exact H].
  - intros i h H. rewrite Z3 in H. destruct (i =? j); [discriminate|eapply Hd; exact H].
  - assert (Hmono : forall i, busy tab i -> busy (l1 ++ mkSE (KElem k) (hash k) :: l2) i).
    { intros i (e' & H1 & H2). unfold busy. rewrite Z3. destruct (i =? j); [eexists; split; reflexivity|eauto]. }
    intros i k' h H. rewrite Z3 in H. destruct (i =? j) eqn:E.
    + injection H as <- <-. exists n. split; [lia|]. intros m Hm. apply Hmono. apply Hb. exact Hm.
    + destruct (Hre i k' h H) as (n' & N1 & N2). exists n'. split; [exact N1|]. intros m Hm. apply Hmono. apply N2. exact Hm.
  - rewrite Ee'. apply (different_mid keq same hash HL). rewrite <- Ee. split; [exact Hk|exact Hdi].
  - rewrite El, !used_mid. cbn [nonnull se_key]. destruct (nonnull e); lia.
  - rewrite Ee, Ee', !zlen_app. unfold zlen. cbn [length]. lia.
  - intros x. rewrite Ee, Ee'. apply mem_mid.
Qed.

(** Replacing an element by the dummy. *)
Lemma kill size tab j k h : tinv size tab -> zget tab j = Some (mkSE (KElem k) h) ->
  exists tab', zset tab j (mkSE KDummy (-1)) = Some tab' /\ tinv size tab' /\ used tab' = used tab /\
    zlen (elems tab') = zlen (elems tab) - 1 /\ forall x, mem x (elems tab') = mem x (elems tab) && negb (keq x k).
Proof.
  intros HT He. destruct (zset_split tab j _ He) as (l1 & l2 & El & Hl & Hz).
  pose proof (zget_range _ _ _ He) as Hr.
  destruct (zset_get tab j (mkSE KDummy (-1)) Hr) as (tab' & Z1 & Z2 & Z3). exists tab'. split; [exact Z1|].
  rewrite Hz in Z1. injection Z1 as <-.
  assert (Ee : elems tab = elems l1 ++ k :: elems l2) by (rewrite El, elems_mid; reflexivity).
  assert (Ee' : elems (l1 ++ mkSE KDummy (-1) :: l2) = elems l1 ++ elems l2) by (rewrite elems_mid; reflexivity).
  destruct HT as [HP Hlen Hh Hd Hre Hdi]. rewrite Ee in Hdi. apply (different_mid keq same hash HL) in Hdi.
  destruct Hdi as [Hk Hdi].
  split; [constructor|split; [|split]].
  - exact HP.
  - lia.
  - intros i k' h' H. rewrite Z3 in H. destruct (i =? j); [discriminate|eapply Hh; exact H].
  - intros i h' H. rewrite Z3 in H. destruct (i =? j); [injection H as <-; reflexivity|eapply Hd; exact H].
  - assert (Hmono : forall i, busy tab i -> busy (l1 ++ mkSE KDummy (-1) :: l2) i).
    { intros i (e' & H1 & H2). unfold busy. rewrite Z3. destruct (i =? j); [eexists; split; reflexivity|eauto]. }
    intros i k' h' H. rewrite Z3 in H. destruct (i =? j) eqn:E; [discriminate|].
    destruct (Hre i k' h' H) as (n' & N1 & N2). exists n'. split; [exact N1|]. intros m Hm. apply Hmono. apply N2. exact Hm.
  - rewrite Ee'. exact Hdi.
  - rewrite El, !used_mid. cbn. reflexivity.
  - rewrite Ee, Ee', !zlen_app. unfold zlen. cbn [length]. lia.
  - intros x. rewrite Ee, Ee', mem_mid. destruct (keq x k) eqn:E; cbn; [|rewrite Bool.andb_true_r; reflexivity].
    rewrite (mem_cong keq same hash HL x k _ E). exact Hk.
Qed.

(** The lookup loop. *)
Lemma vis_look_total size tab key : tinv size tab -> forall i, 0 <= i < size -> exists o, vis_look tab key (hash key) i = Ok o.
Proof.
  intros HT i Hi. rewrite <- (t_len _ _ HT) in Hi. destruct (zget_some tab i Hi) as ([ek eh] & E).
  unfold vis_look. rewrite E. cbn [orUB bindr se_key se_hash]. destruct ek as [| |x].
  - eauto.
  - rewrite (t_dum _ _ HT i eh E). pose proof (kl_u64 _ _ _ HL key). destruct (-1 =? hash key) eqn:E2; [lia|]. cbn. eauto.
  - destruct (eh =? hash key); cbn; eauto.
Qed.

Lemma look_ok size tab key : tinv size tab -> used tab < size ->
  (exists j k, zget tab j = Some (mkSE (KElem k) (hash k)) /\ keq key k = true /\
     look_loop keq same (probe_fuel (size - 1)) tab (size - 1) (Z.land (hash key) (size - 1)) (hash key) key (hash key) = Ok j) \/
  (mem key (elems tab) = false /\ exists j e, zget tab j = Some e /\ se_key e = KNull /\
     look_loop keq same (probe_fuel (size - 1)) tab (size - 1) (Z.land (hash key) (size - 1)) (hash key) key (hash key) = Ok j).
Proof.
  intros HT Hu. pose proof (t_pow _ _ HT) as HP. pose proof (kl_u64 _ _ _ HL key) as Hh.
  unfold probe_fuel. replace (size - 1 + 1) with size by lia. rewrite (look_probe size _ _ _ HP).
  fold (probe_from size (hash key) (vis_look tab key (hash key))).
  destruct (free_slot tab) as (j0 & Hj0 & e0 & He0 & He0'); [rewrite (t_len _ _ HT); exact Hu|].
  rewrite (t_len _ _ HT) in Hj0.
  destruct (probe_stops (vis_look tab key (hash key)) size (hash key) j0 HP Hh Hj0 (vis_look_total size tab key HT))
    as (n & r & Hr & Hm & Hp).
  { exists j0. unfold vis_look. rewrite He0. cbn. rewrite He0'. reflexivity. }
  rewrite Hp. pose proof (slot_range size (hash key) n HP) as Hsr.
  destruct (zget_some tab (slot size (hash key) n)) as ([ek eh] & E); [rewrite (t_len _ _ HT); exact Hsr|]. pose proof Hr as Hr'. unfold vis_look in Hr'. rewrite E in Hr'.
  cbn [orUB bindr se_key se_hash] in Hr'. destruct ek as [| |x].
  - right. injection Hr' as <-. split; [|exists (slot size (hash key) n), (mkSE KNull eh); auto].
    destruct (mem key (elems tab)) eqn:Em; [exfalso|reflexivity].
    apply mem_entry in Em. destruct Em as (j & k & h & Ej & Ek).
    pose proof (t_hash _ _ HT _ _ _ Ej) as ->. destruct (t_reach _ _ HT _ _ _ Ej) as (n' & N1 & N2).
    rewrite <- (kl_hash _ _ _ HL _ _ Ek) in N1, N2.
    assert (Hk : keq k key = true) by (rewrite (keq_sym keq same hash HL); exact Ek).
    assert (Hv : vis_look tab key (hash key) j = Ok (Some j)).
    { unfold vis_look. rewrite Ej. cbn [orUB bindr se_key se_hash]. rewrite (kl_hash _ _ _ HL _ _ Ek), Z.eqb_refl.
      cbn [bindr]. rewrite Hk, Bool.orb_true_r. reflexivity. }
    destruct (Nat.lt_trichotomy n' n) as [Hlt|[->|Hlt]].
    + specialize (Hm n' Hlt). rewrite N1, Hv in Hm. discriminate.
    + rewrite N1 in E. congruence.
    + destruct (N2 n Hlt) as (e' & H1 & H2). rewrite E in H1. injection H1 as <-. discriminate.
  - destruct (eh =? hash key); discriminate.
  - left. destruct (eh =? hash key) eqn:E2; cbn [bindr] in Hr'; [|discriminate].
    destruct (same x key || keq x key) eqn:E3; [|discriminate]. injection Hr' as <-.
    exists (slot size (hash key) n), x. rewrite <- (t_hash _ _ HT _ _ _ E). split; [exact E|]. split; [|reflexivity].
    apply Bool.orb_true_iff in E3. destruct E3 as [E3|E3].
    + apply (kl_same _ _ _ HL) in E3. subst. apply (kl_refl _ _ _ HL).
    + rewrite (keq_sym keq same hash HL). exact E3.
Qed.

(** The insertion loop: it ends like the lookup, remembering a dummy it passed. *)
Lemma add_loop_first size tab key n : tinv size tab -> forall fuel i p free,
  (n < fuel)%nat -> (forall m, 0 <= fst (pst m size i p) < size) ->
  (forall m, (m < n)%nat -> vis_look tab key (hash key) (fst (pst m size i p)) = Ok None) ->
  vis_look tab key (hash key) (fst (pst n size i p)) = Ok (Some (fst (pst n size i p))) ->
  exists e, zget tab (fst (pst n size i p)) = Some e /\
  ((se_key e <> KNull /\ add_loop keq same fuel tab (size - 1) i p key (hash key) free = Ok AActive) \/
   (se_key e = KNull /\
     ((free = None /\ add_loop keq same fuel tab (size - 1) i p key (hash key) free = Ok (AFresh (fst (pst n size i p)))) \/
      exists j, add_loop keq same fuel tab (size - 1) i p key (hash key) free = Ok (AReuse j) /\
         (free = Some j \/ exists m, (m < n)%nat /\ fst (pst m size i p) = j /\ zget tab j = Some (mkSE KDummy (-1)))))).
Proof.
  intros HT. induction n as [|n IH]; intros fuel i p free Hf Hrg H1 H2; (destruct fuel as [|fuel]; [lia|]); cbn [add_loop].
  - cbn [pst fst] in *. pose proof (Hrg O) as Hi. cbn [pst fst] in Hi. rewrite <- (t_len _ _ HT) in Hi.
    destruct (zget_some tab i Hi) as (e & E). exists e. split; [exact E|]. rewrite E. unfold vis_look in H2. rewrite E in H2.
    cbn [orUB bindr] in *. destruct (se_key e) as [| |x].
    + right. split; [reflexivity|]. destruct free as [j|]; [right|left]; [|split; reflexivity].
      exists j. split; [reflexivity|left; reflexivity].
    + destruct (se_hash e =? hash key); discriminate.
    + left. split; [discriminate|]. destruct (se_hash e =? hash key); cbn [bindr] in *; [|discriminate].
      destruct (same x key || keq x key); [reflexivity|discriminate].
  - pose proof (H1 O ltac:(lia)) as H0. cbn [pst fst] in H0. pose proof (Hrg O) as Hi. cbn [pst fst] in Hi.
    rewrite <- (t_len _ _ HT) in Hi.
    destruct (zget_some tab i Hi) as ([ek eh] & E). rewrite E. unfold vis_look in H0. rewrite E in H0.
    cbn [orUB bindr se_key se_hash] in H0 |- *. rewrite (snext_eq size i p (t_pow _ _ HT)).
    set (i' := Z.land (wrapU 64 (i * 5 + Z.shiftr p 5 + 1)) (size - 1)) in *.
    assert (IH' := fun fr => IH fuel i' (Z.shiftr p 5) fr ltac:(lia) (fun m => Hrg (S m))
                     (fun m Hm => H1 (S m) ltac:(lia)) H2).
    cbn [pst]. fold i'.
    destruct ek as [| |x]; [discriminate| |].
    + pose proof (t_dum _ _ HT _ _ E) as ->. pose proof (kl_u64 _ _ _ HL key). destruct (-1 =? hash key) eqn:E2; [lia|].
      cbn [bindr] in H0 |- *. change (-1 =? -1) with true. cbn iota. destruct (IH' (Some i)) as (e & Ee & Hc). exists e. split; [exact Ee|].
      destruct Hc as [Hc|(Hc1 & [Hc|(j & Hc & Hc')])]; [left; exact Hc|destruct Hc; discriminate|].
      right. split; [exact Hc1|]. right. exists j. split; [exact Hc|]. right. destruct Hc' as [Hc'|(m & M1 & M2 & M3)].
      * injection Hc' as <-. exists O. split; [lia|]. split; [reflexivity|exact E].
      * exists (S m). split; [lia|]. split; [exact M2|exact M3].
    + assert (Hg : forall fr, fr = free ->
          exists e, zget tab (fst (pst n size i' (Z.shiftr p 5))) = Some e /\
          ((se_key e <> KNull /\ add_loop keq same fuel tab (size - 1) i' (Z.shiftr p 5) key (hash key) fr = Ok AActive) \/
           (se_key e = KNull /\
             ((free = None /\ add_loop keq same fuel tab (size - 1) i' (Z.shiftr p 5) key (hash key) fr
                 = Ok (AFresh (fst (pst n size i' (Z.shiftr p 5))))) \/
              exists j, add_loop keq same fuel tab (size - 1) i' (Z.shiftr p 5) key (hash key) fr = Ok (AReuse j) /\
                 (free = Some j \/ exists m, (m < S n)%nat /\ fst (pst m size i p) = j /\ zget tab j = Some (mkSE KDummy (-1))))))).
      { intros fr ->. destruct (IH' free) as (e & Ee & Hc). exists e. split; [exact Ee|].
        destruct Hc as [Hc|(Hc1 & [Hc|(j & Hc & Hc')])]; [left; exact Hc|right; split; [exact Hc1|left; exact Hc]|].
        right. split; [exact Hc1|]. right. exists j. split; [exact Hc|]. destruct Hc' as [Hc'|(m & M1 & M2 & M3)]; [left; exact Hc'|].
        right. exists (S m). split; [lia|]. split; [exact M2|exact M3]. }
      destruct (eh =? hash key) eqn:E2; cbn [bindr] in H0 |- *.
      * destruct (same x key || keq x key); [discriminate|]. apply Hg. reflexivity.
      * pose proof (t_hash _ _ HT _ _ _ E) as ->. pose proof (kl_u64 _ _ _ HL x).
        destruct (hash x =? -1) eqn:E3; [lia|]. apply Hg. reflexivity.
Qed.

(** ** Growing *)
Lemma grow_ok m : 0 <= m < 2 ^ 32 -> forall f k, (33 <= k + f)%nat -> (k <= 32)%nat ->
  exists k', (k <= k' <= 32)%nat /\ grow f (2 ^ Z.of_nat k) m = Ok (2 ^ Z.of_nat k') /\ m < 2 ^ Z.of_nat k'.
Proof.
  intros Hm. induction f as [|f IH]; intros k H1 H2; [lia|]. cbn [grow].
  destruct (Z.leb_spec (2 ^ Z.of_nat k) m) as [E|E].
  - assert (Hk : (k < 32)%nat).
    { destruct (Nat.eq_dec k 32) as [->|]; [|lia]. change (Z.of_nat 32) with 32 in E. lia. }
    rewrite Z.shiftl_mul_pow2 by lia. replace (2 ^ Z.of_nat k * 2 ^ 1) with (2 ^ Z.of_nat (S k)).
    2:{ rewrite <- Z.pow_add_r by lia. f_equal. lia. }
    destruct (IH (S k)) as (k' & K1 & K2); try lia. exists k'. split; [lia|exact K2].
  - exists k. split; [lia|]. split; [reflexivity|lia].
Qed.

Definition is_dummy (e : entry) : bool := match se_key e with KDummy => true | _ => false end.
Lemma used_split tab : used tab = zlen (elems tab) + zlen (filter is_dummy tab).
Proof.
  induction tab as [|e tab IH]; [reflexivity|].
  change (e :: tab) with ([] ++ e :: tab) at 1. rewrite used_mid. cbn [app]. rewrite IH.
  unfold elems. cbn [flat_map filter]. fold (elems tab). rewrite zlen_app.
  unfold elem_of, nonnull, is_dummy. destruct (se_key e); unfold zlen; cbn [length]; lia.
Qed.

Definition skipped (all : bool) (e : entry) : bool :=
  match se_key e with KNull => true | KDummy => negb all | KElem _ => false end.

Lemma copy_ok size all : 0 < size -> forall old tab,
  tinv size tab -> used tab = zlen (elems tab) ->
  (forall k h, In (mkSE (KElem k) h) old -> h = hash k) ->
  (all = true -> filter is_dummy old = []) ->
  different (elems old) -> (forall k, mem k (elems old) = true -> mem k (elems tab) = false) ->
  zlen (elems tab) + zlen (elems old) < size ->
  exists tab', copy_entries all old tab (size - 1) = Ok tab' /\ tinv size tab' /\ used tab' = zlen (elems tab') /\
    zlen (elems tab') = zlen (elems tab) + zlen (elems old) /\
    forall x, mem x (elems tab') = mem x (elems old) || mem x (elems tab).
Proof.
  intros Hsz. induction old as [|[ek eh] old IH]; intros tab HT Hu Hh Hd Hdi Hdj Hs.
  - exists tab. split; [reflexivity|]. split; [exact HT|]. split; [exact Hu|]. split; [unfold zlen; cbn; lia|]. intros x. reflexivity.
  - cbn [copy_entries se_key]. destruct ek as [| |k].
    + apply IH; try assumption. intros k h H. apply Hh. right. exact H.
    + destruct all.
      * specialize (Hd eq_refl). discriminate.
      * cbn [negb]. apply IH; try assumption; [intros k h H; apply Hh; right; exact H|discriminate].
    + pose proof (Hh k eh (or_introl eq_refl)) as ->.
      assert (Ee : elems (mkSE (KElem k) (hash k) :: old) = k :: elems old) by reflexivity.
      rewrite Ee in *. destruct Hdi as [Hdi1 Hdi2].
      assert (Hmk : mem k (elems tab) = false) by (apply Hdj; rewrite mem_cons, (kl_refl _ _ _ HL); reflexivity).
      assert (Hzl : zlen (k :: elems old) = 1 + zlen (elems old)) by (unfold zlen; cbn [length]; lia).
      pose proof (zlen_nonneg (elems old)) as Hnn.
      pose proof (kl_u64 _ _ _ HL k) as Hk.
      destruct (first_free size tab (hash k) (t_pow _ _ HT) (t_len _ _ HT) Hk) as (n & N1 & (e & N2 & N3) & N4); [lia|].
      unfold insert_clean. cbn [se_hash]. unfold probe_fuel. replace (size - 1 + 1) with size by lia.
      rewrite (clean_probe size tab (t_pow _ _ HT)).
      rewrite (probe_first (vis_clean tab) size (slot size (hash k) n) n).
      2: lia.
      2:{ intros m Hm. destruct (N4 m Hm) as (e' & H1 & H2). unfold vis_clean, slot in *. rewrite H1. cbn.
          unfold nonnull in H2. destruct (se_key e'); [discriminate|reflexivity..]. }
      2:{ unfold vis_clean, slot in *. rewrite N2. cbn. rewrite N3. reflexivity. }
      cbn [bindr].
      destruct (place size tab k (slot size (hash k) n) e n HT N2) as (tab' & P1 & P2 & P3 & P4 & P5); try assumption.
      { unfold elem_of. rewrite N3. reflexivity. }
      { reflexivity. }
      rewrite P1. cbn [orUB bindr].
      assert (Hne : nonnull e = false) by (unfold nonnull; rewrite N3; reflexivity). rewrite Hne in P3.
      destruct (IH tab' P2) as (tab2 & T1 & T2 & T3 & T4 & T5).
      * lia.
      * intros k' h H. apply Hh. right. exact H.
      * intros Ha. specialize (Hd Ha). cbn in Hd. exact Hd.
      * exact Hdi2.
      * intros k' Hk'. rewrite P5. rewrite (Hdj k') by (rewrite mem_cons, Hk'; apply Bool.orb_true_r).
        destruct (keq k' k) eqn:E; [|reflexivity]. rewrite (mem_cong keq same hash HL _ _ _ E) in Hk'. congruence.
      * lia.
      * exists tab2. split; [exact T1|]. split; [exact T2|]. split; [exact T3|]. split; [lia|].
        intros x. rewrite T5, P5, mem_cons. destruct (mem x (elems old)), (keq x k); reflexivity.
Qed.

(** ** Sets *)
Definition sinv (s : cset K) : Prop :=
  tinv (s_mask s + 1) (s_tab s) /\ s_num s = zlen (elems (s_tab s)) /\ s_fill s = used (s_tab s) /\
  s_fill s * 5 < s_mask s * 3 /\ 0 < s_mask s.
Definition rep (s : cset K) (A : list K) : Prop :=
  sinv s /\ forall k, mem k (elems (s_tab s)) = mem k A.

Lemma rep_num s A : rep s A -> s_num s = card A.
Proof.
  intros ((HT & Hn & _) & Hm). rewrite Hn, <- (card_different keq _ (t_diff _ _ HT)).
  apply (card_ext keq same hash HL). exact Hm.
Qed.
Lemma rep_ext s A B : rep s A -> (forall k, mem k A = mem k B) -> rep s B.
Proof. intros (H1 & H2) H. split; [exact H1|]. intros k. rewrite H2. apply H. Qed.
Lemma used_lt s : sinv s -> used (s_tab s) < s_mask s + 1.
Proof. intros (HT & Hn & Hf & H1 & H2). lia. Qed.

Lemma rep_empty : rep set_empty [].
Proof.
  split; [|intros k; reflexivity]. unfold sinv, set_empty, MIN_SIZE. cbn [s_mask s_tab s_num s_fill].
  change (8 - 1 + 1) with 8. split; [|repeat split; cbn; lia].
  apply empty_inv; [|lia]. exists 3%nat. split; [reflexivity|lia].
Qed.

Lemma look_set s A key : rep s A ->
  (exists j k, zget (s_tab s) j = Some (mkSE (KElem k) (hash k)) /\ keq key k = true /\ mem key A = true /\
     lookkey keq same s key (hash key) = Ok j) \/
  (mem key A = false /\ exists j e, zget (s_tab s) j = Some e /\ se_key e = KNull /\ lookkey keq same s key (hash key) = Ok j).
Proof.
  intros (HI & Hm). pose proof (used_lt s HI) as Hu. destruct HI as (HT & _).
  destruct (look_ok (s_mask s + 1) (s_tab s) key HT Hu) as [(j & k & H1 & H2 & H3)|(H1 & j & e & H2 & H3 & H4)];
    replace (s_mask s + 1 - 1) with (s_mask s) in * by lia.
  - left. exists j, k. split; [exact H1|]. split; [exact H2|]. split; [|exact H3].
    rewrite <- Hm. apply mem_entry. eauto 6.
  - right. rewrite <- Hm. split; [exact H1|]. eauto 6.
Qed.

Lemma contains_ok s A key : rep s A -> contains_entry keq same s key (hash key) = Ok (mem key A).
Proof.
  intros HR. unfold contains_entry.
  destruct (look_set s A key HR) as [(j & k & H1 & H2 & H3 & H4)|(H1 & j & e & H2 & H3 & H4)]; rewrite H4; cbn [bindr].
  - rewrite H1, H3. reflexivity.
  - rewrite H2. cbn. rewrite H3, H1. reflexivity.
Qed.

Lemma discard_ok s A key : rep s A ->
  exists s', discard_entry keq same s key (hash key) = Ok (mem key A, s') /\ rep s' (minus keq A key).
Proof.
  intros HR. unfold discard_entry.
  destruct (look_set s A key HR) as [(j & k & H1 & H2 & H3 & H4)|(H1 & j & e & H2 & H3 & H4)]; rewrite H4; cbn [bindr].
  - rewrite H1. cbn [orUB bindr se_key]. destruct HR as ((HT & Hn & Hf & Hl & Hp) & Hm).
    destruct (kill _ _ _ _ _ HT H1) as (tab' & T1 & T2 & T3 & T4 & T5). rewrite T1. cbn [orUB bindr].
    eexists. split; [rewrite H3; reflexivity|]. split.
    + unfold sinv. cbn [s_mask s_tab s_num s_fill]. split; [exact T2|]. lia.
    + intros x. cbn [s_tab]. rewrite T5, Hm, (mem_minus keq same hash HL).
      rewrite (keq_sym keq same hash HL x key), (keq_cong keq same hash HL key k x H2), (keq_sym keq same hash HL k x). reflexivity.
  - rewrite H2. cbn [orUB bindr]. rewrite H3. exists s. split; [rewrite H1; reflexivity|].
    eapply rep_ext; [exact HR|]. intros x. rewrite (mem_minus keq same hash HL).
    destruct (keq x key) eqn:E; cbn; [|rewrite Bool.andb_true_r; reflexivity].
    rewrite Bool.andb_false_r, (mem_cong keq same hash HL _ _ _ E). exact H1.
Qed.

(** Resizing keeps the elements. *)
Lemma resize_rep s minsize : tinv (s_mask s + 1) (s_tab s) -> s_num s = zlen (elems (s_tab s)) ->
  s_fill s = used (s_tab s) -> 2 * s_num s <= minsize < 2 ^ 31 -> 0 < s_num s ->
  exists s', set_resize s minsize = Ok s' /\ sinv s' /\ forall k, mem k (elems (s_tab s')) = mem k (elems (s_tab s)).
Proof.
  intros HT Hn Hf Hmin Hpos. unfold set_resize.
  rewrite wrapS_id; [|lia|unfold inS; change (32 - 1) with 31; lia].
  destruct (grow_ok minsize ltac:(lia) 62 3 ltac:(lia) ltac:(lia)) as (k' & K1 & K2 & K3).
  change (2 ^ Z.of_nat 3) with MIN_SIZE in K2. rewrite K2. cbn [bindr].
  set (ns := 2 ^ Z.of_nat k') in *.
  assert (Hns : 0 < ns) by (apply Z.pow_pos_nonneg; lia).
  assert (HE : tinv ns (repeat (mkSE KNull 0) (Z.to_nat ns))).
  { apply empty_inv; [|lia]. exists k'. split; [reflexivity|lia]. }
  assert (Hc : forall all, (all = true -> filter is_dummy (s_tab s) = []) ->
    exists tab', copy_entries all (s_tab s) (repeat (mkSE KNull 0) (Z.to_nat ns)) (ns - 1) = Ok tab' /\
      tinv ns tab' /\ used tab' = s_num s /\ zlen (elems tab') = s_num s /\
      forall x, mem x (elems tab') = mem x (elems (s_tab s))).
  { intros all Hall. destruct (copy_ok ns all Hns (s_tab s) (repeat (mkSE KNull 0) (Z.to_nat ns)) HE)
      as (tab' & T1 & T2 & T3 & T4 & T5).
    - rewrite used_repeat, elems_repeat. reflexivity.
    - intros k h H. apply In_nth_error in H. destruct H as (i & Hi). apply (t_hash _ _ HT (Z.of_nat i)).
      rewrite zget_of_nat. exact Hi.
    - exact Hall.
    - apply (t_diff _ _ HT).
    - intros k _. rewrite elems_repeat. reflexivity.
    - rewrite elems_repeat. change (zlen (@nil K)) with 0. lia.
    - exists tab'. rewrite elems_repeat in *. change (zlen (@nil K)) with 0 in *. split; [exact T1|]. split; [exact T2|].
      split; [lia|]. split; [lia|]. intros x. rewrite T5. apply Bool.orb_false_r. }
  destruct (s_fill s =? s_num s) eqn:E.
  - destruct (Hc true) as (tab' & T1 & T2 & T3 & T4 & T5).
    + intros _. pose proof (used_split (s_tab s)) as Hsp. assert (zlen (filter is_dummy (s_tab s)) = 0) by lia.
      destruct (filter is_dummy (s_tab s)); [reflexivity|]. unfold zlen in *. cbn [length] in *. lia.
    + rewrite T1. cbn [bindr]. eexists. split; [reflexivity|]. cbn [s_tab]. split; [|exact T5].
      unfold sinv. cbn [s_mask s_tab s_num s_fill]. replace (ns - 1 + 1) with ns by lia. split; [exact T2|]. lia.
  - destruct (Hc false) as (tab' & T1 & T2 & T3 & T4 & T5); [discriminate|].
    rewrite T1. cbn [bindr]. eexists. split; [reflexivity|]. cbn [s_tab]. split; [|exact T5].
    unfold sinv. cbn [s_mask s_tab s_num s_fill]. replace (ns - 1 + 1) with ns by lia. split; [exact T2|]. lia.
Qed.

Lemma add_ok s A key : rep s A -> card (key :: A) <= 2 ^ 29 ->
  exists s', add_entry keq same s key (hash key) = Ok s' /\ rep s' (key :: A).
Proof.
  intros HR Hcard. pose proof (rep_num s A HR) as HN. pose proof HR as (HI & Hm). pose proof (used_lt s HI) as Hu.
  destruct HI as (HT & Hn & Hf & Hl & Hp).
  set (size := s_mask s + 1) in *. pose proof (t_pow _ _ HT) as HP. pose proof (kl_u64 _ _ _ HL key) as Hh.
  destruct (free_slot (s_tab s)) as (j0 & Hj0 & e0 & He0 & He0'); [rewrite (t_len _ _ HT); exact Hu|].
  rewrite (t_len _ _ HT) in Hj0.
  destruct (cover size (hash key) j0 HP Hh Hj0) as (n0 & Hn0 & E0).
  set (vis := vis_look (s_tab s) key (hash key)).
  pose proof (vis_look_total size (s_tab s) key HT) as Htot.
  destruct (least (fun n => vis (slot size (hash key) n) <> Ok None)) with (n := n0) as (n & H1 & H2 & H3).
  { intros n. destruct (vis (slot size (hash key) n)) as [[r|]|e| |];
      first [left; discriminate|right; intros H; apply H; reflexivity]. }
  { rewrite E0. unfold vis, vis_look. rewrite He0. cbn. rewrite He0'. discriminate. }
  assert (Hr : vis (slot size (hash key) n) = Ok (Some (slot size (hash key) n))).
  { pose proof (slot_range size (hash key) n HP) as Hsr. destruct (Htot _ Hsr) as (o & Eo). fold vis in Eo.
    destruct o as [r|]; [|congruence]. rewrite Eo. f_equal. f_equal. unfold vis, vis_look in Eo.
    destruct (zget (s_tab s) (slot size (hash key) n)) as [e|]; [|discriminate]. cbn [orUB bindr] in Eo.
    destruct (se_key e); [congruence| |]; destruct (se_hash e =? hash key); cbn in Eo; try discriminate.
    destruct (same k key || keq k key); congruence. }
  assert (Hnone : forall m, (m < n)%nat -> vis (slot size (hash key) m) = Ok None).
  { intros m Hm'. destruct (Htot _ (slot_range size (hash key) m HP)) as (o & Eo). fold vis in Eo.
    destruct o as [r|]; [|exact Eo]. exfalso. apply (H3 m Hm'). congruence. }
  assert (Hbusy : forall m, (m < n)%nat -> busy (s_tab s) (slot size (hash key) m)).
  { intros m Hm'. pose proof (slot_range size (hash key) m HP) as Hsr.
    destruct (zget_some (s_tab s) (slot size (hash key) m)) as (e & Ee); [rewrite (t_len _ _ HT); exact Hsr|].
    exists e. split; [exact Ee|]. specialize (Hnone m Hm'). unfold vis, vis_look in Hnone. rewrite Ee in Hnone. cbn in Hnone.
    unfold nonnull. destruct (se_key e); [discriminate|reflexivity..]. }
  (* is the key there? *)
  destruct (add_loop_first size (s_tab s) key n HT (probe_fuel (s_mask s)) (Z.land (hash key) (size - 1)) (hash key) None)
    as (e & Ee & Hc).
  { unfold probe_fuel. fold size. lia. }
  { intros m. exact (slot_range size (hash key) m HP). }
  { exact Hnone. }
  { exact Hr. }
  fold (slot size (hash key) n) in Ee, Hc. unfold add_entry.
  replace (size - 1) with (s_mask s) in Hc by (unfold size; lia).
  assert (Habs : se_key e = KNull -> mem key (elems (s_tab s)) = false).
  { intros He. destruct (mem key (elems (s_tab s))) eqn:Em; [exfalso|reflexivity].
    apply mem_entry in Em. destruct Em as (j & k & h & Ej & Ek).
    pose proof (t_hash _ _ HT _ _ _ Ej) as ->. destruct (t_reach _ _ HT _ _ _ Ej) as (n' & N1 & N2).
    rewrite <- (kl_hash _ _ _ HL _ _ Ek) in N1, N2.
    assert (Hk : keq k key = true) by (rewrite (keq_sym keq same hash HL); exact Ek).
    assert (Hv : vis j = Ok (Some j)).
    { unfold vis, vis_look. rewrite Ej. cbn [orUB bindr se_key se_hash]. rewrite (kl_hash _ _ _ HL _ _ Ek), Z.eqb_refl.
      cbn [bindr]. rewrite Hk, Bool.orb_true_r. reflexivity. }
    destruct (Nat.lt_trichotomy n' n) as [Hlt|[->|Hlt]].
    - specialize (Hnone n' Hlt). rewrite N1, Hv in Hnone. discriminate.
    - rewrite N1 in Ee. rewrite Ej in Ee. injection Ee as <-. discriminate.
    - destruct (N2 n Hlt) as (e' & G1 & G2). rewrite Ee in G1. injection G1 as <-. unfold nonnull in G2. rewrite He in G2. discriminate. }
  destruct Hc as [(Hc1 & Hc2)|(Hc1 & Hc2)].
  - rewrite Hc2. cbn [bindr]. exists s. split; [reflexivity|]. eapply rep_ext; [exact HR|].
    intros x. rewrite mem_cons. destruct (keq x key) eqn:E; [|reflexivity]. cbn. rewrite (mem_cong keq same hash HL _ _ _ E).
    rewrite <- Hm. apply mem_entry. unfold vis, vis_look in Hr. rewrite Ee in Hr. cbn [orUB bindr] in Hr.
    destruct e as [ek eh]. cbn [se_key se_hash] in *. destruct ek as [| |k]; [congruence| |].
    + destruct (eh =? hash key); discriminate.
    + exists (slot size (hash key) n), k, eh. split; [exact Ee|]. destruct (eh =? hash key); cbn [bindr] in Hr; [|discriminate].
      destruct (same k key || keq k key) eqn:E3; [|discriminate]. apply Bool.orb_true_iff in E3. destruct E3 as [E3|E3].
      * apply (kl_same _ _ _ HL) in E3. subst. apply (kl_refl _ _ _ HL).
      * rewrite (keq_sym keq same hash HL). exact E3.
  - specialize (Habs Hc1).
    assert (HcA : card (key :: A) = s_num s + 1).
    { cbn [S_Set.card]. rewrite <- Hm, Habs. lia. }
    pose proof (zlen_nonneg (elems (s_tab s))) as Hnn.
    destruct Hc2 as [(_ & Hc2)|(j & Hc2 & [Hc3|(m & M1 & M2 & M3)])]; [|discriminate|].
    + rewrite Hc2. cbn [bindr].
      destruct (place size (s_tab s) key (slot size (hash key) n) e n HT Ee) as (tab' & T1 & T2 & T3 & T4 & T5); try assumption.
      { unfold elem_of. rewrite Hc1. reflexivity. }
      { reflexivity. }
      assert (Hne : nonnull e = false) by (unfold nonnull; rewrite Hc1; reflexivity). rewrite Hne in T3.
      rewrite T1. cbn [orUB bindr s_fill s_mask s_num].
      destruct ((s_fill s + 1) * 5 <? s_mask s * 3) eqn:E.
      * eexists. split; [reflexivity|]. split.
        -- unfold sinv. cbn [s_mask s_tab s_num s_fill]. split; [exact T2|]. lia.
        -- intros x. cbn [s_tab]. rewrite T5, Hm, mem_cons. reflexivity.
      * set (s1 := mkSet (s_num s + 1) (s_fill s + 1) (s_mask s) (s_finger s) tab').
        destruct (resize_rep s1 (if s_num s + 1 >? 50000 then (s_num s + 1) * 2 else (s_num s + 1) * 4))
          as (s2 & R1 & R2 & R3).
        { exact T2. }
        { cbn [s1 s_num s_tab]. lia. }
        { cbn [s1 s_fill s_tab]. lia. }
        { cbn [s1 s_num]. destruct (s_num s + 1 >? 50000) eqn:E5; lia. }
        { cbn [s1 s_num]. lia. }
        rewrite R1. exists s2. split; [reflexivity|]. split; [exact R2|]. intros x. rewrite R3. cbn [s1 s_tab].
        rewrite T5, Hm, mem_cons. reflexivity.
    + rewrite Hc2. cbn [bindr].
      destruct (place size (s_tab s) key j (mkSE KDummy (-1)) m HT M3) as (tab' & T1 & T2 & T3 & T4 & T5); try assumption.
      { reflexivity. }
      { unfold slot. replace (size - 1) with (s_mask s) by (unfold size; lia). exact M2. }
      { intros m' Hm'. apply Hbusy. lia. }
      rewrite T1. cbn [orUB bindr]. eexists. split; [reflexivity|]. cbn [nonnull se_key] in T3. split.
      * unfold sinv. cbn [s_mask s_tab s_num s_fill]. split; [exact T2|]. lia.
      * intros x. cbn [s_tab]. rewrite T5, Hm, mem_cons. reflexivity.
Qed.

(** ** Iteration *)
Lemma scan_ok tab : (forall k h, In (mkSE (KElem k) h) tab -> h = hash k) -> forall i,
  match elems tab with
  | [] => scan tab i = Exn StopIteration
  | k :: l => exists m, scan tab i = Ok (k, hash k, i + Z.of_nat m + 1) /\ elems (skipn (S m) tab) = l
  end.
Proof.
  induction tab as [|[ek eh] tab IH]; intros Hh i; [reflexivity|].
  assert (IH' := fun j => IH (fun k h H => Hh k h (or_intror H)) j).
  unfold elems. cbn [flat_map elem_of se_key scan se_hash]. destruct ek as [| |k]; cbn [app]; fold (elems tab).
  - specialize (IH' (i + 1)). destruct (elems tab) as [|k l]; [exact IH'|]. destruct IH' as (m & H1 & H2).
    exists (S m). split; [rewrite H1; replace (i + 1 + Z.of_nat m + 1) with (i + Z.of_nat (S m) + 1) by lia; reflexivity|exact H2].
  - specialize (IH' (i + 1)). destruct (elems tab) as [|k l]; [exact IH'|]. destruct IH' as (m & H1 & H2).
    exists (S m). split; [rewrite H1; replace (i + 1 + Z.of_nat m + 1) with (i + Z.of_nat (S m) + 1) by lia; reflexivity|exact H2].
  - exists O. rewrite (Hh k eh (or_introl eq_refl)). split; [replace (i + Z.of_nat 0 + 1) with (i + 1) by lia; reflexivity|reflexivity].
Qed.

Lemma skipn_in {A} (l : list A) n x : In x (skipn n l) -> In x l.
Proof. intros H. rewrite <- (firstn_skipn n l). apply in_or_app. right. exact H. Qed.

Lemma next_ok s nxt : sinv s -> 0 <= nxt ->
  match elems (skipn (Z.to_nat nxt) (s_tab s)) with
  | [] => next_entry s nxt = Exn StopIteration
  | k :: l => exists n', next_entry s nxt = Ok (k, hash k, n') /\ nxt < n' /\ elems (skipn (Z.to_nat n') (s_tab s)) = l
  end.
Proof.
  intros (HT & _) H0. unfold next_entry.
  pose proof (scan_ok (skipn (Z.to_nat nxt) (s_tab s))) as H.
  assert (Hh : forall k h, In (mkSE (KElem k) h) (skipn (Z.to_nat nxt) (s_tab s)) -> h = hash k).
  { intros k h Hin. apply skipn_in, In_nth_error in Hin. destruct Hin as (i & Hi). apply (t_hash _ _ HT (Z.of_nat i)).
    rewrite zget_of_nat. exact Hi. }
  specialize (H Hh nxt). destruct (elems (skipn (Z.to_nat nxt) (s_tab s))) as [|k l]; [exact H|].
  destruct H as (m & H1 & H2). eexists. split; [exact H1|]. split; [lia|]. rewrite skipn_skipn' in H2. rewrite <- H2. do 2 f_equal. lia.
Qed.

Fixpoint eachl {S R} (l : list K) (body : S -> K -> Z -> res (R + S)) (st : S) : res (R + S) :=
  match l with
  | [] => Ok (inr st)
  | k :: l' => do r <- body st k (hash k);
               match r with inl x => Ok (inl x) | inr st' => eachl l' body st' end
  end.

Lemma each_ok {S R} s (body : S -> K -> Z -> res (R + S)) : sinv s -> forall n nxt st, 0 <= nxt ->
  n = length (elems (skipn (Z.to_nat nxt) (s_tab s))) ->
  each n s nxt body st = eachl (elems (skipn (Z.to_nat nxt) (s_tab s))) body st.
Proof.
  intros HI. induction n as [|n IH]; intros nxt st H0 Hn; pose proof (next_ok s nxt HI H0) as Hx;
    destruct (elems (skipn (Z.to_nat nxt) (s_tab s))) as [|k l]; try discriminate; [reflexivity|].
  destruct Hx as (n' & H1 & H2 & H3). cbn [each eachl]. rewrite H1. cbn [bindr].
  destruct (body st k (hash k)) as [[x|st']| | |]; cbn [bindr]; try reflexivity.
  rewrite <- H3. apply IH; [lia|]. rewrite H3. cbn [length] in Hn. lia.
Qed.
Lemma each_num {S R} s (body : S -> K -> Z -> res (R + S)) st : sinv s ->
  each (num_nat s) s 0 body st = eachl (elems (s_tab s)) body st.
Proof.
  intros HI. rewrite (each_ok s body HI); [reflexivity|lia|]. cbn [Z.to_nat skipn]. destruct HI as (_ & Hn & _).
  unfold num_nat. rewrite Hn. unfold zlen. lia.
Qed.
(** With no bound on the count, the loop ends by the iterator's exception. *)
Lemma each_over {S R} s (body : S -> K -> Z -> res (R + S)) : sinv s -> forall n nxt st, 0 <= nxt ->
  (length (elems (skipn (Z.to_nat nxt) (s_tab s))) < n)%nat ->
  each n s nxt body st = do r <- eachl (elems (skipn (Z.to_nat nxt) (s_tab s))) body st;
                         match r with inl x => Ok (inl x) | inr _ => Exn StopIteration end.
Proof.
  intros HI. induction n as [|n IH]; intros nxt st H0 Hn; [lia|]. pose proof (next_ok s nxt HI H0) as Hx. cbn [each].
  destruct (elems (skipn (Z.to_nat nxt) (s_tab s))) as [|k l].
  - rewrite Hx. reflexivity.
  - destruct Hx as (n' & H1 & H2 & H3). cbn [eachl]. rewrite H1. cbn [bindr].
    destruct (body st k (hash k)) as [[x|st']| | |]; cbn [bindr]; try reflexivity.
    rewrite <- H3. apply IH; [lia|]. rewrite H3. cbn [length] in Hn. lia.
Qed.
Lemma elems_le tab : (length (elems tab) <= length tab)%nat.
Proof.
  induction tab as [|e tab IH]; [reflexivity|]. unfold elems. cbn [flat_map]. fold (elems tab). rewrite app_length.
  unfold elem_of. cbn [length]. destruct (se_key e); cbn [length]; lia.
Qed.

Lemma drain_ok s : sinv s -> forall fuel nxt, 0 <= nxt ->
  (length (elems (skipn (Z.to_nat nxt) (s_tab s))) < fuel)%nat ->
  set_drain fuel s nxt = Ok (elems (skipn (Z.to_nat nxt) (s_tab s))).
Proof.
  intros HI. induction fuel as [|f IH]; intros nxt H0 Hf; [lia|]. pose proof (next_ok s nxt HI H0) as Hx. cbn [set_drain].
  unfold set_next. destruct (elems (skipn (Z.to_nat nxt) (s_tab s))) as [|k l].
  - rewrite Hx. reflexivity.
  - destruct Hx as (n' & H1 & H2 & H3). rewrite H1. cbn [bindr]. rewrite IH; [rewrite H3; reflexivity|lia|].
    rewrite H3. cbn [length] in Hf. lia.
Qed.

(** Folding a body that maintains a representation. *)
Lemma eachl_rep {R} (body : cset K -> K -> Z -> res (R + cset K)) (f : list K -> K -> list K) (P : list K -> Prop) :
  (forall s A k, rep s A -> P (f A k) -> exists s', body s k (hash k) = Ok (inr s') /\ rep s' (f A k)) ->
  forall l s A, rep s A -> (forall l1 l2, l = l1 ++ l2 -> l1 <> [] -> P (fold_left f l1 A)) ->
  exists s', eachl l body s = Ok (inr s') /\ rep s' (fold_left f l A).
Proof.
  intros Hb. induction l as [|k l IH]; intros s A HR HP.
  - exists s. split; [reflexivity|exact HR].
  - cbn [eachl fold_left]. destruct (Hb s A k HR) as (s' & H1 & H2).
    { apply (HP [k] l); [reflexivity|discriminate]. }
    rewrite H1. cbn [bindr]. apply IH; [exact H2|]. intros l1 l2 -> Hne. apply (HP (k :: l1) l2); [reflexivity|discriminate].
Qed.

(** add_all and update *)
Lemma add_all_ok ys : forall s A, rep s A -> card (ys ++ A) <= 2 ^ 29 ->
  exists s', add_all keq same hash s ys = Ok s' /\ rep s' (ys ++ A).
Proof.
  induction ys as [|y ys IH]; intros s A HR Hc.
  - exists s. split; [reflexivity|exact HR].
  - cbn [add_all]. rewrite shash_id.
    assert (Hle : forall B, (forall x, mem x B = true -> mem x (y :: ys ++ A) = true) -> card B <= 2 ^ 29).
    { intros B HB. apply Z.le_trans with (2 := Hc). apply (card_le keq same hash HL). exact HB. }
    destruct (add_ok s A y HR) as (s1 & H1 & H2).
    { apply Hle. intros x. rewrite !mem_cons, mem_app. destruct (keq x y), (mem x ys); cbn; auto. }
    rewrite H1. cbn [bindr]. destruct (IH s1 (y :: A) H2) as (s2 & H3 & H4).
    { apply Hle. intros x. rewrite mem_mid, mem_cons. auto. }
    exists s2. split; [exact H3|]. eapply rep_ext; [exact H4|]. intros x. rewrite mem_mid. reflexivity.
Qed.

Lemma update_set_ok o : sinv o -> forall fuel nxt s A, 0 <= nxt -> rep s A ->
  (length (elems (skipn (Z.to_nat nxt) (s_tab o))) < fuel)%nat ->
  card (elems (skipn (Z.to_nat nxt) (s_tab o)) ++ A) <= 2 ^ 29 ->
  exists s', update_set_loop keq same hash fuel s o nxt = Ok s' /\ rep s' (elems (skipn (Z.to_nat nxt) (s_tab o)) ++ A).
Proof.
  intros HI. induction fuel as [|f IH]; intros nxt s A H0 HR Hf Hc; [lia|].
  pose proof (next_ok o nxt HI H0) as Hx. cbn [update_set_loop]. unfold set_next.
  destruct (elems (skipn (Z.to_nat nxt) (s_tab o))) as [|k l].
  - rewrite Hx. cbn [bindr]. exists s. split; [reflexivity|exact HR].
  - destruct Hx as (n' & H1 & H2 & H3). rewrite H1. cbn [bindr]. rewrite shash_id.
    assert (Hle : forall B, (forall x, mem x B = true -> mem x (k :: l ++ A) = true) -> card B <= 2 ^ 29).
    { intros B HB. apply Z.le_trans with (2 := Hc). apply (card_le keq same hash HL). exact HB. }
    destruct (add_ok s A k HR) as (s1 & G1 & G2).
    { apply Hle. intros x. rewrite !mem_cons, mem_app. destruct (keq x k), (mem x l); cbn; auto. }
    rewrite G1. cbn [bindr]. destruct (IH n' s1 (k :: A)) as (s2 & G3 & G4).
    { lia. } { exact G2. } { rewrite H3. cbn [length] in Hf. lia. }
    { rewrite H3. apply Hle. intros x. rewrite mem_mid, mem_cons. auto. }
    exists s2. split; [exact G3|]. eapply rep_ext; [exact G4|]. intros x. rewrite H3, mem_mid. reflexivity.
Qed.

(** pop *)
Lemma pop_loop_ok size (tab : list entry) j k0 h0 : zlen tab = size -> zget tab j = Some (mkSE (KElem k0) h0) -> forall fuel i,
  0 <= i < size -> (if i <=? j then j - i else j - i + size) < Z.of_nat fuel ->
  exists k h i', pop_loop fuel tab (size - 1) i = Ok (k, i') /\ zget tab i' = Some (mkSE (KElem k) h).
Proof.
  intros Hl Hj. pose proof (zget_range _ _ _ Hj) as Hjr. induction fuel as [|f IH]; intros i Hi Hf.
  - destruct (Z.leb_spec i j); lia.
  - cbn [pop_loop]. destruct (zget_some tab i) as ([ek eh] & E); [lia|]. rewrite E. cbn [orUB bindr se_key].
    assert (Hgo : (forall k, ek <> KElem k) -> exists k h i',
              pop_loop f tab (size - 1) (if i + 1 >? size - 1 then 0 else i + 1) = Ok (k, i') /\ zget tab i' = Some (mkSE (KElem k) h)).
    { intros Hek. assert (i <> j) by (intros ->; rewrite Hj in E; injection E as <- <-; exact (Hek k0 eq_refl)).
      apply IH.
      - destruct (i + 1 >? size - 1) eqn:E1; lia.
      - destruct (Z.leb_spec i j); destruct (i + 1 >? size - 1) eqn:E1;
          match goal with |- context [?a <=? ?b] => destruct (Z.leb_spec a b) end; lia. }
    destruct ek as [| |k]; [apply Hgo; discriminate..|]. exists k, eh, i. split; [reflexivity|exact E].
Qed.

Lemma pop_ok s A : rep s A -> 
  (card A = 0 /\ set_pop s = Exn ValueError) \/
  (card A <> 0 /\ exists k s', mem k A = true /\ set_pop s = Ok (k, s') /\ rep s' (minus keq A k)).
Proof.
  intros HR. pose proof (rep_num s A HR) as HN. pose proof HR as ((HT & Hn & Hf & Hl & Hp) & Hm). unfold set_pop.
  destruct (s_num s =? 0) eqn:E; [left; split; [lia|reflexivity]|right]. split; [lia|].
  assert (exists k0, In k0 (elems (s_tab s))) as (k0 & Hk0).
  { destruct (elems (s_tab s)) as [|k0 l]; [cbn in Hn; lia|]. exists k0. left. reflexivity. }
  apply elems_entry in Hk0. destruct Hk0 as (j & h0 & Hj). pose proof (zget_range _ _ _ Hj) as Hjr.
  rewrite (t_len _ _ HT) in Hjr.
  assert (Hi : 0 <= Z.land (s_finger s) (s_mask s) < s_mask s + 1).
  { destruct (t_pow _ _ HT) as (q & Eq & _). replace (s_mask s) with (2 ^ Z.of_nat q - 1) by lia. rewrite land_mask.
    pose proof (Z.mod_pos_bound (s_finger s) (2 ^ Z.of_nat q) ltac:(apply Z.pow_pos_nonneg; lia)). lia. }
  destruct (pop_loop_ok (s_mask s + 1) (s_tab s) j k0 h0 (t_len _ _ HT) Hj (S (Z.to_nat (s_mask s + 1))) _ Hi)
    as (k & h & i' & H1 & H2).
  { destruct (Z.leb_spec (Z.land (s_finger s) (s_mask s)) j); lia. }
  replace (s_mask s + 1 - 1) with (s_mask s) in H1 by lia. rewrite H1. cbn [bindr].
  destruct (kill _ _ _ _ _ HT H2) as (tab' & T1 & T2 & T3 & T4 & T5). rewrite T1. cbn [orUB bindr].
  exists k. eexists. split.
  { rewrite <- Hm. apply mem_entry. exists i', k, h. split; [exact H2|apply (kl_refl _ _ _ HL)]. }
  split; [reflexivity|]. split.
  - unfold sinv. cbn [s_mask s_tab s_num s_fill]. split; [exact T2|]. lia.
  - intros x. cbn [s_tab]. rewrite T5, Hm, (mem_minus keq same hash HL). reflexivity.
Qed.

(** comparisons *)
Lemma all_in_ok a A b B n : rep a A -> rep b B -> n = num_nat b -> all_in keq same n a b = Ok (subset keq B A).
Proof.
  intros Ha Hb ->. unfold all_in. rewrite each_num by apply Hb.
  assert (H : forall l, (do r <- eachl l (fun (_ : unit) k h => do c <- contains_entry keq same a k h; Ok (if c then inr tt else inl false)) tt;
              Ok (match r with inl x => x | inr _ => true end)) = Ok (subset keq l A)).
  { induction l as [|k l IH]; [reflexivity|]. cbn [eachl]. rewrite (contains_ok a A k Ha). cbn [bindr].
    unfold subset. cbn [forallb]. destruct (mem k A); [exact IH|reflexivity]. }
  rewrite H. f_equal. apply (subset_ext keq same hash HL); [apply Hb|reflexivity].
Qed.

Lemma subset_refl A : subset keq A A = true.
Proof. apply (subset_spec keq same hash HL). auto. Qed.
Lemma subset_no A B : card B < card A -> subset keq A B = false.
Proof.
  intros H. destruct (subset keq A B) eqn:E; [|reflexivity]. apply (subset_card_le keq same hash HL) in E. lia.
Qed.

Lemma set_eq_ok eqp a A b B : rep a A -> rep b B -> (eqp = true -> A = B) ->
  set_eq keq same eqp a b = Ok (subset keq A B && subset keq B A).
Proof.
  intros Ha Hb He. unfold set_eq. destruct eqp.
  - rewrite (He eq_refl), subset_refl. reflexivity.
  - rewrite (rep_num a A Ha), (rep_num b B Hb). destruct (card A =? card B) eqn:E; cbn [negb].
    + rewrite (all_in_ok a A b B _ Ha Hb); [|unfold num_nat; rewrite (rep_num a A Ha), (rep_num b B Hb); f_equal; lia].
      f_equal. destruct (subset keq B A) eqn:E2; [|rewrite Bool.andb_false_r; reflexivity].
      rewrite (subset_card keq same hash HL B A E2) by lia. reflexivity.
    + f_equal. symmetry. destruct (Z.lt_ge_cases (card B) (card A)).
      * rewrite subset_no by assumption. reflexivity.
      * rewrite (subset_no B A) by lia. apply Bool.andb_false_r.
Qed.
Lemma set_gt_ok eqp a A b B : rep a A -> rep b B -> (eqp = true -> A = B) ->
  set_gt keq same eqp a b = Ok (subset keq B A && negb (subset keq A B)).
Proof.
  intros Ha Hb He. unfold set_gt. destruct eqp.
  - rewrite (He eq_refl), subset_refl. reflexivity.
  - rewrite (rep_num a A Ha), (rep_num b B Hb). destruct (card A <=? card B) eqn:E.
    + f_equal. symmetry. destruct (subset keq B A) eqn:E2; [|reflexivity]. cbn.
      pose proof (subset_card_le keq same hash HL _ _ E2).
      rewrite (subset_card keq same hash HL B A E2) by lia. reflexivity.
    + rewrite (all_in_ok a A b B _ Ha Hb eq_refl). rewrite (subset_no A B) by lia. cbn. rewrite Bool.andb_true_r. reflexivity.
Qed.
Lemma set_ge_ok eqp a A b B : rep a A -> rep b B -> (eqp = true -> A = B) ->
  set_ge keq same eqp a b = Ok (subset keq B A).
Proof.
  intros Ha Hb He. unfold set_ge. destruct eqp.
  - rewrite (He eq_refl), subset_refl. reflexivity.
  - rewrite (rep_num a A Ha), (rep_num b B Hb). destruct (card A <? card B) eqn:E.
    + rewrite (subset_no B A) by lia. reflexivity.
    + apply (all_in_ok a A b B _ Ha Hb eq_refl).
Qed.

Lemma fin_ok {S} (s : S) : fin (Ok (inr s)) = Ok s.
Proof. reflexivity. Qed.

(** algebra *)
Lemma or_loop_ok a A b B : rep a A -> rep b B -> card (A ++ B) <= 2 ^ 29 ->
  exists s, or_loop keq same a b = Ok s /\ rep s (A ++ B).
Proof.
  intros Ha Hb Hc. unfold or_loop. rewrite each_num by apply Hb. unfold set_copy.
  assert (Hmem : forall l x C, mem x (fold_left (fun A0 k => k :: A0) l C) = mem x l || mem x C).
  { induction l as [|k l IH]; intros x C; [reflexivity|]. cbn [fold_left]. rewrite IH, !mem_cons.
    destruct (mem x l), (keq x k); reflexivity. }
  destruct (eachl_rep (R := Empty_set) (fun st k h => do st' <- add_entry keq same st k h; Ok (inr st'))
              (fun A k => k :: A) (fun C => card C <= 2 ^ 29)) with (l := elems (s_tab b)) (s := a) (A := A) as (s' & H1 & H2).
  - intros s C k HR HC. destruct (add_ok s C k HR HC) as (s' & G1 & G2). rewrite G1. cbn [bindr]. eauto.
  - exact Ha.
  - intros l1 l2 El _. apply Z.le_trans with (2 := Hc). apply (card_le keq same hash HL). intros x. rewrite Hmem, mem_app.
    rewrite <- (proj2 Hb x), El, mem_app. destruct (mem x l1), (mem x A); cbn; intros; first [reflexivity|discriminate].
  - rewrite H1, fin_ok. exists s'. split; [reflexivity|]. eapply rep_ext; [exact H2|]. intros x.
    rewrite Hmem, (proj2 Hb x), mem_app. apply Bool.orb_comm.
Qed.
Lemma set_or_ok a A b B : rep a A -> rep b B -> card (A ++ B) <= 2 ^ 29 ->
  exists s, set_or keq same a b = Ok s /\ rep s (A ++ B).
Proof.
  intros Ha Hb Hc. unfold set_or. destruct (s_num b >? s_num a); [|apply or_loop_ok; assumption].
  assert (Hx : forall x, mem x (B ++ A) = mem x (A ++ B)) by (intros x; rewrite !mem_app; apply Bool.orb_comm).
  destruct (or_loop_ok b B a A Hb Ha) as (s & H1 & H2).
  { rewrite (card_ext keq same hash HL _ _ Hx). exact Hc. }
  exists s. split; [exact H1|]. eapply rep_ext; [exact H2|exact Hx].
Qed.

Lemma and_loop_ok a A b B : rep a A -> rep b B -> card A <= 2 ^ 29 ->
  exists s, and_loop keq same a b = Ok s /\ rep s (inter keq A B).
Proof.
  intros Ha Hb Hc. unfold and_loop. rewrite each_num by apply Ha.
  set (f := fun C k => if mem k B then k :: C else C).
  assert (Hmem : forall l x C, mem x (fold_left f l C) = (mem x l && mem x B) || mem x C).
  { induction l as [|k l IH]; intros x C; [reflexivity|]. cbn [fold_left]. rewrite IH. unfold f. rewrite mem_cons.
    destruct (keq x k) eqn:E.
    - rewrite (mem_cong keq same hash HL x k B E). destruct (mem k B); [rewrite mem_cons, E|];
        destruct (mem x l); reflexivity.
    - destruct (mem k B); [rewrite mem_cons, E|]; destruct (mem x l); reflexivity. }
  destruct (eachl_rep (R := Empty_set) (fun st k h => do c <- contains_entry keq same b k h;
                                           if c then do st' <- add_entry keq same st k h; Ok (inr st') else Ok (inr st))
              f (fun C => card C <= 2 ^ 29)) with (l := elems (s_tab a)) (s := @set_empty K) (A := @nil K) as (s' & H1 & H2).
  - intros s C k HR HC. rewrite (contains_ok b B k Hb). cbn [bindr]. unfold f in *. destruct (mem k B).
    + destruct (add_ok s C k HR HC) as (s' & G1 & G2). rewrite G1. cbn [bindr]. eauto.
    + eauto.
  - exact rep_empty.
  - intros l1 l2 El _. apply Z.le_trans with (2 := Hc). apply (card_le keq same hash HL). intros x. rewrite Hmem.
    rewrite <- (proj2 Ha x), El, mem_app. destruct (mem x l1), (mem x B); cbn; intros; first [reflexivity|discriminate].
  - rewrite H1, fin_ok. exists s'. split; [reflexivity|]. eapply rep_ext; [exact H2|]. intros x.
    rewrite Hmem, (proj2 Ha x), (mem_inter keq same hash HL). apply Bool.orb_false_r.
Qed.
Lemma set_and_ok a A b B : rep a A -> rep b B -> card A <= 2 ^ 29 -> card B <= 2 ^ 29 ->
  exists s, set_and keq same a b = Ok s /\ rep s (inter keq A B).
Proof.
  intros Ha Hb Hc Hc'. unfold set_and. destruct (s_num b >? s_num a); [|apply and_loop_ok; assumption].
  destruct (and_loop_ok b B a A Hb Ha Hc') as (s & H1 & H2).
  exists s. split; [exact H1|]. eapply rep_ext; [exact H2|]. intros x. rewrite !(mem_inter keq same hash HL). apply Bool.andb_comm.
Qed.

Lemma set_sub_ok a A b B : rep a A -> rep b B -> exists s, set_sub keq same a b = Ok s /\ rep s (diff keq A B).
Proof.
  intros Ha Hb. unfold set_sub. rewrite each_num by apply Hb. unfold set_copy.
  assert (Hmem : forall l x C, mem x (fold_left (minus keq) l C) = mem x C && negb (mem x l)).
  { induction l as [|k l IH]; intros x C; cbn [fold_left].
    - rewrite Bool.andb_true_r. reflexivity.
    - rewrite IH, (mem_minus keq same hash HL), mem_cons. destruct (mem x C), (keq x k), (mem x l); reflexivity. }
  destruct (eachl_rep (R := Empty_set) (fun st k h => do r <- discard_entry keq same st k h; Ok (inr (snd r)))
              (minus keq) (fun _ => True)) with (l := elems (s_tab b)) (s := a) (A := A) as (s' & H1 & H2).
  - intros s C k HR _. destruct (discard_ok s C k HR) as (s' & G1 & G2). rewrite G1. cbn [bindr snd]. eauto.
  - exact Ha.
  - intros; exact I.
  - rewrite H1, fin_ok. exists s'. split; [reflexivity|]. eapply rep_ext; [exact H2|]. intros x.
    rewrite Hmem, (proj2 Hb x), (mem_diff keq same hash HL). reflexivity.
Qed.

Lemma set_xor_ok a A b B : rep a A -> rep b B -> card (A ++ B) <= 2 ^ 29 ->
  exists s, set_xor keq same a b = Ok s /\ rep s (diff keq A B ++ diff keq B A).
Proof.
  intros Ha Hb Hc. unfold set_xor. rewrite each_num by apply Hb. unfold set_copy.
  set (f := fun C k => if mem k C then minus keq C k else k :: C).
  assert (Hf : forall x C k, mem x (f C k) = if keq x k then negb (mem x C) else mem x C).
  { intros x C k. unfold f. destruct (keq x k) eqn:E.
    - rewrite (mem_cong keq same hash HL x k C E). destruct (mem k C) eqn:E2.
      + rewrite (mem_minus keq same hash HL), E, Bool.andb_false_r. reflexivity.
      + rewrite mem_cons, E. reflexivity.
    - destruct (mem k C); [rewrite (mem_minus keq same hash HL), E, Bool.andb_true_r; reflexivity|rewrite mem_cons, E; reflexivity]. }
  assert (Hmem : forall l x C, different l -> mem x (fold_left f l C) = xorb (mem x C) (mem x l)).
  { induction l as [|k l IH]; intros x C Hd; cbn [fold_left]; [symmetry; apply Bool.xorb_false_r|].
    destruct Hd as [Hd1 Hd2]. rewrite (IH x (f C k) Hd2), Hf, mem_cons. destruct (keq x k) eqn:E; [|reflexivity].
    rewrite (mem_cong keq same hash HL x k l E), Hd1. destruct (mem x C); reflexivity. }
  assert (Hdl : forall l1 l2, different (l1 ++ l2) -> different l1).
  { induction l1 as [|k l1 IH]; intros l2 Hd; [exact I|]. destruct Hd as [Hd1 Hd2]. rewrite mem_app in Hd1.
    split; [|eapply IH; exact Hd2]. destruct (mem k l1); [discriminate|reflexivity]. }
  assert (Hdb : different (elems (s_tab b))) by (destruct Hb as ((HT & _) & _); apply (t_diff _ _ HT)).
  destruct (eachl_rep (R := Empty_set) (fun st k h => do r <- discard_entry keq same st k h;
                                           let '(found, st1) := r in
                                           if found then Ok (inr st1)
                                           else do st2 <- add_entry keq same st1 k h; Ok (inr st2))
              f (fun C => card C <= 2 ^ 29)) with (l := elems (s_tab b)) (s := a) (A := A) as (s' & H1 & H2).
  - intros s C k HR HC. destruct (discard_ok s C k HR) as (s' & G1 & G2). rewrite G1. cbn [bindr].
    destruct (mem k C) eqn:E.
    + exists s'. split; [reflexivity|]. unfold f. rewrite E. exact G2.
    + assert (Hsame : forall x, mem x (k :: minus keq C k) = mem x (f C k)).
      { intros x. rewrite Hf, mem_cons, (mem_minus keq same hash HL). destruct (keq x k) eqn:E2; [|rewrite Bool.andb_true_r; reflexivity].
        rewrite (mem_cong keq same hash HL x k C E2), E. reflexivity. }
      destruct (add_ok s' (minus keq C k) k G2) as (s2 & G3 & G4).
      { rewrite (card_ext keq same hash HL _ _ Hsame). exact HC. }
      rewrite G3. cbn [bindr]. exists s2. split; [reflexivity|]. eapply rep_ext; [exact G4|exact Hsame].
  - exact Ha.
  - intros l1 l2 El _. apply Z.le_trans with (2 := Hc). apply (card_le keq same hash HL). intros x.
    rewrite Hmem by (eapply Hdl; rewrite <- El; exact Hdb). rewrite mem_app, <- (proj2 Hb x), El, mem_app.
    destruct (mem x A), (mem x l1), (mem x l2); cbn; auto.
  - rewrite H1, fin_ok. exists s'. split; [reflexivity|]. eapply rep_ext; [exact H2|]. intros x.
    rewrite Hmem by exact Hdb. rewrite (proj2 Hb x), mem_app, !(mem_diff keq same hash HL).
    destruct (mem x A), (mem x B); reflexivity.
Qed.

(** isdisjoint *)
Lemma disjoint_loop_ok a A b B : rep a A -> rep b B ->
  disjoint_loop keq same a b = if existsb (fun k => mem k A) (elems (s_tab b)) then Ok false else Exn StopIteration.
Proof.
  intros Ha Hb. unfold disjoint_loop. rewrite (each_over b _ (proj1 Hb)); [|lia|].
  2:{ cbn [Z.to_nat skipn]. pose proof (elems_le (s_tab b)). lia. }
  cbn [Z.to_nat skipn].
  assert (H : forall l, eachl l (fun (_ : unit) k h => do c <- contains_entry keq same a k h; Ok (if c then inl false else inr tt)) tt
                        = Ok (if existsb (fun k => mem k A) l then inl false else inr tt)).
  { induction l as [|k l IH]; [reflexivity|]. cbn [eachl existsb]. rewrite (contains_ok a A k Ha). cbn [bindr].
    destruct (mem k A); [reflexivity|exact IH]. }
  rewrite H. cbn [bindr]. destruct (existsb (fun k => mem k A) (elems (s_tab b))); reflexivity.
Qed.
Definition common (A B : list K) : bool := existsb (fun k => mem k B) A.
Lemma common_spec A B : common A B = true <-> exists x, mem x A = true /\ mem x B = true.
Proof.
  unfold common. rewrite existsb_exists. split.
  - intros (x & H1 & H2). exists x. split; [apply (mem_in keq same hash HL); exact H1|exact H2].
  - intros (x & H1 & H2). destruct (mem_ex keq x A H1) as (y & Hy & E). exists y. split; [exact Hy|].
    rewrite <- (mem_cong keq same hash HL x y B E). exact H2.
Qed.
Lemma isdisjoint_ok a A b B : rep a A -> rep b B ->
  set_isdisjoint keq same false a b = if common A B then Ok false else Exn StopIteration.
Proof.
  intros Ha Hb. unfold set_isdisjoint.
  assert (Hx : forall a A b B, rep a A -> rep b B -> existsb (fun k => mem k A) (elems (s_tab b)) = common A B).
  { clear a A b B Ha Hb. intros a A b B Ha Hb. apply Bool.eq_iff_eq_true. rewrite common_spec. fold (common (elems (s_tab b)) A).
    rewrite common_spec. split; intros (x & H1 & H2); exists x; rewrite (proj2 Hb x) in *; auto. }
  destruct (s_num b >? s_num a).
  - rewrite (disjoint_loop_ok b B a A Hb Ha), (Hx b B a A Hb Ha).
    replace (common B A) with (common A B); [reflexivity|]. apply Bool.eq_iff_eq_true. rewrite !common_spec. split; intros (x & X1 & X2); exists x; auto.
  - rewrite (disjoint_loop_ok a A b B Ha Hb), (Hx a A b B Ha Hb). reflexivity.
Qed.

(** ** Histories *)
Definition reps (regs : nat -> cset K) (st : nat -> list K) : Prop := forall i, rep (regs i) (st i).

Lemma reps_upd regs st i s A : reps regs st -> rep s A -> reps (upd regs i s) (upd st i A).
Proof. intros H1 H2 j. unfold upd. destruct (j =? i)%nat; [exact H2|apply H1]. Qed.

Definition lim : Z := 2 ^ 28.

Lemma step_set_ok regs st op : reps regs st -> (forall i, card (st i) <= lim) ->
  forall r regs', set_step keq same hash regs op = (r, regs') ->
  (forall i, card (next keq st op r i) <= lim) -> allowed keq st op r /\ reps regs' (next keq st op r).
Proof.
  intros HR Hlim r regs' Es Hl'. unfold lim in *.
  assert (Hup : forall i A, (forall j, card (upd st i A j) <= 2 ^ 28) -> card A <= 2 ^ 29).
  { intros i A H. specialize (H i). unfold upd in H. rewrite Nat.eqb_refl in H. lia. }
  assert (Hst : forall i A rs, (exists s, rs = Ok s /\ rep s A) -> store regs i rs = (r, regs') ->
            r = Ok SVUnit /\ reps regs' (upd st i A)).
  { intros i A rs (s & -> & Hs) E. cbn in E. injection E as <- <-. split; [reflexivity|]. apply reps_upd; assumption. }
  assert (Hab : forall a b, card (st a ++ st b) <= 2 ^ 29).
  { intros a b. pose proof (card_app keq (st a) (st b)). pose proof (Hlim a). pose proof (Hlim b). lia. }
  assert (He : forall a b, (a =? b)%nat = true -> st a = st b) by (intros a b H; apply Nat.eqb_eq in H; congruence).
  assert (He' : forall a b, (a =? b)%nat = true -> st b = st a) by (intros a b H; apply Nat.eqb_eq in H; congruence).
  destruct op; cbn [set_step allowed next] in *.
  - eapply Hst; [|exact Es]. destruct (add_all_ok ys set_empty [] rep_empty) as (s & S1 & S2).
    { rewrite app_nil_r. apply (Hup r0). exact Hl'. }
    rewrite app_nil_r in S2. exists s. split; [exact S1|exact S2].
  - eapply Hst; [|exact Es]. unfold set_add. rewrite shash_id. apply add_ok; [apply HR|]. apply (Hup r0). exact Hl'.
  - eapply Hst; [|exact Es]. unfold set_discard. rewrite shash_id.
    destruct (discard_ok (regs r0) (st r0) k (HR r0)) as (s & S1 & S2). exists s. rewrite S1. split; [reflexivity|exact S2].
  - destruct (pop_ok (regs r0) (st r0) (HR r0)) as [(P1 & P2)|(P1 & k & s & P2 & P3 & P4)].
    + rewrite P2 in Es. injection Es as <- <-. rewrite P1. split; [reflexivity|exact HR].
    + rewrite P3 in Es. injection Es as <- <-. destruct (card (st r0) =? 0) eqn:E; [lia|].
      split; [exists k; auto|]. apply reps_upd; assumption.
  - eapply Hst; [|exact Es]. apply add_all_ok; [apply HR|]. apply (Hup r0). exact Hl'.
  - eapply Hst; [|exact Es]. unfold set_update_set. destruct (r0 =? a)%nat eqn:E.
    + exists (regs r0). split; [reflexivity|]. eapply rep_ext; [apply HR|]. intros x. rewrite mem_app, (He' _ _ E).
      destruct (mem x (st r0)); reflexivity.
    + assert (Hx : forall x, mem x (elems (s_tab (regs a)) ++ st r0) = mem x (st a ++ st r0)).
      { intros x. rewrite !mem_app. rewrite (proj2 (HR a) x). reflexivity. }
      destruct (update_set_ok (regs a) (proj1 (HR a)) (S (length (s_tab (regs a)))) 0 (regs r0) (st r0))
        as (s & S1 & S2).
      { lia. } { apply HR. } { cbn [Z.to_nat skipn]. pose proof (elems_le (s_tab (regs a))). lia. }
      { cbn [Z.to_nat skipn]. rewrite (card_ext keq same hash HL _ _ Hx). apply (Hup r0). exact Hl'. }
      exists s. split; [exact S1|]. cbn [Z.to_nat skipn] in S2. eapply rep_ext; [exact S2|exact Hx].
  - eapply Hst; [|exact Es]. apply set_or_ok; [apply HR..|apply Hab].
  - eapply Hst; [|exact Es]. pose proof (Hlim a). pose proof (Hlim b). apply set_and_ok; [apply HR..|lia|lia].
  - eapply Hst; [|exact Es]. apply set_sub_ok; apply HR.
  - eapply Hst; [|exact Es]. apply set_xor_ok; [apply HR..|apply Hab].
  - unfold set_contains in Es. rewrite shash_id, (contains_ok _ _ k (HR a)) in Es. injection Es as <- <-. split; [reflexivity|exact HR].
  - unfold set_contains in Es. rewrite shash_id, (contains_ok _ _ k (HR a)) in Es. injection Es as <- <-. split; [reflexivity|exact HR].
  - injection Es as <- <-. rewrite (rep_num _ _ (HR a)). split; [reflexivity|exact HR].
  - rewrite (drain_ok (regs a) (proj1 (HR a))) in Es; [|lia|].
    2:{ cbn [Z.to_nat skipn]. pose proof (elems_le (s_tab (regs a))). lia. }
    injection Es as <- <-. split; [|exact HR]. eexists. split; [reflexivity|]. cbn [Z.to_nat skipn]. pose proof (HR a) as ((HT & _) & Hm).
    split; [apply (t_diff _ _ HT)|exact Hm].
  - rewrite (set_eq_ok _ _ _ _ _ (HR a) (HR b) (He a b)) in Es. injection Es as <- <-. split; [reflexivity|exact HR].
  - unfold set_ne in Es. rewrite (set_eq_ok _ _ _ _ _ (HR a) (HR b) (He a b)) in Es. injection Es as <- <-. split; [reflexivity|exact HR].
  - unfold set_lt in Es. rewrite (set_gt_ok _ _ _ _ _ (HR b) (HR a) (He' a b)) in Es. injection Es as <- <-. split; [reflexivity|exact HR].
  - unfold set_le in Es. rewrite (set_ge_ok _ _ _ _ _ (HR b) (HR a) (He' a b)) in Es. injection Es as <- <-. split; [reflexivity|exact HR].
  - rewrite (set_gt_ok _ _ _ _ _ (HR a) (HR b) (He a b)) in Es. injection Es as <- <-. split; [reflexivity|exact HR].
  - rewrite (set_ge_ok _ _ _ _ _ (HR a) (HR b) (He a b)) in Es. injection Es as <- <-. split; [reflexivity|exact HR].
Qed.

Lemma run_set_ok ops : forall regs st, reps regs st -> (forall i, card (st i) <= lim) ->
  set_history keq lim st ops (fst (run_set keq same hash regs ops)).
Proof.
  induction ops as [|op ops IH]; intros regs st HR Hl; [exact I|]. cbn [run_set].
  destruct (set_step keq same hash regs op) as [r regs1] eqn:Es. destruct (run_set keq same hash regs1 ops) as [rs regs2] eqn:Er.
  cbn [fst set_history]. intros st' -> Hl'. destruct (step_set_ok regs st op HR Hl r regs1 Es Hl') as (H1 & H2).
  split; [exact H1|]. specialize (IH regs1 _ H2 Hl'). rewrite Er in IH. exact IH.
Qed.
End Tab.

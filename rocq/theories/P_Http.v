(** Cutting messages: the end of the header, the lines, the parts of a line. *)
From Verif Require Import Base M_Slice S_Slice M_Str S_Str M_Bytes S_Bytes P_Base P_Bmh P_Str P_Str2 P_Str3 P_Slice P_Bytes P_Bytes2 P_Bytes3.
From Coq Require Import ZifyBool ZifyNat.

Lemma splits_det {A} (P : list A) k X l : splits P k X l -> forall l', splits P k X l' -> l = l'.
Proof.
  induction 1 as [X|o X Ha|o X a b l Ho E Hf H IH]; intros l' H'.
  - inversion H' as [|? ? ?|? ? ? ? ? C]; subst; [reflexivity|reflexivity|congruence].
  - inversion H' as [|? ? ?|? ? ? ? ? C E' Hf']; subst; [reflexivity|reflexivity|]. exfalso. exact (Ha _ (proj1 Hf')).
  - inversion H' as [|? ? Ha'|? ? a' b' l2 C E' Hf' H2]; subst; [congruence|exfalso; exact (Ha' _ (proj1 Hf))|].
    assert (E2 : zlen a = zlen a') by (destruct Hf as [F1 F2], Hf' as [F3 F4]; pose proof (F2 _ F3); pose proof (F4 _ F1); lia).
    destruct (app_len_eq _ _ _ _ E' E2) as [-> E3]. apply app_inv_head in E3. subst b'. f_equal. apply IH. assumption.
Qed.

Lemma in_early {A} (c : A) X R a r : X ++ R = a ++ c :: r -> zlen a < zlen X -> In c X.
Proof.
  revert a. induction X as [|x X IH]; intros a E H; [pose proof (zlen_nn a); rewrite zlen_nil in H; lia|].
  destruct a as [|y a]; injection E as E1 E2; [left; assumption|right]. apply (IH a E2). rewrite !zlen_cons in H. lia.
Qed.
Lemma first_no {A} (c : A) P X R : ~ In c X -> first_occ (X ++ (c :: P) ++ R) (c :: P) (zlen X).
Proof.
  intros H. split; [exists X, R; split; reflexivity|]. intros m (a & b & E & <-).
  destruct (Z_lt_ge_dec (zlen a) (zlen X)) as [L|L]; [|lia]. exfalso. apply H. exact (in_early c X _ a _ E L).
Qed.
Lemma absent_no {A} (c : A) P X : ~ In c X -> absent X (c :: P).
Proof. intros H m (a & b & E & _). apply H. rewrite E. apply in_or_app. right. left. reflexivity. Qed.

Lemma bsplit1 s P X R : P <> [] -> bfits s -> s = X ++ P ++ R -> first_occ s P (zlen X) -> bytes_split s P (Some 1) = Ok [X; R].
Proof.
  intros HP F E Hf. destruct (bsplit_ok s P (Some 1) HP F ltac:(discriminate)) as (l & Hl & ->). f_equal.
  apply (splits_det _ _ _ _ Hl). change (limit (Some 1)) with (Some 1%nat). eapply splits_cons; [discriminate|exact E|exact Hf|apply splits_stop].
Qed.
Lemma bsplit_absent s P m : P <> [] -> bfits s -> m <> Some 0 -> absent s P -> bytes_split s P m = Ok [s].
Proof.
  intros HP F Hm Ha. destruct (bsplit_ok s P m HP F Hm) as (l & Hl & ->). f_equal. apply (splits_det _ _ _ _ Hl). apply splits_none. assumption.
Qed.
Lemma splits_pieces {A} (c : A) P l : l <> [] -> Forall (fun x => ~ In c x) l -> splits (c :: P) None (joined (c :: P) l) l.
Proof.
  intros Hn H. induction H as [|x l Hx H IH]; [congruence|]. destruct l as [|y l]; [apply splits_none, absent_no; assumption|].
  cbn [joined]. eapply splits_cons; [discriminate|reflexivity|apply first_no; assumption|]. apply IH. discriminate.
Qed.
Lemma bsplit_pieces c P l : l <> [] -> Forall (fun x => ~ In c x) l -> bfits (joined (c :: P) l) -> bytes_split (joined (c :: P) l) (c :: P) None = Ok l.
Proof.
  intros Hn H F. destruct (bsplit_ok _ (c :: P) None ltac:(discriminate) F ltac:(discriminate)) as (l' & Hl & ->). f_equal.
  apply (splits_det _ _ _ _ Hl). apply splits_pieces; assumption.
Qed.

(** The first empty line is the one after the header. *)
Lemma head_end l R : l <> [] -> Forall (fun x => x <> [] /\ ~ In 13 x /\ ~ In 10 x) l ->
  forall m, occurs (joined [13; 10] l ++ [13; 10; 13; 10] ++ R) [13; 10; 13; 10] m -> zlen (joined [13; 10] l) <= m.
Proof.
  intros Hn H. induction H as [|x l (Hx0 & Hx & Hx') H IH]; [congruence|]. intros m (a & b & E & <-).
  destruct (Z_lt_ge_dec (zlen a) (zlen x)) as [L|L].
  { exfalso. apply Hx. destruct l as [|y l]; cbn [joined] in E; rewrite <- ?app_assoc in E; exact (in_early 13 x _ a _ E L). }
  destruct l as [|y l]; [cbn [joined]; lia|]. specialize (IH ltac:(discriminate)). change (joined [13; 10] (x :: y :: l)) with (x ++ [13; 10] ++ joined [13; 10] (y :: l)) in *. set (J := joined [13; 10] (y :: l)) in *.
  assert (Hy : exists c J', J = c :: J' /\ c <> 13).
  { inversion H as [|? ? (Hy0 & Hy & _) _]; subst. destruct y as [|c y]; [congruence|]. assert (c <> 13) by (intros ->; apply Hy; left; reflexivity).
    unfold J. cbn [joined]. destruct l; [exists c, y|eexists c, _]; split; auto. reflexivity. }
  clearbody J.
  assert (Ea : exists a', a = x ++ a').
  { exists (skipn (length x) a). rewrite <- (firstn_skipn (length x) a) at 1. f_equal.
    assert (E2 : firstn (length x) (a ++ [13; 10; 13; 10] ++ b) = x). { rewrite <- E, <- !app_assoc, firstn_app, Nat.sub_diag, firstn_all, firstn_O, app_nil_r. reflexivity. }
    rewrite firstn_app in E2. replace (length x - length a)%nat with O in E2 by (unfold zlen in L; lia). rewrite firstn_O, app_nil_r in E2. exact E2. }
  destruct Ea as [a' ->]. rewrite <- !app_assoc in E. apply app_inv_head in E. destruct Hy as (c & J' & EJ & Hc).
  destruct a' as [|u [|v a']]; cbn [app] in E.
  - rewrite EJ in E. cbn [app] in E. injection E as E. congruence.
  - discriminate E.
  - injection E as <- <- E. specialize (IH (zlen a')). rewrite !zlen_app, !zlen_cons, zlen_nil. enough (zlen J <= zlen a') by lia. apply IH. exists a', b. split; [exact E|reflexivity].
Qed.

Lemma occurs_more {A} (X R P : list A) m : occurs X P m -> occurs (X ++ R) P m.
Proof. intros (a & b & -> & E). exists a, (b ++ R). split; [rewrite <- !app_assoc; reflexivity|exact E]. Qed.
Lemma occurs_len {A} (X P : list A) m : occurs X P m -> m + zlen P <= zlen X.
Proof. intros (a & b & -> & <-). rewrite !zlen_app. pose proof (zlen_nn b). lia. Qed.

(** A prefix of A ++ B is a prefix of A or goes on into B. *)
Lemma prefix_cases {A} (p t X Y : list A) : p ++ t = X ++ Y -> (exists u, X = p ++ u /\ t = u ++ Y /\ u <> []) \/ (exists u, p = X ++ u /\ Y = u ++ t).
Proof.
  revert X. induction p as [|a p IH]; intros X E; cbn [app] in *.
  - destruct X as [|x X]; [right; exists []; auto|left; exists (x :: X); split; [reflexivity|split; [assumption|discriminate]]].
  - destruct X as [|x X]; cbn [app] in *; [right; exists (a :: p); auto|]. injection E as -> E.
    destruct (IH X E) as [(u & -> & -> & Hu)|(u & -> & ->)]; [left; exists u; auto|right; exists u; auto].
Qed.

(** Slices without a step never fail. *)
Lemma bslice_one s : bfits s -> forall n t, 0 <= t -> t + Z.of_nat n <= zlen s -> bslice_loop n (bbuf s) t 1 = Ok (firstn n (skipn (Z.to_nat t) s)).
Proof.
  intros F. induction n as [|n IH]; intros t H1 H2; [reflexivity|]. cbn [bslice_loop]. rewrite rd_in by lia. cbn [bindr].
  unfold bfits in F. rewrite wrap32 by (unfold is_int; lia). rewrite IH by lia. cbn [bindr].
  assert (E : skipn (Z.to_nat t) s = nth (Z.to_nat t) s 0 :: skipn (S (Z.to_nat t)) s).
  { assert (L : (Z.to_nat t < length s)%nat) by (unfold zlen in H2; lia). clear - L. revert L. generalize (Z.to_nat t). induction s as [|x s IH]; intros n L; [cbn in L; lia|].
    destruct n; [reflexivity|]. cbn [skipn nth]. rewrite IH by (cbn in L; lia). reflexivity. }
  rewrite E. cbn [firstn]. replace (Z.to_nat (t + 1)) with (S (Z.to_nat t)) by lia. reflexivity.
Qed.
Definition clamp1 (len : Z) (x : Z) : Z := if 0 <=? x then Z.min x len else Z.max 0 (len + x).
Lemma bslice_step1 s a b : bfits s -> bytes_getslice s (mkSlice a b None) =
  Ok (window s (match a with None => 0 | Some x => clamp1 (zlen s) x end) (match b with None => zlen s | Some x => clamp1 (zlen s) x end)).
Proof.
  intros F. pose proof (zlen_nn s) as Hn. unfold bytes_getslice, normalize_slice. cbn [sl_step sl_start sl_stop]. change (1 =? 0) with false. change (0 <? 1) with true. change (1 <? 0) with false.
  cbn [andb orb]. cbv iota. rewrite orb_false_r.
  assert (Hc : forall x, clamp_bound (zlen s) 1 x = clamp1 (zlen s) x).
  { intros x. unfold clamp_bound, clamp1. change (0 <? 1) with true. cbv iota. destruct (0 <=? x) eqn:E1; [destruct (x <? zlen s) eqn:E2; lia|destruct (- zlen s <? x) eqn:E2; lia]. }
  set (A := match a with None => 0 | Some x => clamp_bound (zlen s) 1 x end). set (B := match b with None => zlen s | Some x => clamp_bound (zlen s) 1 x end).
  replace (match a with None => 0 | Some x => clamp1 (zlen s) x end) with A by (unfold A; destruct a; [apply Hc|reflexivity]).
  replace (match b with None => zlen s | Some x => clamp1 (zlen s) x end) with B by (unfold B; destruct b; [apply Hc|reflexivity]).
  assert (HA : 0 <= A <= zlen s) by (unfold A; destruct a; [rewrite Hc; unfold clamp1; destruct (0 <=? z) eqn:E; lia|lia]).
  assert (HB : 0 <= B <= zlen s) by (unfold B; destruct b; [rewrite Hc; unfold clamp1; destruct (0 <=? z) eqn:E; lia|lia]).
  rewrite Z.quot_1_r, Z.rem_1_r. change (0 =? 0) with true. cbv iota. rewrite Z.add_0_r. cbn [bindr].
  unfold window. destruct (B <=? A) eqn:E; [replace (Z.to_nat (B - A)) with O by lia; reflexivity|]. apply bslice_one; [assumption|lia|lia].
Qed.

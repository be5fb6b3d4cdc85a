(** Context of chunks, equality of texts, and the printed form. *)
From Verif Require Import Base S_Diff M_Diff P_Diff P_Diff2.
From Coq Require Import Arith Lia ZifyBool ZifyNat.
Open Scope nat_scope.

Section P.
Context {A : Type}.
Implicit Types e f : list A.

Lemma change_in (ops : list (op A)) : forall i n, In n (change_indices ops i) <->
  i <= n /\ exists o, nth_error ops (n - i) = Some o /\ changed o = true.
Proof.
  induction ops as [|o t IH]; intros i n; cbn [change_indices].
  - split. intros []. intros (_ & o & H & _). destruct (n - i); discriminate.
  - assert (Q : In n (change_indices t (S i)) <-> i < n /\ exists p, nth_error (o :: t) (n - i) = Some p /\ changed p = true).
    { rewrite IH. split.
      - intros (H & p & E & C). split. lia. exists p. replace (n - i) with (S (n - S i)) by lia. auto.
      - intros (H & p & E & C). split. lia. exists p. replace (n - i) with (S (n - S i)) in E by lia. auto. }
    destruct (changed o) eqn:C; cbn [In]; rewrite Q; clear Q IH.
    + split.
      * intros [->|(H & p & E & Cp)]. split. lia. exists o. rewrite Nat.sub_diag. auto. split. lia. eauto.
      * intros (H & p & E & Cp). destruct (Nat.eq_dec i n); auto. right. split. lia. eauto.
    + split.
      * intros (H & p & E & Cp). split. lia. eauto.
      * intros (H & p & E & Cp). split; eauto. destruct (Nat.eq_dec i n); [|lia]. subst. rewrite Nat.sub_diag in E. inversion E. congruence.
Qed.
Lemma included_ok (ops : list (op A)) c n : included (change_indices ops 0) c n = true <->
  exists q o, nth_error ops q = Some o /\ changed o = true /\ (Z.abs (Z.of_nat n - Z.of_nat q) <= c)%Z.
Proof.
  unfold included. rewrite existsb_exists. split.
  - intros (q & I & H). apply change_in in I as (_ & o & E & C). rewrite Nat.sub_0_r in E. exists q, o. split; auto. split; auto. lia.
  - intros (q & o & E & C & H). exists q. split. apply change_in. split. lia. exists o. rewrite Nat.sub_0_r. auto. lia.
Qed.

(** A chunk is a maximal run of included operations. *)
Definition run (inc : nat -> bool) (all ch : list (op A)) : Prop :=
  ch <> [] /\ exists p s, all = p ++ ch ++ s /\ (forall n, length p <= n < length p + length ch -> inc n = true) /\
    (p = [] \/ inc (length p - 1) = false) /\ (s = [] \/ inc (length p + length ch) = false).
Lemma go_runs inc ops : forall pre cur, 
  (forall n, length pre <= n < length pre + length cur -> inc n = true) ->
  (pre = [] \/ inc (length pre - 1) = false \/ False) ->
  Forall (run inc (pre ++ cur ++ ops)) (go inc ops (length pre + length cur) cur).
Proof.
  induction ops as [|o t IH]; intros pre cur Hi Hp; cbn [go].
  - destruct cur as [|q cur]; constructor; auto. split. discriminate. exists pre, []. repeat split; auto. tauto.
  - destruct (inc (length pre + length cur)) eqn:I.
    + replace (S (length pre + length cur)) with (length pre + length (cur ++ [o])) by (rewrite app_length; cbn; lia).
      replace (pre ++ cur ++ o :: t) with (pre ++ (cur ++ [o]) ++ t) by (rewrite <- !app_assoc; auto).
      apply IH; auto. intros n. rewrite app_length. cbn [length]. intros Hn. destruct (Nat.eq_dec n (length pre + length cur)); subst; auto. apply Hi. lia.
    + assert (G : Forall (run inc (pre ++ cur ++ o :: t)) (go inc t (S (length pre + length cur)) [])).
      { replace (S (length pre + length cur)) with (length (pre ++ cur ++ [o]) + length (@nil (op A))) by (rewrite !app_length; cbn; lia).
        replace (pre ++ cur ++ o :: t) with ((pre ++ cur ++ [o]) ++ [] ++ t) by (rewrite <- !app_assoc; auto).
        apply IH. cbn. intros; lia. right. left. rewrite !app_length. cbn [length].
        replace (length pre + (length cur + 1) - 1) with (length pre + length cur) by lia. auto. }
      destruct cur as [|q cur]; auto. constructor; auto. split. discriminate. exists pre, (o :: t). repeat split; auto. tauto.
Qed.

Lemma run_context (all ch : list (op A)) c : (0 <= c)%Z -> run (included (change_indices all 0) c) all ch ->
  context (Z.to_nat c) (hunk_of ch).
Proof.
  intros Hc (Hne & p & s & Ha & Hi & Hp & Hs).
  assert (K : forall n, n < length ch -> exists n' m', nth_error (body (hunk_of ch)) n' = Some m' /\ is_change m' /\ n <= n' + Z.to_nat c /\ n' <= n + Z.to_nat c).
  { intros n Hn. specialize (Hi (length p + n)). rewrite included_ok in Hi. destruct Hi as (q & o & Eq & Co & Hq). lia.
    assert (Mono : forall k, (length p + n <= k <= q \/ q <= k <= length p + n) -> included (change_indices all 0) c k = true).
    { intros k Hk. apply included_ok. exists q, o. split; auto. split; auto. lia. }
    assert (length p <= q).
    { destruct (Nat.le_gt_cases (length p) q); auto. destruct Hp as [->|Hp]; [cbn in *; lia|]. rewrite Mono in Hp by lia. discriminate. }
    assert (q < length p + length ch).
    { destruct (Nat.lt_ge_cases q (length p + length ch)); auto. destruct Hs as [->|Hs].
      - apply nth_lt in Eq. rewrite Ha, !app_length in Eq. cbn in Eq. lia.
      - rewrite Mono in Hs by lia. discriminate. }
    exists (q - length p), (mark o). rewrite hunk_body. split.
    - rewrite Ha in Eq. rewrite nth_error_app2, nth_error_app1 in Eq by lia. apply map_nth_error. auto.
    - split. destruct o; cbn in *; auto; discriminate. lia. }
  destruct (K 0) as (n & m & H1 & H2 & _). { destruct ch; [congruence|cbn; lia]. }
  exists n, m. split; auto. split; auto. intros n' Hn'. rewrite hunk_body, map_length in Hn'. destruct (K n' Hn') as (a & b & D). exists a, b. tauto.
Qed.

Lemma chunks_ok (all : list (op A)) e f c : script 0 0 all e f -> e <> [] -> f <> [] -> (1 <= c)%Z ->
  patches 0 0 (map hunk_of (find_chunks (filter_operations all c) [])) e f /\
  Forall (context (Z.to_nat c)) (map hunk_of (find_chunks (filter_operations all c) [])).
Proof.
  intros H He Hf Hc. unfold filter_operations.
  assert (E : find_chunks (match change_indices all 0 with [] => [] | ci => filter_loop (included ci c) all 0 false false end) [] =
    go (included (change_indices all 0) c) all 0 []).
  { assert (X : find_chunks (filter_loop (included (change_indices all 0) c) all 0 false false) [] = go (included (change_indices all 0) c) all 0 []).
    { destruct (chunks_go (included (change_indices all 0) c) all 0 []) as (_ & _ & X). auto. }
    destruct (change_indices all 0) eqn:N; auto. rewrite <- X. clear.
    assert (forall i a, find_chunks (filter_loop (included [] c) all i false a) [] = []); auto.
    induction all; intros i b; cbn; auto. }
  rewrite E. split.
  - pose proof (go_ok all e f (included (change_indices all 0) c) H He Hf) as G.
    specialize (G ltac:(intros; apply included_ok; exists n, o; repeat split; auto; lia)).
    specialize (G ltac:(intros; apply included_ok; exists n, o; repeat split; auto; lia)).
    specialize (G ltac:(intros; apply included_ok; exists (S n), o; repeat split; auto; lia)).
    specialize (G all [] [] 0 0 e f [] []). cbn in G. apply G; auto. constructor.
  - pose proof (go_runs (included (change_indices all 0) c) all [] []) as R. cbn in R.
    rewrite Forall_map. eapply Forall_impl; [|apply R; auto; intros; lia]. intros ch Hr. apply (run_context all); auto. lia.
Qed.

(** All operations keep their line only if the texts are equal. *)
Context (eqb : A -> A -> bool) (eqb_ok : forall x y, eqb x y = true <-> x = y).
Definition kept (ops : list (op A)) : Prop := Forall (fun o => changed o = false) ops.
Lemma kept_app a b : kept (a ++ b) <-> kept a /\ kept b.
Proof. apply Forall_app. Qed.
Lemma kept_deletes e i : kept (deletes e i) -> e = [].
Proof. destruct e; auto. intros H. inversion H. discriminate. Qed.
Lemma kept_inserts e i : kept (inserts e i) -> e = [].
Proof. destruct e; auto. intros H. inversion H. discriminate. Qed.
Lemma kept_replace e f i j : kept (deletes e i ++ inserts f j) -> e = f.
Proof. intros H. apply kept_app in H as [H1 H2]. apply kept_deletes in H1. apply kept_inserts in H2. congruence. Qed.
Lemma seg0_hd e a : 0 < a -> hd_error (seg e 0 a) = hd_error e.
Proof. unfold seg. destruct a; [lia|]. destruct e; auto. Qed.

Lemma kept_eq n : forall e f i j ops, myers eqb n e f i j = Ok ops -> kept ops -> e = f.
Proof.
  induction n as [|n IH]; intros e f i j ops; cbn [myers]; [discriminate|].
  destruct (Nat.eqb_spec (length e) 0) as [E0|E0]. { destruct e; [|discriminate]. intros H K. inversion H; subst. apply kept_inserts in K. auto. }
  destruct (Nat.eqb_spec (length f) 0) as [F0|F0]. { destruct f; [|discriminate]. intros H K. inversion H; subst. apply kept_deletes in K. auto. }
  destruct (common_ok eqb eqb_ok e f) as (Hp & Pe & Pf). set (p := common eqb e f) in *.
  destruct (suffix_ok eqb eqb_ok (skipn p e) (skipn p f)) as (Hq & Qe & Qf). set (s := common eqb (rev (skipn p e)) (rev (skipn p f))) in *.
  rewrite !skipn_length in *. rewrite !skipn_skipn_ in Hq.
  replace (length e - p - s + p) with (length e - s) in Hq by lia. replace (length f - p - s + p) with (length f - s) in Hq by lia.
  destruct ((0 <? p) || (0 <? s)) eqn:G.
  { destruct (myers eqb n _ _ _ _) as [m| | |] eqn:M; cbn [bindr]; try discriminate. intros H K. inversion H; subst.
    apply kept_app in K as [_ K]. apply kept_app in K as [K _]. specialize (IH _ _ _ _ _ M K).
    rewrite <- (firstn_skipn p e), <- (firstn_skipn p f), Hp. f_equal.
    rewrite (seg_skip e p (length e - s)), (seg_skip f p (length f - s)) by lia. congruence. }
  apply Bool.orb_false_iff in G as [G1 G2]. apply Nat.ltb_ge in G1, G2. assert (Ep : p = 0) by lia.
  assert (Hd : hd_error e <> hd_error f). { apply (common_0 eqb eqb_ok); auto; intros C; subst; auto. }
  destruct ((length e =? 1) && (1 <? length f)) eqn:Q1. { intros H K. inversion H; subst. eapply kept_replace; eauto. }
  destruct ((length f =? 1) && (1 <? length e)) eqn:Q2. { intros H K. inversion H; subst. eapply kept_replace; eauto. }
  destruct ((length e =? 1) && (length f =? 1)) eqn:E1.
  { apply andb_prop in E1 as [X Y]. apply Nat.eqb_eq in X, Y. destruct e as [|x [|]]; try discriminate. destruct f as [|y [|]]; try discriminate.
    destruct (eqb x y) eqn:Exy. apply eqb_ok in Exy. subst. auto. intros H K. inversion H; subst. inversion K. discriminate. }
  assert (Hm : 0 < length e / 2). { apply Nat.div_str_pos. lia. }
  assert (Hh : forall a b, 0 < a \/ 0 < b -> seg e 0 a = seg f 0 b -> False).
  { intros a b Hab Hs. apply Hd. destruct a as [|a], b as [|b]; try lia.
    - unfold seg in Hs. cbn in Hs. destruct f; [cbn in F0; congruence|discriminate].
    - unfold seg in Hs. cbn in Hs. destruct e; [cbn in E0; congruence|discriminate].
    - apply (f_equal (@hd_error A)) in Hs. rewrite !seg0_hd in Hs by lia. auto. }
  destruct (best_match eqb (skipn (length e / 2) e) f 0 ((-1)%Z, (-1)%Z)) as [pos len]. destruct (Z.ltb_spec 0 len).
  - destruct (myers eqb n (seg e 0 _) _ _ _) as [b| | |] eqn:M; cbn [bindr]; try discriminate.
    destruct (myers eqb n (skipn _ e) _ _ _) as [a| | |]; cbn [bindr]; try discriminate. intros X K. inversion X; subst.
    apply kept_app in K as [K _]. specialize (IH _ _ _ _ _ M K). exfalso. exact (Hh _ _ (or_introl Hm) IH).
  - assert (Al : forall a b, In (a, b) (sorted (anchors eqb (positions eqb e 0 []) (positions eqb f 0 []))) -> exists x, once_at e x a /\ once_at f x b).
    { intros a b I. apply (proj1 (sorted_in _ _)) in I.
      destruct (anchors_in eqb eqb_ok e f _ _ a b (knows_all eqb eqb_ok e) (knows_all eqb eqb_ok f) I) as (x & _ & O). eauto. }
    destruct (sorted _) as [|[a b] l]. { intros X K. inversion X; subst. eapply kept_replace; eauto. }
    cbn [anchored]. destruct (Al a b) as (x & [Ea _] & [Eb _]). left; auto. rewrite !Nat.add_0_r. intros X K. exfalso.
    destruct ((0 <? a) || (0 <? b)) eqn:Z.
    + destruct (myers eqb n (seg e 0 a) (seg f 0 b) i j) as [s'| | |] eqn:M; cbn [bindr] in X; try discriminate.
      destruct (orUB (nth_error e a)) as [y| | |]; cbn [bindr] in X; try discriminate.
      destruct (anchored _ _ _ _ _ _ _ _) as [r| | |]; cbn [bindr] in X; try discriminate. inversion X; subst.
      apply kept_app in K as [K _]. apply (Hh a b). lia. eapply IH; eauto.
    + assert (a = 0) by lia. assert (b = 0) by lia. subst. apply Hd. destruct e, f; cbn in *; congruence.
Qed.
Lemma keeps_kept l : forall i j, kept (keeps l i j).
Proof. induction l; constructor; auto. apply IHl. Qed.
Lemma eq_kept e n i j : 1 < n -> exists ops, myers eqb n e e i j = Ok ops /\ kept ops.
Proof.
  intros Hn. destruct n as [|n]; [lia|]. cbn [myers]. destruct (Nat.eqb_spec (length e) 0). { destruct e; [|discriminate]. exists []. split; auto. constructor. }
  assert (C : common eqb e e = length e). { clear - eqb_ok. induction e; cbn; auto. rewrite (eqb_refl_ eqb eqb_ok). lia. }
  rewrite C. rewrite skipn_all. cbn [rev common]. destruct (Nat.ltb_spec 0 (length e)); [|lia]. cbn [orb].
  rewrite Nat.sub_0_r. unfold seg. rewrite Nat.sub_diag. cbn [firstn]. rewrite skipn_all.
  destruct n as [|n]; [lia|]. cbn [myers length Nat.eqb inserts bindr]. eexists. split; [reflexivity|].
  rewrite kept_app. split. apply keeps_kept. constructor.
Qed.
End P.

(** Numbers. *)
Local Open Scope Z_scope.
Lemma value_app a b : value (a ++ b) = fold_left (fun a c => 10 * a + (c - 48)) b (value a).
Proof. unfold value. apply fold_left_app. Qed.
Lemma num_loop_ok fuel : forall n, (n < fuel)%nat -> reads (num_loop fuel n) n.
Proof.
  induction fuel as [|fuel IH]; intros n Hn; [lia|]. cbn [num_loop].
  pose proof (Nat.mod_upper_bound n 10 ltac:(lia)) as B. pose proof (Nat.div_mod_eq n 10) as D.
  assert (F : Forall digit [48 + Z.of_nat (n mod 10)]). { constructor; auto. unfold digit. lia. }
  destruct (Nat.ltb_spec n 10) as [L|L].
  - split. discriminate. split. auto. unfold value. cbn [fold_left app]. rewrite Nat.mod_small by auto. lia.
  - destruct (IH (n / 10)%nat) as (N & Fd & V). { pose proof (Nat.div_lt n 10). lia. }
    split. { intros C. apply app_eq_nil in C as [_ C]. discriminate. } split. { apply Forall_app. auto. }
    rewrite value_app, V. cbn [fold_left]. lia.
Qed.
Lemma num_ok n : reads (num n) n.
Proof. apply num_loop_ok. lia. Qed.

Lemma printed_ok (chs : list (list (op chars))) :
  printed (map hunk_of chs) (flat_map (fun ch => (header_text (header ch) ++ [10]) ++ flat_map op_text ch) chs).
Proof.
  induction chs as [|ch chs IH]; cbn [map flat_map]; constructor; auto. unfold hunk_of.
  destruct (header ch) as [[[a b] c] d] eqn:Eh. exists (num a), (num b), (num c), (num d).
  cbn [old_start old_count new_start new_count body header_text]. split. apply num_ok. split. apply num_ok. split. apply num_ok. split. apply num_ok.
  assert (X : flat_map op_text ch = flat_map mark_text (map mark ch)).
  { clear. induction ch as [|o ch IHc]; cbn [map flat_map]; auto. rewrite IHc. destruct o; auto. }
  rewrite X, ?Eh. cbn [header_text]. rewrite <- !app_assoc. reflexivity.
Qed.

Lemma space_ok c : space c = true <-> blank c.
Proof. unfold space, blank. lia. Qed.
Lemma drop_ok r : exists b, r = b ++ drop_space r /\ Forall blank b.
Proof.
  induction r as [|c r (b & E & F)]; cbn [drop_space]. exists []. auto. destruct (space c) eqn:S.
  - exists (c :: b). split. cbn. congruence. constructor; auto. apply space_ok. auto.
  - exists []. auto.
Qed.
Lemma rstrip_ok t : exists b, t = rstrip t ++ b /\ Forall blank b.
Proof.
  destruct (drop_ok (rev t)) as (b & E & F). exists (rev b). unfold rstrip. split.
  - rewrite <- rev_app_distr, <- E, rev_involutive. auto.
  - apply Forall_rev. auto.
Qed.

(** Lines. *)
Lemma breaks_ok c : islinebreak c = true <-> breaks c.
Proof. unfold islinebreak, breaks. lia. Qed.
Lemma splitlines_ok n : forall t cur, (length t <= n)%nat -> plain cur -> lines (cur ++ t) (splitlines t cur).
Proof.
  induction n as [|n IH]; intros t cur Hn Hc.
  - destruct t; [|cbn in Hn; lia]. rewrite app_nil_r. cbn [splitlines]. destruct cur; constructor; auto. discriminate.
  - destruct t as [|c t']. { rewrite app_nil_r. cbn [splitlines]. destruct cur; constructor; auto. discriminate. }
    cbn [length] in Hn. cbn [splitlines]. destruct (islinebreak c) eqn:B; cbn [negb].
    + apply breaks_ok in B. destruct t' as [|d t''].
      * apply (lines_break cur c [] []); auto. cbn. intuition discriminate. constructor.
      * destruct ((c =? 13) && (d =? 10)) eqn:W.
        -- assert (c = 13) by lia. assert (d = 10) by lia. subst. apply (lines_crlf cur t''); auto. apply (IH t'' []). cbn in Hn. lia. constructor.
        -- apply (lines_break cur c (d :: t'')); auto. cbn. intros [-> E]. inversion E; subst. discriminate. apply (IH (d :: t'') []). cbn in *. lia. constructor.
    + replace (cur ++ c :: t') with ((cur ++ [c]) ++ t') by (rewrite <- app_assoc; auto). apply IH. lia. apply Forall_app. split; auto.
      constructor; auto. intros C. apply breaks_ok in C. congruence.
Qed.
Lemma lines_some t ls : lines t ls -> t <> [] -> ls <> [].
Proof. intros H. inversion H; subst; congruence. Qed.
Lemma full_ok t : full_lines t (add_newline t (splitlines t [])).
Proof.
  pose proof (splitlines_ok (length t) t [] (Nat.le_refl _) (Forall_nil _)) as L. cbn [app] in L.
  destruct t as [|c t] using rev_ind.
  - left. cbn. split; auto.
  - clear IHt. assert (Ne : splitlines (t ++ [c]) [] <> []). { eapply lines_some; eauto. destruct t; discriminate. }
    unfold add_newline. rewrite last_last. set (ls := splitlines (t ++ [c]) []) in *.
    destruct (exists_last Ne) as (init & l & El). rewrite El, rev_app_distr in *. cbn [rev app]. rewrite rev_involutive.
    destruct (Z.eqb_spec c 10); cbn [negb].
    + subst c. left. split. right. eauto. auto.
    + right. exists t, c, init, l. auto.
Qed.
Lemma split_plain l : forall t cur, plain l -> splitlines (l ++ t) cur = splitlines t (cur ++ l).
Proof.
  induction l as [|c l IH]; intros t cur H; cbn [app]. rewrite app_nil_r. auto. inversion H; subst. cbn [splitlines].
  destruct (islinebreak c) eqn:B. apply breaks_ok in B. tauto. cbn [negb]. rewrite IH by auto. rewrite <- app_assoc. auto.
Qed.
Lemma lines_det t ls : lines t ls -> splitlines t [] = ls.
Proof.
  induction 1.
  - auto.
  - rewrite <- (app_nil_r l) at 1. rewrite split_plain by auto. cbn. destruct l; congruence.
  - rewrite split_plain by auto. cbn [app splitlines]. change (islinebreak 13) with true. cbn [negb Z.eqb Pos.eqb andb]. congruence.
  - rewrite split_plain by auto. cbn [app splitlines]. apply breaks_ok in H0. rewrite H0. cbn [negb].
    destruct t as [|d t]. { cbn in IHlines. subst. auto. } destruct ((c =? 13) && (d =? 10)) eqn:W; [|congruence].
    exfalso. apply H1. cbn. assert (d = 10) by lia. subst. split; auto. lia.
Qed.
Lemma full_det t ls : full_lines t ls -> add_newline t (splitlines t []) = ls.
Proof.
  intros [[[->|(t' & ->)] L]|(t' & c & init & l & -> & N & L & ->)]; apply lines_det in L; rewrite L; unfold add_newline.
  - cbn in L. subst. auto.
  - rewrite last_last. destruct (rev ls); auto.
  - rewrite rev_app_distr, last_last. cbn [rev app]. destruct (Z.eqb_spec c 10); [congruence|]. cbn [negb]. rewrite rev_involutive. auto.
Qed.
Lemma text_eqb_ok x y : text_eqb x y = true <-> x = y.
Proof. unfold text_eqb. destruct (list_eq_dec Z.eq_dec x y); split; congruence. Qed.

Lemma empty_ok (ops : list (op chars)) c : 0 <= c ->
  (match filter_operations ops c with
   | [] => Ok []
   | _ => Ok (rstrip (flat_map (fun ch => (header_text (header ch) ++ [10]) ++ flat_map op_text ch) (find_chunks (filter_operations ops c) [])))
   end = Ok [] <-> changes ops = 0%nat).
Proof.
  intros Hc.
  assert (N : change_indices ops 0 = [] <-> changes ops = 0%nat).
  { generalize 0%nat at 1. unfold changes. clear. induction ops as [|o ops IH]; intros n; cbn [change_indices filter]. split; auto.
    destruct o; cbn [changed]; auto; cbn [length]; split; discriminate. }
  rewrite <- N. split.
  - intros H. destruct (change_indices ops 0) as [|i ci] eqn:Ci; auto. exfalso.
    destruct (filter_operations ops c) as [|g gs] eqn:Fg.
    + unfold filter_operations in Fg. rewrite Ci in Fg. rewrite <- Ci in Fg.
      assert (I : In i (change_indices ops 0)) by (rewrite Ci; left; auto). apply change_in in I as (_ & o & Eo & Co). rewrite Nat.sub_0_r in Eo.
      assert (Inc : included (change_indices ops 0) c i = true). { apply included_ok. exists i, o. repeat split; auto. lia. }
      revert Fg Inc. generalize (included (change_indices ops 0) c). intros inc Fg Inc.
      assert (forall l n b a k, nth_error l k = Some o -> inc (n + k)%nat = true -> filter_loop inc l n b a <> []).
      { clear. induction l as [|p l IH]; intros n b a [|k] E I; try discriminate; cbn [filter_loop].
        - rewrite Nat.add_0_r in I. rewrite I. destruct (_ && _); discriminate.
        - destruct (inc n). destruct (_ && _); discriminate. apply (IH _ _ _ k); auto. rewrite Nat.add_succ_comm. auto. }
      eapply (H0 ops 0%nat); eauto.
    + remember (find_chunks (g :: gs) []) as X eqn:EX. inversion H as [H']. clear H.
      assert (G : X <> []).
      { assert (Hd : exists o, g = Some o).
        { unfold filter_operations in Fg. rewrite Ci in Fg. clear - Fg. revert Fg. generalize (included (i :: ci) c). intros inc.
          generalize 0%nat. induction ops as [|o ops IH]; intros n; cbn [filter_loop]; [discriminate|]. destruct (inc n).
          - rewrite Bool.andb_false_r. cbn. intros E. inversion E. eauto.
          - apply IH. }
        destruct Hd as (o & ->). rewrite EX. cbn [find_chunks app]. clear. assert (T : forall l cur, cur <> [] -> find_chunks (A := chars) l cur <> []).
        { induction l as [|[p|] l IH]; intros cur Hcur; cbn [find_chunks].
          - destruct cur; congruence.
          - apply IH. destruct cur; discriminate.
          - destruct cur; [congruence|discriminate]. }
        apply T. discriminate. }
      destruct X as [|ch chs]; [congruence|]. cbn [flat_map] in H'.
      destruct (header ch) as [[[a b] c'] d]. cbn [header_text] in H'. cbn [app] in H'.
      match type of H' with rstrip ?t = [] => destruct (rstrip_ok t) as (bl & Eb & Fb) end.
      rewrite H' in Eb. cbn [app] in Eb. subst bl. apply Forall_inv in Fb. unfold blank in Fb. lia.
  - intros H. unfold filter_operations. rewrite H. auto.
Qed.

(** Lemmas about the diff. *)
From Verif Require Import Base S_Diff M_Diff.
From Coq Require Import Arith Lia Sorting.Sorted Permutation.
Open Scope nat_scope.

Section P.
Context {A : Type} (eqb : A -> A -> bool).
Hypothesis eqb_ok : forall x y, eqb x y = true <-> x = y.
Implicit Types e f l : list A.

Lemma script_app i j ops e f : script i j ops e f -> forall ops' e' f',
  script (i + length e) (j + length f) ops' e' f' -> script i j (ops ++ ops') (e ++ e') (f ++ f').
Proof.
  induction 1; cbn [length app]; intros ops' e' f' H'.
  - rewrite !Nat.add_0_r in H'. auto.
  - constructor. apply IHscript. rewrite !Nat.add_succ_comm. auto.
  - constructor. apply IHscript. rewrite !Nat.add_succ_comm. auto.
  - constructor. apply IHscript. rewrite !Nat.add_succ_comm. auto.
Qed.
Lemma consumes_app i ops e : consumes i ops e -> forall ops' e',
  consumes (i + length e) ops' e' -> consumes i (ops ++ ops') (e ++ e').
Proof.
  induction 1; cbn [length app]; intros ops' e' H'.
  - rewrite Nat.add_0_r in H'. auto.
  - constructor. apply IHconsumes. rewrite Nat.add_succ_comm. auto.
  - constructor. apply IHconsumes. rewrite Nat.add_succ_comm. auto.
  - constructor. apply IHconsumes. auto.
Qed.
Lemma consumes_eq i ops e e' : e = e' -> consumes i ops e' -> consumes i ops e.
Proof. congruence. Qed.
Lemma script_eq i j ops e e' f f' : e = e' -> f = f' -> script i j ops e' f' -> script i j ops e f.
Proof. congruence. Qed.
Lemma script_consumes i j ops e f : script i j ops e f -> consumes i ops e.
Proof. induction 1; constructor; auto. Qed.

Lemma keeps_ok l : forall i j, script i j (keeps l i j) l l.
Proof. induction l; constructor; auto. Qed.
Lemma inserts_ok l : forall i j, script i j (inserts l j) [] l.
Proof. induction l; constructor; auto. Qed.
Lemma deletes_ok l : forall i j, script i j (deletes l i) l [].
Proof. induction l; constructor; auto. Qed.
Lemma replace_ok e f i j : script i j (deletes e i ++ inserts f j) e f.
Proof.
  rewrite <- (app_nil_r e), <- (app_nil_l f) at 2. rewrite <- (app_nil_r e) at 1. rewrite app_nil_r at 1.
  apply (script_app i j (deletes e i) e [] (deletes_ok e i j)). cbn. rewrite Nat.add_0_r. apply inserts_ok.
Qed.

(** Labels. *)
Definition sits (f F : list A) (j : nat) : Prop := forall n x, nth_error f n = Some x -> nth_error F (j + n) = Some x.
Lemma script_labels F i j ops e f : script i j ops e f -> sits f F j -> Forall (labelled F) ops.
Proof.
  intros H. assert (T : forall x f j, sits (x :: f) F j -> nth_error F j = Some x /\ sits f F (S j)).
  { clear. intros x f j H. split. rewrite <- (Nat.add_0_r j). apply H. auto. intros n y Hn. rewrite Nat.add_succ_comm. apply H. auto. }
  induction H; intros S; constructor; cbn; auto; try apply IHscript; auto; apply T in S; tauto.
Qed.

(** Segments. *)
Lemma skipn_skipn_ l : forall a b, skipn b (skipn a l) = skipn (b + a) l.
Proof.
  induction l; intros [|a'] b. rewrite Nat.add_0_r. auto. rewrite !skipn_nil. auto.
  rewrite Nat.add_0_r. auto. rewrite Nat.add_succ_r. cbn [skipn]. auto.
Qed.
Lemma seg_len l a b : length (seg l a b) = min (b - a) (length l - a).
Proof. unfold seg. rewrite firstn_length, skipn_length. auto. Qed.
Lemma nth_firstn_some l : forall n m x, nth_error (firstn m l) n = Some x -> nth_error l n = Some x.
Proof. induction l; intros [|n] [|m] x; cbn; auto; try discriminate. apply IHl. Qed.
Lemma nth_skipn_ l : forall a n, nth_error (skipn a l) n = nth_error l (a + n).
Proof. induction l; intros [|b] n; cbn; auto. destruct n; auto. Qed.
Lemma sits_seg f F j a b : sits f F j -> sits (seg f a b) F (j + a).
Proof. intros H n x E. apply nth_firstn_some in E. rewrite nth_skipn_ in E. rewrite <- Nat.add_assoc. auto. Qed.
Lemma sits_skipn f F j a : sits f F j -> sits (skipn a f) F (j + a).
Proof. intros H n x E. rewrite nth_skipn_ in E. rewrite <- Nat.add_assoc. auto. Qed.
Lemma segment_refl l : segment l l.
Proof. exists [], []. rewrite app_nil_r. auto. Qed.
Lemma segment_trans (a b c : list A) : segment a b -> segment b c -> segment a c.
Proof. intros (u & v & ->) (u' & v' & ->). exists (u' ++ u), (v ++ v'). rewrite !app_assoc. auto. Qed.
Lemma segment_skipn n l : segment (skipn n l) l.
Proof. exists (firstn n l), []. rewrite app_nil_r, firstn_skipn. auto. Qed.
Lemma segment_firstn n l : segment (firstn n l) l.
Proof. exists [], (skipn n l). cbn. rewrite firstn_skipn. auto. Qed.
Lemma segment_seg a b l : segment (seg l a b) l.
Proof. eapply segment_trans. apply segment_firstn. apply segment_skipn. Qed.
Lemma straight_sub e f e' f' : straight e f -> segment e' e -> segment f' f -> straight e' f'.
Proof. intros H He Hf a b Ha Hb. apply H; eapply segment_trans; eauto. Qed.

Lemma seg_skip l a b : a <= b -> skipn a l = seg l a b ++ skipn b l.
Proof.
  intros H. unfold seg. replace (skipn b l) with (skipn (b - a) (skipn a l)). rewrite firstn_skipn. auto.
  rewrite skipn_skipn_. f_equal. lia.
Qed.
Lemma skip_nth l a x : nth_error l a = Some x -> skipn a l = x :: skipn (S a) l.
Proof. revert a. induction l; intros [|b]; cbn; intros E; inversion E; auto. apply IHl. auto. Qed.
Lemma nth_lt l a x : nth_error l a = Some x -> a < length l.
Proof. intros H. apply nth_error_Some. congruence. Qed.

(** Common prefixes. *)
Lemma common_ok e : forall f, let n := common eqb e f in
  firstn n e = firstn n f /\ n <= length e /\ n <= length f.
Proof.
  induction e as [|x e IH]; intros [|y f]; cbn; try (split; auto; lia).
  destruct (eqb x y) eqn:E; cbn; [|split; auto; lia]. apply eqb_ok in E. subst. destruct (IH f) as (H & B & C).
  rewrite H. split; auto. lia.
Qed.
Lemma common_0 e f : common eqb e f = 0 -> e <> [] -> f <> [] -> hd_error e <> hd_error f.
Proof.
  destruct e as [|x e], f as [|y f]; cbn; try congruence. destruct (eqb x y) eqn:E; [discriminate|]. intros _ _ _ C.
  inversion C; subst. assert (eqb y y = true) by (apply eqb_ok; auto). congruence.
Qed.
Lemma suffix_ok e f : let n := common eqb (rev e) (rev f) in
  skipn (length e - n) e = skipn (length f - n) f /\ n <= length e /\ n <= length f.
Proof.
  intros n. destruct (common_ok (rev e) (rev f)) as (H & B & C). fold n in H, B, C. rewrite rev_length in B, C. split; auto.
  rewrite !firstn_rev in H. apply (f_equal (@rev A)) in H. rewrite !rev_involutive in H. auto.
Qed.

(** The best match. *)
Lemma best_ok m f : forall pos b, let r := best_match eqb m f pos b in
  (snd b <= snd r)%Z /\ (forall n, n < length f -> (Z.of_nat (common eqb m (skipn n f)) <= snd r)%Z) /\
  (r = b \/ exists n, n < length f /\ r = (Z.of_nat (pos + n), Z.of_nat (common eqb m (skipn n f)))).
Proof.
  induction f as [|y f IH]; intros pos b; cbn [best_match length].
  - split. lia. split. intros; lia. auto.
  - set (k := Z.of_nat (common eqb m (y :: f))). destruct (IH (S pos) (if Z.ltb (snd b) k then (Z.of_nat pos, k) else b)) as (A1 & A2 & A3).
    set (r := best_match _ _ _ _ _) in *. assert (D : (snd b <= snd r)%Z /\ (k <= snd r)%Z).
    { destruct (Z.ltb_spec (snd b) k); cbn [snd] in *; lia. }
    split. apply D. split.
    + intros [|n] Hn; cbn [skipn]. apply D. apply A2. lia.
    + destruct A3 as [->|(n & Hn & E)].
      * destruct (Z.ltb_spec (snd b) k); auto. right. exists 0. rewrite Nat.add_0_r. split. lia. auto.
      * right. exists (S n). split. lia. rewrite <- Nat.add_succ_comm. auto.
Qed.

(** The positions of lines. *)
Definition knows (pre : list A) (d : list (A * list nat)) : Prop :=
  NoDup (map fst d) /\
  forall x, match look eqb d x with
            | Some ls => forall n, In n ls <-> nth_error pre n = Some x
            | None => ~ In x pre
            end.
Lemma eqb_refl_ x : eqb x x = true.
Proof. apply eqb_ok. auto. Qed.
Lemma eqb_no x y : eqb x y = false -> x <> y.
Proof. intros H E. subst. rewrite eqb_refl_ in H. discriminate. Qed.
Lemma look_note d x n y : look eqb (note_line eqb d x n) y =
  if eqb x y then Some (match look eqb d x with Some ls => ls ++ [n] | None => [n] end) else look eqb d y.
Proof.
  induction d as [|[z ls] d IH]; cbn [note_line look].
  - auto.
  - destruct (eqb z x) eqn:E; cbn [look].
    + apply eqb_ok in E. subst z. destruct (eqb x y) eqn:E2; auto.
    + rewrite IH. destruct (eqb z y) eqn:E2; auto. apply eqb_ok in E2. subst z.
      destruct (eqb x y) eqn:E3; auto. apply eqb_ok in E3. subst. rewrite eqb_refl_ in E. discriminate.
Qed.
Lemma note_keys d x n : map fst (note_line eqb d x n) = map fst d \/
  (map fst (note_line eqb d x n) = map fst d ++ [x] /\ look eqb d x = None).
Proof.
  induction d as [|[z ls] d IH]; cbn [note_line map fst look]. right. auto.
  destruct (eqb z x) eqn:E; cbn [map fst]. left; auto. destruct IH as [->|[-> L]]. left; auto. right. auto.
Qed.
Lemma look_none d x : look eqb d x = None -> ~ In x (map fst d).
Proof.
  induction d as [|[z ls] d IH]; cbn [look map fst In]; auto. destruct (eqb z x) eqn:E; [discriminate|]. intros H [C|C].
  subst. rewrite eqb_refl_ in E. discriminate. apply IH; auto.
Qed.
Lemma nodup_snoc {B} (l : list B) x : NoDup l -> ~ In x l -> NoDup (l ++ [x]).
Proof.
  induction l; cbn; intros H N. constructor; auto. inversion H; subst. constructor. rewrite in_app_iff. cbn.
  intros [C|[C|[]]]; auto. apply IHl; auto.
Qed.
Lemma nth_snoc pre (x : A) n y : nth_error (pre ++ [x]) n = Some y <-> nth_error pre n = Some y \/ (n = length pre /\ x = y).
Proof.
  destruct (Nat.lt_trichotomy n (length pre)) as [H|[H|H]].
  - rewrite nth_error_app1 by auto. intuition lia.
  - subst. rewrite nth_error_app2, Nat.sub_diag by lia. cbn. split.
    + intros E. inversion E. auto.
    + intros [E|[_ E]]. apply nth_lt in E. lia. congruence.
  - rewrite nth_error_app2 by lia. destruct (n - length pre) eqn:E; [lia|]. cbn. split. destruct n0; discriminate.
    intros [C|[C _]]. apply nth_lt in C. lia. lia.
Qed.
Lemma knows_step pre d x : knows pre d -> knows (pre ++ [x]) (note_line eqb d x (length pre)).
Proof.
  intros [N K]. split.
  - destruct (note_keys d x (length pre)) as [->|[-> L]]; auto. apply nodup_snoc; auto. apply look_none. auto.
  - intros y. rewrite look_note. destruct (eqb x y) eqn:E.
    + apply eqb_ok in E. subst y. specialize (K x). intros n. rewrite nth_snoc. destruct (look eqb d x).
      * rewrite in_app_iff, K. cbn. intuition.
      * cbn. split. intuition. intros [C|[C _]]; auto. apply nth_error_In in C. tauto.
    + apply eqb_no in E. specialize (K y). destruct (look eqb d y).
      * intros n. rewrite K, nth_snoc. intuition congruence.
      * rewrite in_app_iff. cbn. intuition.
Qed.
Lemma positions_ok l : forall pre d, knows pre d -> knows (pre ++ l) (positions eqb l (length pre) d).
Proof.
  induction l as [|x l IH]; intros pre d H; cbn [positions].
  - rewrite app_nil_r. auto.
  - specialize (IH (pre ++ [x]) _ (knows_step pre d x H)). rewrite app_length in IH. cbn [length] in IH.
    rewrite Nat.add_comm in IH. cbn in IH. rewrite <- app_assoc in IH. auto.
Qed.
Lemma knows_all l : knows l (positions eqb l 0 []).
Proof. apply (positions_ok l [] []). split. constructor. intros x. cbn. auto. Qed.
Lemma look_in d x ls : NoDup (map fst d) -> In (x, ls) d -> look eqb d x = Some ls.
Proof.
  induction d as [|[z l] d IH]; cbn [look In map fst]; intros H; [tauto|]. inversion H; subst.
  intros [E|E]. inversion E; subst. rewrite eqb_refl_. auto. destruct (eqb z x) eqn:E2; auto. apply eqb_ok in E2. subst.
  exfalso. apply H2. change x with (fst (x, ls)). apply in_map. auto.
Qed.
Lemma single pre d x a : knows pre d -> look eqb d x = Some [a] -> once_at pre x a.
Proof.
  intros [_ K] E. specialize (K x). rewrite E in K. split. apply K. cbn; auto. intros m Hm. apply K in Hm. destruct Hm as [H|[]]; auto.
Qed.

Lemma anchors_in e f d df a b : knows e d -> knows f df -> In (a, b) (anchors eqb d df) ->
  exists x, In x (map fst d) /\ once_at e x a /\ once_at f x b.
Proof.
  intros Ke Kf. assert (forall d', (forall p, In p d' -> In p d) -> In (a, b) (anchors eqb d' df) ->
     exists x, In x (map fst d') /\ once_at e x a /\ once_at f x b) as H; [|intros I; apply (H d); auto].
  induction d' as [|[x ls] d' IH]; intros Hs; cbn [anchors]; [intros []|].
  assert (IH' : In (a, b) (anchors eqb d' df) -> exists y, In y (map fst ((x, ls) :: d')) /\ once_at e y a /\ once_at f y b).
  { intros I. destruct IH as (y & Hy & R); auto. intros p Hp. apply Hs. right; auto. exists y. cbn. auto. }
  destruct ls as [|a' [|]]; auto. destruct (look eqb df x) as [[|b' [|]]|] eqn:L; auto. cbn [In]. intros [I|I]; auto.
  inversion I; subst. exists x. split. cbn; auto. split. eapply single; eauto. apply look_in. apply Ke. apply Hs. left; auto.
  eapply single; eauto.
Qed.
Lemma anchors_nodup e d df : knows e d -> NoDup (map fst (anchors eqb d df)).
Proof.
  intros Ke. assert (forall d', NoDup (map fst d') -> (forall p, In p d' -> In p d) -> NoDup (map fst (anchors eqb d' df)) /\
    forall a b, In (a, b) (anchors eqb d' df) -> exists x, In x (map fst d') /\ once_at e x a) as H.
  { induction d' as [|[x ls] d' IH]; intros N Hs; cbn [anchors].
    - split. constructor. intros a b [].
    - inversion N as [|? ? N1 N2]; subst. destruct IH as [I1 I2]; auto. { intros p Hp. apply Hs. right; auto. }
      assert (G : NoDup (map fst (anchors eqb d' df)) /\ (forall a b, In (a, b) (anchors eqb d' df) -> exists y, In y (map fst ((x, ls) :: d')) /\ once_at e y a)).
      { split; auto. intros a b Hab. destruct (I2 a b Hab) as (y & Hy & O). exists y. cbn. auto. }
      destruct ls as [|a' [|]]; auto. destruct (look eqb df x) as [[|b' [|]]|] eqn:L; auto.
      assert (O : once_at e x a'). { eapply single; eauto. apply look_in. apply Ke. apply Hs. left; auto. }
      cbn [map fst]. split.
      + constructor; auto. intros C. apply in_map_iff in C as ([a b] & E & I). cbn in E. subst a.
        destruct (I2 a' b I) as (y & Hy & O'). assert (x = y). { destruct O as [O _], O' as [O' _]. congruence. } subst. auto.
      + intros a b [I|I]. inversion I; subst. exists x. cbn. auto. destruct (I2 a b I) as (y & Hy & O'). exists y. cbn. auto. }
  apply (H d); auto. apply Ke.
Qed.

Definition fst_lt (p q : nat * nat) : Prop := fst p < fst q.
Lemma put_in p q (l : list (nat * nat)) : In q (put p l) <-> q = p \/ In q l.
Proof. induction l as [|r l IH]; cbn [put In]. intuition. destruct (pair_le p r); cbn [In]. intuition. rewrite IH. intuition. Qed.
Lemma put_sorted p (l : list (nat * nat)) : StronglySorted fst_lt l -> ~ In (fst p) (map fst l) -> StronglySorted fst_lt (put p l).
Proof.
  induction l as [|r l IH]; cbn [put]; intros S N. repeat constructor. inversion S as [|? ? S' F]; subst. cbn in N.
  destruct (pair_le p r) eqn:E.
  - assert (fst p < fst r). { unfold pair_le in E. apply Bool.orb_true_iff in E as [E|E]. apply Nat.ltb_lt in E. auto.
      apply andb_prop in E as [E _]. apply Nat.eqb_eq in E. intuition. }
    constructor; auto. constructor; auto. eapply Forall_impl; [|exact F]. unfold fst_lt. intros; lia.
  - assert (fst r < fst p). { unfold pair_le in E. apply Bool.orb_false_iff in E as [E _]. apply Nat.ltb_ge in E. lia. }
    constructor; auto. rewrite Forall_forall in *. intros q Hq. apply put_in in Hq as [->|Hq]; auto.
Qed.
Lemma sorted_in (l : list (nat * nat)) p : In p (sorted l) <-> In p l.
Proof. induction l; cbn; [tauto|]. rewrite put_in, IHl. intuition. Qed.
Lemma sorted_ok (l : list (nat * nat)) : NoDup (map fst l) -> StronglySorted fst_lt (sorted l).
Proof.
  induction l as [|p l IH]; cbn; intros H. constructor. inversion H; subst. apply put_sorted; auto.
  intros C. apply H2. apply in_map_iff in C as (q & E & I). apply (proj1 (sorted_in l q)) in I. rewrite <- E. apply in_map. auto.
Qed.

(** The result for texts with at most [n] lines together. *)
Definition good (r : res (list (op A))) (e f : list A) (i j : nat) : Prop :=
  exists ops, r = Ok ops /\ consumes i ops e /\ (forall F, sits f F j -> Forall (labelled F) ops) /\
    (straight e f -> script i j ops e f).
Lemma good_script ops e f i j : script i j ops e f -> good (Ok ops) e f i j.
Proof.
  intros H. exists ops. split; auto. split. eapply script_consumes; eauto. split; auto. intros F. eapply script_labels; eauto.
Qed.

Lemma anchored_ok n rec e f i j : (forall e' f' i' j', length e' + length f' < n -> good (rec e' f' i' j') e' f' i' j') ->
  length e + length f = n -> 0 < length e -> (straight e f -> same_order e f) ->
  forall (l : list (nat * nat)) le lf, StronglySorted fst_lt l ->
    Forall (fun p => exists x, once_at e x (fst p) /\ once_at f x (snd p)) l ->
    Forall (fun p => le <= fst p) l -> (straight e f -> Forall (fun p => lf <= snd p) l) -> (l = [] -> 0 < le) ->
    exists ops, anchored rec e f i j l le lf = Ok ops /\ consumes (i + le) ops (skipn le e) /\
      (forall F, sits f F j -> Forall (labelled F) ops) /\
      (straight e f -> script (i + le) (j + lf) ops (skipn le e) (skipn lf f)).
Proof.
  intros Hrec Hn He Hso. induction l as [|[a b] l IH]; intros le lf Hs Ho Hle Hlf Hnil; cbn [anchored].
  - specialize (Hnil eq_refl). destruct ((le <? length e) || (lf <? length f)) eqn:G.
    + destruct (Hrec (skipn le e) (skipn lf f) (i + le) (j + lf)) as (ops & E & C & L & S). rewrite !skipn_length. lia.
      exists ops. split; auto. split; auto. split. intros F HF. apply L. apply sits_skipn. auto.
      intros St. apply S. eapply straight_sub; eauto; apply segment_skipn.
    + apply Bool.orb_false_iff in G as [G1 G2]. apply Nat.ltb_ge in G1, G2.
      rewrite (skipn_all2 e), (skipn_all2 f) by auto. exists []. split; auto. split. constructor. split. constructor. constructor.
  - inversion Hs as [|? ? Hs' Hf]; inversion Ho as [|? ? Ho1 Ho']; inversion Hle as [|? ? Hle1 Hle']; subst. cbn [fst snd] in *.
    destruct Ho1 as (x & Oe & Of). destruct Oe as [Ea Ua], Of as [Eb Ub]. pose proof (nth_lt _ _ _ Ea) as La.
    rewrite Ea. cbn [orUB].
    assert (Seg : exists s, (if (le <? a) || (lf <? b) then rec (seg e le a) (seg f lf b) (i + le) (j + lf) else Ok []) = Ok s /\
      consumes (i + le) s (seg e le a) /\ (forall F, sits f F j -> Forall (labelled F) s) /\
      (straight e f -> script (i + le) (j + lf) s (seg e le a) (seg f lf b))).
    { destruct ((le <? a) || (lf <? b)) eqn:G.
      - destruct (Hrec (seg e le a) (seg f lf b) (i + le) (j + lf)) as (ops & E & C & L & S). rewrite !seg_len. lia.
        exists ops. split; auto. split; auto. split. intros F HF. apply L. apply sits_seg. auto.
        intros St. apply S. eapply straight_sub; eauto; apply segment_seg.
      - apply Bool.orb_false_iff in G as [G1 G2]. apply Nat.ltb_ge in G1, G2. unfold seg.
        replace (a - le) with 0 by lia. replace (b - lf) with 0 by lia. cbn [firstn].
        exists []. split; auto. split. constructor. split. constructor. constructor. }
    destruct Seg as (s & -> & Cs & Ls & Ss). cbn [bindr].
    destruct (IH (S a) (S b)) as (r & -> & Cr & Lr & Sr); auto.
    { intros St. rewrite Forall_forall in *. intros [c d] Hp. cbn [snd]. destruct (Ho' _ Hp) as (y & Oy & Oy'). cbn [fst snd] in *.
      apply (Hso St x y a c b d); auto. split; auto. split; auto. apply (Hf _ Hp). }
    { lia. }
    cbn [bindr]. eexists. split; [reflexivity|].
    assert (Hc : skipn le e = seg e le a ++ x :: skipn (S a) e).
    { rewrite (seg_skip e le a) by auto. f_equal. apply skip_nth. auto. }
    assert (Hl : length (seg e le a) = a - le). { rewrite seg_len. lia. }
    split; [|split].
    + rewrite Hc. apply consumes_app; auto. rewrite Hl. replace (i + le + (a - le)) with (i + a) by lia.
      constructor. rewrite <- Nat.add_succ_r. auto.
    + intros F HF. apply Forall_app. split; auto. constructor; auto. cbn [labelled]. auto.
    + intros St. specialize (Hlf St). inversion Hlf as [|? ? Hb _]; subst. cbn [snd] in Hb.
      assert (Hd : skipn lf f = seg f lf b ++ x :: skipn (S b) f).
      { rewrite (seg_skip f lf b) by auto. f_equal. apply skip_nth. auto. }
      pose proof (nth_lt _ _ _ Eb) as Lb.
      rewrite Hc, Hd. apply script_app; auto. rewrite Hl. rewrite seg_len.
      replace (i + le + (a - le)) with (i + a) by lia. replace (j + lf + min (b - lf) (length f - lf)) with (j + b) by lia.
      constructor. rewrite <- !Nat.add_succ_r. auto.
  Unshelve. all: auto.
Qed.

Lemma myers_ok n : forall e f i j, length e + length f < n -> good (myers eqb n e f i j) e f i j.
Proof.
  induction n as [|n IH]; intros e f i j Hn; [lia|]. cbn [myers].
  destruct (Nat.eqb_spec (length e) 0) as [E0|E0].
  { destruct e; [|discriminate]. apply good_script. apply inserts_ok. }
  destruct (Nat.eqb_spec (length f) 0) as [F0|F0].
  { destruct f; [|discriminate]. apply good_script. apply deletes_ok. }
  destruct (common_ok e f) as (Hp & Pe & Pf). set (p := common eqb e f) in *.
  destruct (suffix_ok (skipn p e) (skipn p f)) as (Hq & Qe & Qf). set (s := common eqb (rev (skipn p e)) (rev (skipn p f))) in *.
  rewrite !skipn_length in *.
  rewrite !skipn_skipn_ in Hq. replace (length e - p - s + p) with (length e - s) in Hq by lia.
  replace (length f - p - s + p) with (length f - s) in Hq by lia.
  destruct ((0 <? p) || (0 <? s)) eqn:G.
  { assert (0 < p + s). { apply Bool.orb_true_iff in G as [G|G]; apply Nat.ltb_lt in G; lia. }
    destruct (IH (seg e p (length e - s)) (seg f p (length f - s)) (i + p) (j + p)) as (m & -> & C & L & S).
    { rewrite !seg_len. lia. }
    cbn [bindr]. eexists. split; [reflexivity|].
    assert (De : e = firstn p e ++ seg e p (length e - s) ++ skipn (length e - s) e).
    { rewrite <- seg_skip by lia. rewrite firstn_skipn. auto. }
    assert (Df : f = firstn p e ++ seg f p (length f - s) ++ skipn (length e - s) e).
    { rewrite Hp, Hq. rewrite <- seg_skip by lia. rewrite firstn_skipn. auto. }
    pose proof (seg_len e p (length e - s)) as L1. pose proof (seg_len f p (length f - s)) as L2.
    assert (L0 : length (firstn p e) = p) by (rewrite firstn_length; lia).
    split; [|split].
    - apply (consumes_eq _ _ _ _ De). apply consumes_app. eapply script_consumes. apply keeps_ok. rewrite L0. apply consumes_app; auto.
      rewrite L1. replace (i + p + min (length e - s - p) (length e - p)) with (i + (length e - s)) by lia.
      eapply script_consumes. apply keeps_ok.
    - intros F HF. apply Forall_app. split; [|apply Forall_app; split].
      + eapply script_labels. apply (keeps_ok (firstn p e) i j). rewrite Hp. intros k x Hk. apply nth_firstn_some in Hk. auto.
      + apply L. apply sits_seg. auto.
      + eapply script_labels. apply (keeps_ok _ (i + (length e - s)) (j + (length f - s))). rewrite Hq. apply sits_skipn. auto.
    - intros St. apply (script_eq _ _ _ _ _ _ _ De Df). apply script_app. apply keeps_ok. rewrite L0. apply script_app.
      + apply S. eapply straight_sub; eauto; apply segment_seg.
      + rewrite L1, L2. replace (i + p + min (length e - s - p) (length e - p)) with (i + (length e - s)) by lia.
        replace (j + p + min (length f - s - p) (length f - p)) with (j + (length f - s)) by lia. apply keeps_ok. }
  apply Bool.orb_false_iff in G as [G1 G2]. apply Nat.ltb_ge in G1, G2.
  assert (p = 0) as Ep by lia. assert (s = 0) as Es by lia.
  destruct ((length e =? 1) && (1 <? length f)). { apply good_script. apply replace_ok. }
  destruct ((length f =? 1) && (1 <? length e)). { apply good_script. apply replace_ok. }
  destruct ((length e =? 1) && (length f =? 1)) eqn:G1'.
  { apply andb_prop in G1' as [X Y]. apply Nat.eqb_eq in X, Y. destruct e as [|x [|]]; try discriminate. destruct f as [|y [|]]; try discriminate.
    destruct (eqb x y) eqn:Exy; apply good_script. apply eqb_ok in Exy. subst. repeat constructor. repeat constructor. }
  clear G1'. set (m := length e / 2) in *.
  assert (Hm : m < length e) by (apply Nat.div_lt; lia).
  destruct (best_ok (skipn m e) f 0 ((-1)%Z, (-1)%Z)) as (_ & B2 & B3).
  destruct (best_match eqb (skipn m e) f 0 ((-1)%Z, (-1)%Z)) as [pos len] eqn:Eb. cbn [snd] in *.
  destruct (Z.ltb_spec 0 len) as [Hlen|Hlen].
  - destruct B3 as [B3|(q & Hq' & B3)]; [inversion B3; lia|]. inversion B3; subst pos len. rewrite !Nat2Z.id. cbn [Nat.add].
    set (k := common eqb (skipn m e) (skipn q f)) in *. assert (0 < k) by lia.
    destruct (common_ok (skipn m e) (skipn q f)) as (K1 & K2 & K3). fold k in K1, K2, K3. rewrite !skipn_length in *.
    destruct (IH (seg e 0 m) (seg f 0 q) i j) as (b & -> & Cb & Lb & Sb). { rewrite !seg_len. lia. }
    destruct (IH (skipn (m + k) e) (skipn (q + k) f) (i + m + k) (j + q + k)) as (a & -> & Ca & La & Sa). { rewrite !skipn_length. lia. }
    cbn [bindr]. eexists. split; [reflexivity|].
    assert (Ks : seg e m (m + k) = firstn k (skipn m e)). { unfold seg. f_equal. lia. }
    assert (De : e = seg e 0 m ++ seg e m (m + k) ++ skipn (m + k) e).
    { rewrite <- seg_skip by lia. rewrite <- seg_skip by lia. auto. }
    assert (Df : f = seg f 0 q ++ seg e m (m + k) ++ skipn (q + k) f).
    { rewrite Ks, K1. replace (firstn k (skipn q f)) with (seg f q (q + k)) by (unfold seg; f_equal; lia).
      rewrite <- seg_skip by lia. rewrite <- seg_skip by lia. auto. }
    assert (L1 : length (seg e 0 m) = m) by (rewrite seg_len; lia).
    assert (L2 : length (seg f 0 q) = q) by (rewrite seg_len; lia).
    assert (L3 : length (seg e m (m + k)) = k) by (rewrite seg_len; lia).
    split; [|split].
    + apply (consumes_eq _ _ _ _ De). apply consumes_app; auto. rewrite L1. apply consumes_app. eapply script_consumes. apply keeps_ok. rewrite L3. auto.
    + intros F HF. apply Forall_app. split; [|apply Forall_app; split].
      * apply Lb. rewrite <- (Nat.add_0_r j). apply sits_seg. auto.
      * eapply script_labels. apply (keeps_ok _ (i + m) (j + q)). rewrite Ks, K1. intros c x Hc. apply nth_firstn_some in Hc.
        apply (sits_skipn f F j q HF). auto.
      * apply La. rewrite <- Nat.add_assoc. apply sits_skipn. auto.
    + intros St. apply (script_eq _ _ _ _ _ _ _ De Df). apply script_app. { apply Sb. eapply straight_sub; eauto; apply segment_seg. }
      rewrite L1, L2. apply script_app. apply keeps_ok. rewrite L3. apply Sa. eapply straight_sub; eauto; apply segment_skipn.
  - pose proof (knows_all e) as Ke. pose proof (knows_all f) as Kf.
    set (l := anchors eqb (positions eqb e 0 []) (positions eqb f 0 [])) in *.
    assert (So : StronglySorted fst_lt (sorted l)). { apply sorted_ok. eapply anchors_nodup; eauto. }
    assert (Al : Forall (fun p => exists x, once_at e x (fst p) /\ once_at f x (snd p)) (sorted l)).
    { rewrite Forall_forall. intros [a b] I. apply (proj1 (sorted_in l _)) in I. eapply anchors_in in I; eauto. destruct I as (x & _ & O). exists x. auto. }
    assert (Nn : sorted l = [] \/ sorted l <> []). { destruct (sorted l). auto. right. discriminate. }
    destruct Nn as [Nn|Nn]. { rewrite Nn. apply good_script. apply replace_ok. }
    replace (match sorted l with [] => _ | _ :: _ => _ end) with (anchored (myers eqb n) e f i j (sorted l) 0 0) by (destruct (sorted l); congruence).
    assert (Sk : stuck e f).
    { assert (e <> []) by (destruct e; cbn in *; congruence). assert (f <> []) by (destruct f; cbn in *; congruence).
      split; [|split].
      - apply common_0; auto.
      - subst s. rewrite Ep in Es. cbn [skipn] in Es. apply common_0; auto.
        intros C. apply (f_equal (@length A)) in C. rewrite rev_length in C. cbn in C. lia.
        intros C. apply (f_equal (@length A)) in C. rewrite rev_length in C. cbn in C. lia.
      - fold m. intros x Hx C. apply In_nth_error in C as (q & Hq'). pose proof (nth_lt _ _ _ Hq') as Lq. specialize (B2 q Lq).
        rewrite (skip_nth _ _ _ Hx), (skip_nth _ _ _ Hq') in B2. cbn [common] in B2. rewrite eqb_refl_ in B2. lia. }
    destruct (anchored_ok (length e + length f) (myers eqb n) e f i j) with (l := sorted l) (le := 0) (lf := 0) as (ops & E & C & L & S); auto.
    + intros. apply IH. lia.
    + lia.
    + intros St. apply St; auto; apply segment_refl.
    + rewrite Forall_forall. intros; lia.
    + intros _. rewrite Forall_forall. intros; lia.
    + intros C. congruence.
    + rewrite !Nat.add_0_r in *. cbn [skipn] in *. exists ops. auto.
Qed.
End P.

(** Proofs about the skip list. *)
From Verif Require Import Base M_Skiplist.
Require Import Sorted.

(** ** Entries: what the heap stands for. *)
Record ent := Ent { ea : addr; ek : Z; ev : Z; eh : nat }.

Definition tall (i : nat) (e : ent) : bool := Nat.ltb i (eh e).
Definition ft (i : nat) (Q : list ent) : option addr := option_map ea (find (tall i) Q).
Definition ft' (a : addr) (i : nat) (Q : list ent) : option addr :=
  option_map ea (find (fun e => tall i e && negb (Nat.eqb (ea e) a)) Q).
Definition pick (i : nat) (acc e : ent) : ent := if tall i e then e else acc.

Definition mknode (z : ent) (lk : nat -> option addr) : snode :=
  SNode (ek z) (ev z) (map lk (seq 0 (eh z))).

Record Inv (l : slist) (hd : ent) (es : list ent) : Prop := mkInv {
  i_hd : ea hd = HDR /\ ek hd = LONG_MAX /\ eh hd = MAX_LEVEL;
  i_heap : forall P z Q, hd :: es = P ++ z :: Q -> sheap l (ea z) = Some (mknode z (fun j => ft j Q));
  i_nodup : NoDup (map ea (hd :: es));
  i_lt : forall e, In e (hd :: es) -> (ea e < snext l)%nat;
  i_h : forall e, In e es -> (1 <= eh e <= S (slevel l))%nat;
  i_lv : (slevel l < MAX_LEVEL)%nat;
  i_no : sno l = zlen es;
  i_sort : StronglySorted Z.lt (map ek es) }.

(** ** Lists. *)
Lemma find_split : forall A (f : A -> bool) l y, find f l = Some y ->
  exists l1 l2, l = l1 ++ y :: l2 /\ f y = true /\ forall x, In x l1 -> f x = false.
Proof.
  induction l as [|x l IH]; intros y H; cbn in H; [discriminate|].
  destruct (f x) eqn:E.
  - injection H as <-. exists [], l. repeat split; auto. intros ? [].
  - destruct (IH y H) as (l1 & l2 & -> & B & C). exists (x :: l1), l2. repeat split; auto.
    intros z [<-|I]; auto.
Qed.

Lemma find_none_iff : forall A (f : A -> bool) l, (forall x, In x l -> f x = false) -> find f l = None.
Proof. induction l; intros H; cbn; auto. rewrite (H a) by (now left). apply IHl. intros; apply H; now right. Qed.

Lemma find_app : forall A (f : A -> bool) l m,
  find f (l ++ m) = match find f l with Some y => Some y | None => find f m end.
Proof. induction l; intros; cbn; auto. destruct (f a); auto. Qed.

Lemma pick_short : forall i Q x, (forall e, In e Q -> tall i e = false) -> fold_left (pick i) Q x = x.
Proof.
  induction Q as [|e Q IH]; intros x H; cbn [fold_left]; auto.
  unfold pick at 2. rewrite (H e) by (now left). apply IH. intros; apply H; now right.
Qed.

Lemma pick_in : forall i Q x, In (fold_left (pick i) Q x) (x :: Q).
Proof.
  induction Q as [|e Q IH]; intros x; cbn [fold_left]; [now left|].
  unfold pick at 2. destruct (tall i e).
  - destruct (IH e) as [H|H]; [rewrite <- H; right; now left|right; now right].
  - destruct (IH x) as [H|H]; [now left|right; now right].
Qed.

Lemma pick_tall : forall i Q x, tall i x = true -> tall i (fold_left (pick i) Q x) = true.
Proof.
  induction Q as [|e Q IH]; intros x H; cbn [fold_left]; auto.
  unfold pick at 2. destruct (tall i e) eqn:E; auto.
Qed.

(** The last tall element splits the list: after it everything is short. *)
Lemma pick_split : forall i Q x, tall i x = true ->
  exists P R, x :: Q = P ++ fold_left (pick i) Q x :: R /\ forall e, In e R -> tall i e = false.
Proof.
  induction Q as [|e Q IH]; intros x H; cbn [fold_left].
  - exists [], []. split; auto. intros ? [].
  - unfold pick at 2. destruct (tall i e) eqn:E.
    + destruct (IH e E) as (P & R & A & B). exists (x :: P), R. rewrite A. auto.
    + destruct (IH x H) as (P & R & A & B). destruct P as [|p P].
      * cbn in A. injection A as A1 A2. exists [], (e :: R). split; [cbn; congruence|].
        intros z [<-|I]; auto.
      * cbn in A. injection A as A1 A2. exists (x :: e :: P), R. split; [cbn; congruence|auto].
Qed.

Lemma pick_from : forall i A hd P x Q, hd :: A = P ++ x :: Q -> tall i x = true ->
  fold_left (pick i) Q x = fold_left (pick i) A hd.
Proof.
  intros i A hd P x Q E H. destruct P as [|p P]; cbn in E; injection E as -> ->; auto.
  rewrite fold_left_app. cbn [fold_left]. unfold pick at 3. now rewrite H.
Qed.

Lemma nth_links : forall (f : nat -> option addr) n i, (i < n)%nat -> nth_error (map f (seq 0 n)) i = Some (f i).
Proof.
  intros f n i H. rewrite nth_error_map. 
  rewrite (nth_error_nth' (seq 0 n) 0%nat) by (rewrite seq_length; lia). rewrite seq_nth by lia. easy.
Qed.

Lemma set_nth_cons : forall A (x : A) l i v, set_nth (x :: l) (S i) v = x :: set_nth l i v.
Proof. reflexivity. Qed.

Lemma set_links' : forall n (f : nat -> option addr) s i v, (i < n)%nat ->
  set_nth (map f (seq s n)) i v = map (fun j => if Nat.eqb j (s + i) then v else f j) (seq s n).
Proof.
  induction n as [|n IH]; intros f s i v H; [lia|].
  cbn [seq map]. destruct i as [|i].
  - unfold set_nth. cbn [firstn skipn app]. rewrite Nat.add_0_r, Nat.eqb_refl. f_equal.
    apply map_ext_in. intros j J. apply in_seq in J. replace (Nat.eqb j s) with false; auto.
    symmetry. apply Nat.eqb_neq. lia.
  - rewrite set_nth_cons, IH by lia. replace (Nat.eqb s (s + S i)) with false by (symmetry; apply Nat.eqb_neq; lia).
    f_equal. apply map_ext. intros j. now replace (s + S i)%nat with (S s + i)%nat by lia.
Qed.

Lemma set_links : forall (f : nat -> option addr) n i v, (i < n)%nat ->
  set_nth (map f (seq 0 n)) i v = map (fun j => if Nat.eqb j i then v else f j) (seq 0 n).
Proof. intros. apply (set_links' n f 0 i v H). Qed.

Lemma put_same : forall l x n, sheap (put_node l x n) x = n.
Proof. intros. cbn. now rewrite Nat.eqb_refl. Qed.
Lemma put_other : forall l x n y, y <> x -> sheap (put_node l x n) y = sheap l y.
Proof. intros. cbn. now rewrite (proj2 (Nat.eqb_neq _ _) H). Qed.

Lemma nodup_split : forall (F P Q P' Q' : list ent) z z',
  NoDup (map ea F) -> F = P ++ z :: Q -> F = P' ++ z' :: Q' -> ea z = ea z' -> P = P' /\ z = z' /\ Q = Q'.
Proof.
  induction F as [|x F IH]; intros P Q P' Q' z z' N E E' A.
  - now destruct P.
  - cbn [map] in N. apply NoDup_cons_iff in N. destruct N as [N1 N2].
    destruct P as [|p P], P' as [|p' P']; cbn in E, E'; injection E as -> E; injection E' as ? E'.
    + subst. auto.
    + subst. exfalso. apply N1. rewrite A. apply in_map. apply in_elt.
    + subst. exfalso. apply N1. rewrite <- A. apply in_map. apply in_elt.
    + destruct (IH P Q P' Q' z z' N2 E E' A) as (-> & -> & ->). subst. auto.
Qed.

Lemma last_cons : forall A (l : list A) x d, last (x :: l) d = last l x.
Proof.
  induction l as [|y l IH]; intros x d; auto. change (last (x :: y :: l) d) with (last (y :: l) d).
  rewrite (IH y d), (IH y x). easy.
Qed.

Lemma map_incl_length : forall (L : list ent) n, NoDup (map ea L) -> (forall e, In e L -> (ea e < n)%nat) ->
  (length L <= n)%nat.
Proof.
  intros L n N H. rewrite <- (map_length ea). rewrite <- (seq_length n 0).
  apply NoDup_incl_length; auto. intros a J. apply in_map_iff in J. destruct J as (e & <- & J).
  apply in_seq. specialize (H e J). lia.
Qed.

(** ** Searching. *)
Section Search.
  Variables (l : slist) (hd : ent) (es : list ent).
  Hypothesis I : Inv l hd es.
  Variable test : Z -> bool.
  Variables A B : list ent.
  Hypothesis EAB : es = A ++ B.
  Hypothesis HA : forall e, In e A -> test (ek e) = true.
  Hypothesis HB : forall e, In e B -> test (ek e) = false.

  Lemma node_at : forall P z Q, hd :: es = P ++ z :: Q -> node l (ea z) = Ok (mknode z (fun j => ft j Q)).
  Proof. intros. unfold node. now rewrite (i_heap _ _ _ I _ _ _ H). Qed.

  Lemma fwd_at : forall P z Q i, hd :: es = P ++ z :: Q -> tall i z = true -> fwd l (ea z) i = Ok (ft i Q).
  Proof.
    intros P z Q i H T. unfold fwd. rewrite (node_at _ _ _ H). cbn [bindr mknode sfwd].
    rewrite nth_links; auto. unfold tall in T. now apply Nat.ltb_lt.
  Qed.

  Lemma walk_ok : forall fuel Q P x i, hd :: A = P ++ x :: Q -> tall i x = true -> (length Q < fuel)%nat ->
    walk fuel l test i (ea x) = Ok (ea (fold_left (pick i) Q x)).
  Proof.
    induction fuel as [|fuel IH]; intros Q P x i E T L; [lia|].
    cbn [walk].
    assert (F : hd :: es = P ++ x :: (Q ++ B)).
    { rewrite EAB. change (hd :: A ++ B) with ((hd :: A) ++ B). rewrite E, <- app_assoc. easy. }
    rewrite (fwd_at _ _ _ i F T). cbn [bindr]. unfold ft. rewrite find_app.
    assert (IQ : forall e, In e Q -> In e A).
    { intros e J. destruct P; cbn in E; injection E as -> ->; auto. apply in_or_app. right. now right. }
    destruct (find (tall i) Q) as [y|] eqn:Y; cbn [option_map].
    - destruct (find_split _ _ _ _ Y) as (Q1 & Q2 & EQ & Ty & S1).
      assert (F2 : hd :: es = (P ++ x :: Q1) ++ y :: (Q2 ++ B)).
      { rewrite F, EQ. repeat (rewrite <- app_assoc; cbn [app]). reflexivity. }
      rewrite (node_at _ _ _ F2). cbn [bindr mknode skey]. rewrite HA.
      2:{ apply IQ. rewrite EQ. apply in_elt. }
      rewrite (IH Q2 (P ++ x :: Q1) y i); auto.
      + rewrite EQ, fold_left_app. cbn [fold_left]. rewrite (pick_short i Q1 x) by auto.
        unfold pick at 3. now rewrite Ty.
      + rewrite E, EQ, <- app_assoc. easy.
      + rewrite EQ, app_length in L. cbn in L. lia.
    - rewrite (pick_short i Q x).
      2:{ intros e J. eapply find_none in Y; eauto. }
      destruct (find (tall i) B) as [y|] eqn:Y2; cbn [option_map]; auto.
      destruct (find_split _ _ _ _ Y2) as (B1 & B2 & EB & Ty & S1).
      assert (F2 : hd :: es = (P ++ x :: Q ++ B1) ++ y :: B2).
      { rewrite F, EB. repeat (rewrite <- app_assoc; cbn [app]). reflexivity. }
      rewrite (node_at _ _ _ F2). cbn [bindr mknode skey]. rewrite HB; auto.
      rewrite EB. apply in_elt.
  Qed.

  Lemma es_length : (length es < snext l)%nat.
  Proof.
    clear HA HB EAB. pose proof (map_incl_length (hd :: es) (snext l) (i_nodup _ _ _ I) (i_lt _ _ _ I)). cbn in H. lia.
  Qed.

  Lemma descend_ok : forall i P x Q, hd :: A = P ++ x :: Q -> tall i x = true ->
    descend l test i (ea x) =
      Ok (ea (fold_left (pick 0) A hd), map (fun j => ea (fold_left (pick j) A hd)) (seq 0 (S i))).
  Proof.
    assert (LQ : forall P x Q, hd :: A = P ++ x :: Q -> (length Q < S (snext l))%nat).
    { intros P x Q E. pose proof es_length as L. rewrite EAB, app_length in L.
      assert (length (hd :: A) = length (P ++ x :: Q)) by congruence.
      rewrite app_length in H. cbn in H. lia. }
    induction i as [|i IH]; intros P x Q E T; unfold descend; fold descend.
    - rewrite (walk_ok _ Q P x 0%nat E T (LQ _ _ _ E)). cbn [bindr].
      rewrite (pick_from 0 A hd P x Q E T). easy.
    - rewrite (walk_ok _ Q P x (S i) E T (LQ _ _ _ E)). cbn [bindr].
      rewrite (pick_from (S i) A hd P x Q E T).
      assert (TH : tall (S i) hd = true \/ tall (S i) hd = false) by (destruct (tall (S i) hd); auto).
      set (y := fold_left (pick (S i)) A hd).
      assert (Ty : tall (S i) y = true).
      { unfold y. rewrite <- (pick_from (S i) A hd P x Q E T). now apply pick_tall. }
      assert (Iy : In y (hd :: A)) by apply pick_in.
      destruct (in_split _ _ Iy) as (P2 & Q2 & E2).
      rewrite (IH P2 y Q2 E2).
      2:{ unfold tall in *. apply Nat.ltb_lt in Ty. apply Nat.ltb_lt. lia. }
      cbn [bindr]. rewrite (seq_S (S i) 0), map_app. easy.
  Qed.

  Definition upto (i : nat) : list addr := map (fun j => ea (fold_left (pick j) A hd)) (seq 0 i).

  Lemma descend_top : 
    descend l test (slevel l) HDR = Ok (ea (fold_left (pick 0) A hd), upto (S (slevel l))).
  Proof.
    destruct (i_hd _ _ _ I) as (E1 & E2 & E3). rewrite <- E1.
    apply (descend_ok (slevel l) [] hd A eq_refl). unfold tall. rewrite E3. apply Nat.ltb_lt.
    apply (i_lv _ _ _ I).
  Qed.

  (** Every item has level 0: the node found is the last one of the prefix. *)
  Lemma last_zero : forall Q x, (forall e, In e Q -> In e es) -> 
    fold_left (pick 0) Q x = last Q x.
  Proof.
    clear HA HB EAB. induction Q as [|e Q IH]; intros x H; cbn [fold_left]; auto.
    unfold pick at 2. pose proof (i_h _ _ _ I e (H e (or_introl eq_refl))) as Q1.
    unfold tall. replace (Nat.ltb 0 (eh e)) with true by (symmetry; apply Nat.ltb_lt; lia).
    rewrite IH by (intros; apply H; now right). symmetry. apply last_cons.
  Qed.

  Lemma ft_zero : forall Q, (forall e, In e Q -> In e es) -> ft 0 Q = option_map ea (hd_error Q).
  Proof.
    clear HA HB EAB. intros [|e Q] H; auto. unfold ft. cbn [find hd_error].
    pose proof (i_h _ _ _ I e (H e (or_introl eq_refl))) as Q1.
    unfold tall. replace (Nat.ltb 0 (eh e)) with true by (symmetry; apply Nat.ltb_lt; lia). easy.
  Qed.

  Lemma last_split : forall (Q : list ent) x, exists P, x :: Q = P ++ [last Q x].
  Proof.
    clear. induction Q as [|e Q IH]; intros x; [now exists []|].
    destruct (IH e) as (P & E). exists (x :: P). rewrite (last_cons _ Q e x). cbn [app]. now rewrite <- E.
  Qed.

  Lemma found_at : exists P, hd :: A = P ++ [fold_left (pick 0) A hd]
    /\ fwd l (ea (fold_left (pick 0) A hd)) 0 = Ok (option_map ea (hd_error B)).
  Proof.
    rewrite last_zero by (intros; rewrite EAB; apply in_or_app; auto).
    destruct (last_split A hd) as (P & E). exists P. split; auto.
    rewrite (fwd_at P (last A hd) B).
    - f_equal. apply ft_zero. intros. rewrite EAB. apply in_or_app; auto.
    - rewrite EAB. change (hd :: A ++ B) with ((hd :: A) ++ B). rewrite E at 1. rewrite <- app_assoc. easy.
    - assert (J : In (last A hd) (hd :: A)) by (rewrite E; apply in_elt).
      destruct J as [<-|J].
      + unfold tall. destruct (i_hd _ _ _ I) as (_ & _ & ->). easy.
      + assert (J2 : In (last A hd) es) by (rewrite EAB; apply in_or_app; auto).
        pose proof (i_h _ _ _ I _ J2). unfold tall. apply Nat.ltb_lt. lia.
  Qed.
End Search.

(** C47, C67: the line diff and its text. *)
From Verif Require Import Base S_Diff M_Diff P_Diff P_Diff2 P_Diff3.
From Coq Require Import Arith Lia.
Open Scope nat_scope.

(** C47: the operations always exist (the recursion ends and no index is out of range) and
    consume exactly the old lines, at their positions. *)
Theorem C47_old : forall A (eqb : A -> A -> bool), (forall x y, eqb x y = true <-> x = y) ->
  forall e f, exists ops, myers_diff eqb e f = Ok ops /\ consumes 0 ops e.
Proof. intros A eqb H e f. destruct (myers_ok eqb H (S (length e + length f)) e f 0 0) as (ops & E & C & _). lia. eauto. Qed.
Print Assumptions C47_old.

(** Every line that is kept or inserted is the new line at the position it is given. *)
Theorem C47_labels : forall A (eqb : A -> A -> bool), (forall x y, eqb x y = true <-> x = y) ->
  forall e f ops, myers_diff eqb e f = Ok ops -> Forall (labelled f) ops.
Proof.
  intros A eqb H e f ops Ho. destruct (myers_ok eqb H (S (length e + length f)) e f 0 0) as (ops' & E & _ & L & _). lia.
  unfold myers_diff in Ho. rewrite E in Ho. inversion Ho; subst. apply L. intros n x Hn. auto.
Qed.
Print Assumptions C47_labels.

(** There are no changes exactly if the texts are equal. *)
Theorem C47_equal : forall A (eqb : A -> A -> bool), (forall x y, eqb x y = true <-> x = y) ->
  forall e f ops, myers_diff eqb e f = Ok ops -> (changes ops = 0 <-> e = f).
Proof.
  intros A eqb H e f ops Ho.
  assert (K : changes ops = 0 <-> kept ops).
  { clear. unfold changes, kept. induction ops as [|[] ops IH]; cbn.
    - split; auto.
    - rewrite IH. split; intros X; [constructor; auto|inversion X; auto].
    - split; intros X; [discriminate|inversion X; discriminate].
    - split; intros X; [discriminate|inversion X; discriminate]. }
  rewrite K. split.
  - intros Kp. eapply kept_eq; eauto.
  - intros ->. destruct (length f) eqn:Lf. { destruct f; [|discriminate]. inversion Ho. constructor. }
    destruct (eq_kept eqb H f (S (length f + length f)) 0 0) as (o' & E & Kp). lia. unfold myers_diff in Ho. congruence.
Qed.
Print Assumptions C47_equal.

(** If no lines are moved past each other, the operations are an edit script. *)
Theorem C47_diff_partial : forall A (eqb : A -> A -> bool), (forall x y, eqb x y = true <-> x = y) ->
  forall e f, straight e f -> exists ops, myers_diff eqb e f = Ok ops /\ script 0 0 ops e f.
Proof. intros A eqb H e f St. destruct (myers_ok eqb H (S (length e + length f)) e f 0 0) as (ops & E & _ & _ & S). lia. eauto. Qed.
Print Assumptions C47_diff_partial.

Lemma aligned_straight A (e f : list A) : aligned e f -> straight e f.
Proof.
  intros Al. intros e' f' (p & q & ->) (p' & q' & ->) _ x y a b c d [Ea _] [Ec _] [Eb Ub] [Ed _] L.
  destruct (Nat.lt_trichotomy c d) as [Lt|[Eq|Gt]]; auto; exfalso.
  - subst. rewrite Ec in Ed. inversion Ed; subst. apply Ub in Ea. lia.
  - assert (T : forall (l1 l2 l3 : list A) n z, nth_error l2 n = Some z -> nth_error (l1 ++ l2 ++ l3) (length l1 + n) = Some z).
    { intros l1 l2 l3 n z Hn. rewrite nth_error_app2 by lia. replace (length l1 + n - length l1) with n by lia.
      rewrite nth_error_app1; auto. apply nth_error_Some. congruence. }
    assert (x = y). { apply (Al x y (length p + a) (length p + b) (length p' + d) (length p' + c)); auto; lia. }
    subst. apply Ub in Ea. lia.
Qed.

(** In particular if common lines are nowhere in a different order. *)
Theorem C47_aligned : forall A (eqb : A -> A -> bool), (forall x y, eqb x y = true <-> x = y) ->
  forall e f, aligned e f -> exists ops, myers_diff eqb e f = Ok ops /\ script 0 0 ops e f.
Proof. intros A eqb H e f Al. apply C47_diff_partial; auto. apply aligned_straight. auto. Qed.
Print Assumptions C47_aligned.

(** The hypotheses hold, and something is kept, deleted and inserted. *)
Example C47_satisfiable : aligned [1; 2; 3; 4; 5; 6] [1; 7; 3; 8; 5; 9] /\
  myers_diff Nat.eqb [1; 2; 3; 4; 5; 6] [1; 7; 3; 8; 5; 9] = Ok
    [Keep 1 0 0; Delete 2 1; Insert 7 1; Keep 3 2 2; Delete 4 3; Insert 8 3; Keep 5 4 4; Delete 6 5; Insert 9 5].
Proof.
  split; [|reflexivity]. intros x y a b c d Ha Hb Hc Hd L1 L2.
  do 6 (destruct a as [|a]; [cbn in Ha; inversion Ha; subst; clear Ha;
    do 6 (destruct b as [|b]; [cbn in Hb; inversion Hb; subst; clear Hb;
      do 6 (destruct c as [|c]; [cbn in Hc; try discriminate Hc;
        do 6 (destruct d as [|d]; [cbn in Hd; try discriminate Hd; lia|]); destruct d; discriminate|]); destruct c; discriminate|]);
    destruct b; discriminate|]); destruct a; discriminate.
Qed.

(** Two lines that are unique in both texts and change places: the operations produce a text
    that is not the new one, here of four lines. *)
Theorem C47_refuted : exists e f ops, myers_diff Nat.eqb e f = Ok ops /\ ~ script 0 0 ops e f /\
  ops = [Insert 2 0; Insert 9 1; Keep 1 0 2; Delete 8 1; Keep 2 2 0; Insert 9 1; Insert 1 2].
Proof.
  exists [1; 8; 2], [2; 9; 1]. eexists. split; [reflexivity|]. split; [|reflexivity].
  intros H. cbn in H. repeat match goal with H : script _ _ (_ :: _) _ _ |- _ => inversion H; clear H; subst end.
Qed.
Print Assumptions C47_refuted.

(** The script is not a shortest one, as its documentation says: one line becomes the second of
    three, and the script deletes and inserts it. *)
Theorem C47_minimal_refuted : exists e f ops ops', myers_diff Nat.eqb e f = Ok ops /\ script 0 0 ops' e f /\ changes ops' < changes ops.
Proof.
  exists [1], [2; 1; 3]. eexists. exists [Insert 2 0; Keep 1 0 1; Insert 3 2]. split; [reflexivity|]. split. repeat constructor. cbn. lia.
Qed.
Print Assumptions C47_minimal_refuted.

(** C67: the hunks of a diff with context. *)
Local Open Scope Z_scope.

(** For texts with lines, no line moved past another, and at least one line of context, the
    text returned is, up to whitespace at its end, a sequence of hunks that turn the lines of
    the old text into those of the new; every hunk has a change and at most [c] lines of
    context around its changes. *)
Theorem C67_hunks_partial : forall old new c, old <> [] -> new <> [] -> 1 <= c ->
  forall ol nl, full_lines old ol -> full_lines new nl -> straight ol nl ->
  exists t, diff old new c = Ok t /\
    exists hs blanks, printed hs (t ++ blanks) /\ Forall blank blanks /\ patches 0 0 hs ol nl /\ Forall (context (Z.to_nat c)) hs.
Proof.
  intros old new c Ho Hn Hc ol nl Fo Fn St.
  unfold diff. rewrite (full_det _ _ Fo), (full_det _ _ Fn).
  destruct (text_eqb old new) eqn:E.
  - apply text_eqb_ok in E. exists []. split; auto. exists [], []. split. constructor. split; auto. split; auto.
    subst new. apply full_det in Fo, Fn. subst. constructor.
  - destruct (C47_diff_partial _ text_eqb text_eqb_ok ol nl St) as (ops & -> & S). cbn [bindr].
    assert (ol <> [] /\ nl <> []) as [Ne Nf].
    { assert (T : forall t ls, full_lines t ls -> t <> [] -> ls <> []).
      { intros t ls [[_ L]|(a & b & i & l & _ & _ & _ & ->)] Ht. eapply lines_some; eauto. destruct i; discriminate. }
      split; eauto. }
    destruct (chunks_ok ops ol nl c S Ne Nf Hc) as [P C]. destruct (Z.leb_spec 0 c); [|lia]. destruct (Z.ltb_spec c 0); [lia|].
    set (chs := find_chunks (filter_operations ops c) []) in *.
    destruct (filter_operations ops c) as [|g gs] eqn:Fg.
    + subst chs. cbn in P, C. exists []. split; auto. exists [], []. split. constructor. split; auto.
    + eexists. split; [reflexivity|].
      match goal with |- context [rstrip ?t] => destruct (rstrip_ok t) as (bl & Eb & Fb) end.
      exists (map hunk_of chs), bl. split; [|auto]. rewrite <- Eb. apply printed_ok.
Qed.
Print Assumptions C67_hunks_partial.

(** With a negative context all lines are listed, without headers. *)
Theorem C67_full_partial : forall old new c, c < 0 -> old <> new ->
  forall ol nl, full_lines old ol -> full_lines new nl -> straight ol nl ->
  exists t, diff old new c = Ok t /\
    exists ms blanks, flat_map mark_text ms = t ++ blanks /\ Forall blank blanks /\ old_side ms = ol /\ new_side ms = nl.
Proof.
  intros old new c Hc Hne ol nl Fo Fn St.
  unfold diff. rewrite (full_det _ _ Fo), (full_det _ _ Fn).
  destruct (text_eqb old new) eqn:E. { apply text_eqb_ok in E. congruence. }
  destruct (C47_diff_partial _ text_eqb text_eqb_ok ol nl St) as (ops & -> & S). cbn [bindr].
  destruct (Z.leb_spec 0 c); [lia|]. destruct (Z.ltb_spec c 0); [|lia].
  destruct (script_sides _ _ _ _ _ S) as [S1 S2].
  assert (X : forall (l cur : list (op chars)), find_chunks (map Some l) cur = match cur ++ l with [] => [] | x => [x] end).
  { induction l as [|o l IH]; intros cur; cbn [map find_chunks]. rewrite app_nil_r. destruct cur; auto. rewrite IH, <- app_assoc. auto. }
  destruct ops as [|o ops].
  - cbn [map]. exists []. split; auto. exists [], []. cbn in S1, S2. auto.
  - cbn [map]. eexists. split; [reflexivity|].
    match goal with |- context [rstrip ?t] => destruct (rstrip_ok t) as (bl & Eb & Fb) end.
    exists (map mark (o :: ops)), bl. split; [|auto]. rewrite <- Eb. change (Some o :: map Some ops) with (map Some (o :: ops)).
    rewrite X. rewrite app_nil_l.
    assert (Y : forall l : list (op chars), flat_map mark_text (map mark l) = flat_map op_text l).
    { induction l as [|p l IH]; cbn [map flat_map]; auto. rewrite IH. destruct p; auto. }
    rewrite Y. cbn [flat_map]. rewrite app_nil_r. auto.
Qed.
Print Assumptions C67_full_partial.

(** The empty text is returned exactly if the lines are equal. *)
Theorem C67_empty : forall old new c ol nl, full_lines old ol -> full_lines new nl -> 0 <= c ->
  (diff old new c = Ok [] <-> ol = nl).
Proof.
  intros old new c ol nl Fo Fn Hc. unfold diff. rewrite (full_det _ _ Fo), (full_det _ _ Fn).
  destruct (text_eqb old new) eqn:E. { apply text_eqb_ok in E. subst new. apply full_det in Fo, Fn. split; congruence. }
  destruct (C47_old _ text_eqb text_eqb_ok ol nl) as (ops & Eo & _). rewrite Eo. cbn [bindr].
  pose proof (C47_equal _ text_eqb text_eqb_ok ol nl ops Eo) as Q. rewrite <- Q. clear Q Eo.
  destruct (Z.leb_spec 0 c); [|lia]. destruct (Z.ltb_spec c 0); [lia|]. apply empty_ok. auto.
Qed.
Print Assumptions C67_empty.

(** "a\nb\nc\n" and "a\nx\nc" meet the hypotheses. *)
Example C67_satisfiable :
  full_lines [97; 10; 98; 10; 99; 10] [[97; 10]; [98; 10]; [99; 10]] /\ full_lines [97; 10; 120; 10; 99] [[97; 10]; [120; 10]; [99; 10]] /\
  straight [[97; 10]; [98; 10]; [99; 10]] [[97; 10]; [120; 10]; [99; 10]] /\
  diff [97; 10; 98; 10; 99; 10] [97; 10; 120; 10; 99] 3 = Ok
    ([64; 64; 32; 45; 49; 44; 51; 32; 43; 49; 44; 51; 32; 64; 64; 10] ++ [32; 97; 10] ++ [45; 98; 10] ++ [43; 120; 10] ++ [32; 99]).
Proof.
  split; [exact (full_ok [97; 10; 98; 10; 99; 10])|]. split; [exact (full_ok [97; 10; 120; 10; 99])|]. split; [|reflexivity].
  intros e' f' (p & q & E1) (p' & q' & E2) _ x y a b c d Oe Of Oe' Of' L.
  destruct (Nat.lt_trichotomy c d) as [Lt|[Eq|Gt]]; auto; exfalso.
  - subst. destruct Of as [Of _], Of' as [Of' _]. rewrite Of in Of'. inversion Of'; subst. destruct Oe as [Oe _], Oe' as [_ U]. apply U in Oe. lia.
  - assert (T : forall (l1 l2 l3 : list chars) n z, nth_error l2 n = Some z -> nth_error (l1 ++ l2 ++ l3) (length l1 + n) = Some z).
    { intros l1 l2 l3 n z Hn. rewrite nth_error_app2 by lia. replace (length l1 + n - length l1)%nat with n by lia.
      rewrite nth_error_app1; auto. apply nth_error_Some. congruence. }
    destruct Oe as [Oe _], Of as [Of _], Oe' as [Oe' _], Of' as [Of' _].
    apply (T p _ q) in Oe, Oe'. apply (T p' _ q') in Of, Of'. rewrite <- E1 in Oe, Oe'. rewrite <- E2 in Of, Of'.
    revert Oe Oe' Of Of'. generalize (length p) (length p'). intros k k' H1 H2 H3 H4.
    assert (M : forall n z, nth_error [[97; 10]; [98; 10]; [99; 10]] n = Some z -> forall m, nth_error [[97; 10]; [120; 10]; [99; 10]] m = Some z -> n = m).
    { clear. intros [|[|[|n]]] z Hz [|[|[|m]]] Hm; cbn in *; try congruence; try (destruct n; discriminate); destruct m; discriminate. }
    apply (M _ _ H1) in H3. apply (M _ _ H2) in H4. lia.
Qed.

(** Without context, a hunk that only inserts says it is at the first line: "a\nb\n" becomes
    "a\nb\nc\n" by "@@ -1,0 +3,1 @@". *)
Theorem C67_no_context_refuted : exists old new ol nl hs t blanks, full_lines old ol /\ full_lines new nl /\ straight ol nl /\
  diff old new 0 = Ok t /\ printed hs (t ++ blanks) /\ Forall blank blanks /\ map old_start hs = [1%nat] /\ length ol = 2%nat /\
  old_side (flat_map body hs) = [] /\ nl = ol ++ [[99; 10]].
Proof.
  exists [97; 10; 98; 10], [97; 10; 98; 10; 99; 10]. do 2 eexists. exists [Hunk 1 0 3 1 [Plus [99; 10]]].
  eexists. exists [10]. split; [exact (full_ok [97; 10; 98; 10])|]. split; [exact (full_ok [97; 10; 98; 10; 99; 10])|].
  split; [|split; [reflexivity|]].
  2: { split; [|split; [constructor; [unfold blank; lia|constructor]|auto]].
       match goal with |- printed _ ?t => rewrite <- (app_nil_r t) end. constructor; [|constructor].
       exists [49], [48], [51], [49]. cbn [old_start old_count new_start new_count body].
       unfold reads, digit. repeat split; try discriminate; repeat constructor; lia. }
  apply aligned_straight. intros x y a b c d Ha Hb Hc Hd L1 L2.
  cbn in Ha, Hb, Hc, Hd.
  assert (M : forall n z, nth_error [[97; 10]; [98; 10]] n = Some z -> forall m, nth_error [[97; 10]; [98; 10]; [99; 10]] m = Some z -> n = m).
  { clear. intros [|[|n]] z Hz [|[|[|m]]] Hm; cbn in *; try congruence; try (destruct n; discriminate); destruct m; discriminate. }
  apply (M _ _ Ha) in Hd. apply (M _ _ Hb) in Hc. lia.
Qed.
Print Assumptions C67_no_context_refuted.

(** From the empty text, the header counts from line 1 of an empty range. *)
Theorem C67_from_empty_refuted : forall c, 0 <= c -> exists t, diff [] [97; 10] c = Ok t /\
  t = [64; 64; 32; 45; 49; 44; 48; 32; 43; 49; 44; 49; 32; 64; 64; 10; 43; 97] /\ ~ range 0 (@nil chars) 1 0.
Proof.
  intros c Hc. eexists. split; [|split; [reflexivity|]].
  - unfold diff. cbn [text_eqb]. destruct (Z.leb_spec 0 c); [|lia]. destruct (Z.ltb_spec c 0); [lia|].
    cbn. unfold filter_operations, included. cbn. destruct (Z.leb_spec 0 c); [|lia]. reflexivity.
  - intros [_ C]. discriminate.
Qed.
Print Assumptions C67_from_empty_refuted.

(** The end of the text is stripped: a line that gets a space at its end looks unchanged. *)
Theorem C67_strip_refuted : exists old new t, old <> new /\ diff old new 3 = Ok t /\
  t = [64; 64; 32; 45; 49; 44; 49; 32; 43; 49; 44; 49; 32; 64; 64; 10; 45; 98; 10; 43; 98].
Proof. exists [98], [98; 32]. eexists. split. discriminate. split; [reflexivity|reflexivity]. Qed.
Print Assumptions C67_strip_refuted.

(** Texts that differ in the newline at their end have an empty diff, although the documentation
    promises that only for identical texts. *)
Theorem C67_newline_refuted : exists old new, old <> new /\ diff old new 3 = Ok [].
Proof. exists [97], [97; 10]. split. discriminate. reflexivity. Qed.
Print Assumptions C67_newline_refuted.

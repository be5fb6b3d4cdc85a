(** Lemmas about chunks and the text of a diff. *)
From Verif Require Import Base S_Diff M_Diff P_Diff.
From Coq Require Import Arith Lia ZifyBool ZifyNat.
Open Scope nat_scope.

Section P.
Context {A : Type}.
Implicit Types e f : list A.

(** The chunks directly. *)
Fixpoint go (inc : nat -> bool) (ops : list (op A)) (i : nat) (cur : list (op A)) : list (list (op A)) :=
  match ops with
  | [] => match cur with [] => [] | _ => [cur] end
  | o :: t => if inc i then go inc t (S i) (cur ++ [o])
              else match cur with [] => go inc t (S i) [] | _ => cur :: go inc t (S i) [] end
  end.

(** [Some] prefix of a chunk that is already in [cur]. *)
Lemma chunks_go inc ops : forall i cur,
  (cur <> [] -> 0 < i -> find_chunks (filter_loop inc ops i true true) cur = go inc ops i cur) /\
  (0 < i -> cur <> [] -> find_chunks (filter_loop inc ops i false true) cur = cur :: go inc ops i []) /\
  (cur = [] -> find_chunks (filter_loop inc ops i false false) [] = go inc ops i []).
Proof.
  induction ops as [|o t IH]; intros i cur; cbn [filter_loop go find_chunks].
  - split; [|split]; auto. destruct cur; intros; congruence.
  - assert (N : cur ++ [o] <> []) by (destruct cur; discriminate).
    destruct (inc i); cbn [negb andb app find_chunks].
    + split; [|split].
      * intros. apply IH; auto; lia.
      * intros Hi Hc. destruct (Nat.ltb_spec 0 i); [|lia]. cbn [andb app find_chunks]. destruct cur; [congruence|]. f_equal.
        apply (IH (S i) [o]); [discriminate|lia].
      * intros _. rewrite Bool.andb_false_r. cbn [app find_chunks]. apply (IH (S i) [o]); [discriminate|lia].
    + split; [|split].
      * intros Hc Hi. destruct cur; [congruence|]. apply IH; [lia|discriminate].
      * intros Hi Hc. apply IH; [lia|auto].
      * intros _. apply (IH (S i) []). auto.
Qed.

Definition mark (o : op A) : marked A := match o with Keep x _ _ => Same x | Delete x _ => Minus x | Insert x _ => Plus x end.
Definition hunk_of (ops : list (op A)) : hunk A :=
  let '(a, b, c, d) := header ops in Hunk a b c d (map mark ops).
Lemma hunk_body ops : body (hunk_of ops) = map mark ops.
Proof. unfold hunk_of. destruct (header ops) as [[[a b] c] d]. auto. Qed.

Lemma script_sides i j ops e f : script i j ops e f -> old_side (map mark ops) = e /\ new_side (map mark ops) = f.
Proof. unfold old_side, new_side. induction 1; cbn [map mark flat_map app]; auto; destruct IHscript; split; congruence. Qed.

Lemma header_loop_ok i j ops e f : script i j ops e f -> forall os oc ns nc,
  header_loop ops os oc ns nc =
    ((if (os =? -1)%Z then match e with [] => (-1)%Z | _ => Z.of_nat i end else os), oc + length e,
     (if (ns =? -1)%Z then match f with [] => (-1)%Z | _ => Z.of_nat j end else ns), nc + length f).
Proof.
  induction 1; intros os oc ns nc; cbn [header_loop length].
  - rewrite !Nat.add_0_r. destruct (Z.eqb_spec os (-1)), (Z.eqb_spec ns (-1)); subst; auto.
  - rewrite IHscript. unfold start_at. destruct (Z.eqb_spec os (-1)), (Z.eqb_spec ns (-1));
    repeat match goal with |- context [(?a =? -1)%Z] => destruct (Z.eqb_spec a (-1)); try lia end; rewrite ?Nat.add_succ_r; subst; reflexivity.
  - rewrite IHscript. unfold start_at. destruct (Z.eqb_spec os (-1)), (Z.eqb_spec ns (-1));
    repeat match goal with |- context [(?a =? -1)%Z] => destruct (Z.eqb_spec a (-1)); try lia end; rewrite ?Nat.add_succ_r; subst; reflexivity.
  - rewrite IHscript. unfold start_at. destruct (Z.eqb_spec os (-1)), (Z.eqb_spec ns (-1));
    repeat match goal with |- context [(?a =? -1)%Z] => destruct (Z.eqb_spec a (-1)); try lia end; rewrite ?Nat.add_succ_r; subst; reflexivity.
Qed.
Lemma hunk_ok i j ops e f : script i j ops e f -> e <> [] -> f <> [] ->
  range i (old_side (body (hunk_of ops))) (old_start (hunk_of ops)) (old_count (hunk_of ops)) /\
  range j (new_side (body (hunk_of ops))) (new_start (hunk_of ops)) (new_count (hunk_of ops)).
Proof.
  intros H He Hf. rewrite hunk_body. destruct (script_sides _ _ _ _ _ H) as [-> ->]. unfold hunk_of, header.
  rewrite (header_loop_ok _ _ _ _ _ H). cbn [Z.eqb]. destruct e as [|x e]; [congruence|]. destruct f as [|y f]; [congruence|].
  cbn [old_start old_count new_start new_count Z.eqb Pos.eqb].
  destruct (Z.eqb_spec (Z.of_nat i) (-1)); [lia|]. destruct (Z.eqb_spec (Z.of_nat j) (-1)); [lia|].
  unfold range. repeat split; cbn [Nat.add]; lia.
Qed.

Lemma script_keep_ne i j ops e f : script i j ops e f -> (exists o, In o ops /\ changed o = false) -> e <> [] /\ f <> [].
Proof.
  induction 1; intros (o & I & C); cbn [In] in I; try tauto; try (split; discriminate).
  - split; [discriminate|]. destruct I as [<-|I]; [discriminate C|]. apply IHscript. eauto.
  - split; [|discriminate]. destruct I as [<-|I]; [discriminate C|]. apply IHscript. eauto.
Qed.

Variables (all : list (op A)) (e0 f0 : list A) (inc : nat -> bool).
Hypothesis all_script : script 0 0 all e0 f0.
Hypothesis e0_ne : e0 <> [].
Hypothesis f0_ne : f0 <> [].
Hypothesis inc_self : forall n o, nth_error all n = Some o -> changed o = true -> inc n = true.
Hypothesis inc_next : forall n o, nth_error all n = Some o -> changed o = true -> inc (S n) = true.
Hypothesis inc_prev : forall n o, nth_error all (S n) = Some o -> changed o = true -> inc n = true.

(** The state of the loop: [pre] is done, [cur] is the chunk so far, [ops] is to come. *)
Lemma go_ok ops : forall pre cur i j e f ec fc, all = pre ++ cur ++ ops -> script i j cur ec fc ->
  script (i + length ec) (j + length fc) ops e f ->
  (cur = [] -> pre = [] \/ inc (length pre - 1) = false) ->
  (cur <> [] -> pre = [] \/ exists o, In o cur /\ changed o = false) ->
  (pre = [] -> i = 0 /\ j = 0) ->
  patches i j (map hunk_of (go inc ops (length pre + length cur) cur)) (ec ++ e) (fc ++ f).
Proof.
  induction ops as [|o t IH]; intros pre cur i j e f ec fc Hall Hc Ho H1 H2 H3; cbn [go].
  - inversion Ho; subst. rewrite !app_nil_r. destruct cur as [|o cur].
    + inversion Hc; subst. constructor.
    + cbn [map]. assert (ec <> [] /\ fc <> []) as [Ne Nf].
      { destruct H2 as [->|H2]; [discriminate| |eapply script_keep_ne; eauto]. destruct H3 as [-> ->]; auto.
        rewrite app_nil_r in all_script. cbn [app] in all_script. pose proof (script_sides _ _ _ _ _ all_script) as [A1 A2].
        pose proof (script_sides _ _ _ _ _ Hc) as [B1 B2]. split; congruence. }
      destruct (hunk_ok _ _ _ _ _ Hc Ne Nf) as [R1 R2].
      pose proof (patches_cons i j [] (hunk_of (o :: cur)) [] [] []) as P. cbn [length app] in P. rewrite !Nat.add_0_r in P.
      rewrite hunk_body in P, R1, R2. destruct (script_sides _ _ _ _ _ Hc) as [S1 S2]. rewrite S1, S2 in P. rewrite S1 in R1. rewrite S2 in R2. rewrite !app_nil_r in P.
      apply P; auto. constructor.
  - assert (Hn : nth_error all (length pre + length cur) = Some o).
    { rewrite Hall, app_assoc. rewrite nth_error_app2 by (rewrite app_length; lia). rewrite app_length, Nat.sub_diag. auto. }
    destruct (inc (length pre + length cur)) eqn:I.
    + assert (exists e1 e2 f1 f2, script (i + length ec) (j + length fc) [o] e1 f1 /\ script (i + length (ec ++ e1)) (j + length (fc ++ f1)) t e2 f2 /\ e = e1 ++ e2 /\ f = f1 ++ f2) as (e1 & e2 & f1 & f2 & S1 & S2 & -> & ->).
      { inversion Ho; subst.
        - exists [x], e1, [x], f1. rewrite !app_length. cbn [length]. rewrite !Nat.add_assoc, !Nat.add_1_r. repeat split; auto. repeat constructor.
        - exists [x], e1, [], f. rewrite !app_length. cbn [length]. rewrite !Nat.add_assoc, !Nat.add_1_r, Nat.add_0_r. repeat split; auto. repeat constructor.
        - exists [], e, [x], f1. rewrite !app_length. cbn [length]. rewrite !Nat.add_assoc, !Nat.add_1_r, Nat.add_0_r. repeat split; auto. repeat constructor. }
      rewrite !app_assoc. replace (S (length pre + length cur)) with (length pre + length (cur ++ [o])) by (rewrite app_length; cbn; lia).
      apply IH; auto.
      * rewrite <- app_assoc. auto.
      * apply script_app; auto.
      * intros C. destruct cur; discriminate.
      * intros _. destruct cur as [|q cur].
        -- destruct (H1 eq_refl) as [->|H1']; auto. destruct pre as [|q pre]; auto. right. exists o. split. cbn; auto.
           destruct (changed o) eqn:C; auto. cbn [length] in *. rewrite Nat.add_0_r in Hn.
           replace (S (length pre) - 1) with (length pre) in H1' by lia. rewrite (inc_prev _ _ Hn C) in H1'. discriminate.
        -- destruct H2 as [H2|(q' & Hq & C)]; [discriminate| |]; auto. right. exists q'. split; auto. apply in_or_app. auto.
    + assert (C : changed o = false). { destruct (changed o) eqn:C; auto. rewrite (inc_self _ _ Hn C) in I. discriminate. }
      assert (exists x e1 f1, o = Keep x (i + length ec) (j + length fc) /\ e = x :: e1 /\ f = x :: f1 /\
        script (S (i + length ec)) (S (j + length fc)) t e1 f1) as (x & e1 & f1 & -> & -> & -> & Ho').
      { destruct o as [x a b| |]; try discriminate. inversion Ho; subst. eauto 8. }
      assert (L : S (length pre + length cur) = length (pre ++ cur ++ [Keep x (i + length ec) (j + length fc)]) + length (@nil (op A))).
      { rewrite !app_length. cbn. lia. }
      specialize (IH (pre ++ cur ++ [Keep x (i + length ec) (j + length fc)]) []).
      rewrite <- L in IH.
      assert (P : patches (i + length ec + 1) (j + length fc + 1) (map hunk_of (go inc t (S (length pre + length cur)) [])) e1 f1).
      { specialize (IH (i + length ec + 1) (j + length fc + 1) e1 f1 [] []). cbn [app length] in IH. rewrite !Nat.add_0_r in IH. apply IH; clear IH.
        - rewrite <- !app_assoc. cbn [app]. auto.
        - constructor.
        - rewrite !Nat.add_1_r. auto.
        - intros _. right. rewrite !app_length. cbn [length]. replace (length pre + (length cur + 1) - 1) with (length pre + length cur) by lia. auto.
        - congruence.
        - intros N. apply (f_equal (@length _)) in N. rewrite !app_length in N. cbn in N. lia. }
      destruct cur as [|q cur].
      * inversion Hc; subst. cbn [length app] in *. rewrite !Nat.add_0_r in *.
        clear - P. revert P. generalize (map hunk_of (go inc t (S (length pre)) [])). intros hs P.
        inversion P; subst.
        -- constructor.
        -- apply (patches_cons i j (x :: same)); cbn [length]; rewrite <- ?Nat.add_assoc in *; cbn [Nat.add] in *; auto.
      * cbn [map]. assert (ec <> [] /\ fc <> []) as [Ne Nf].
        { eapply script_keep_ne; eauto. destruct H2 as [->|H2]; [discriminate| |auto].
          (* the operation before an excluded one is a Keep *)
          destruct (exists_last (l := q :: cur)) as (l & z & Ez); [discriminate|]. exists z. rewrite Ez. split. apply in_or_app; cbn; auto.
          destruct (changed z) eqn:Cz; auto. cbn [app length Nat.add] in *.
          assert (nth_error all (length cur) = Some z) as Hz.
          { rewrite Hall. assert (length (q :: cur) = length l + 1) as E1 by (rewrite Ez, app_length; auto). cbn [length] in E1.
            change (nth_error ((q :: cur) ++ Keep x (i + length ec) (j + length fc) :: t) (length cur) = Some z).
            rewrite nth_error_app1 by (cbn; lia). rewrite Ez, nth_error_app2 by lia. replace (length cur - length l) with 0 by lia. auto. }
          rewrite (inc_next _ _ Hz Cz) in I. discriminate. }
        destruct (hunk_ok _ _ _ _ _ Hc Ne Nf) as [R1 R2].
        pose proof (patches_cons i j [] (hunk_of (q :: cur)) (map hunk_of (go inc t (S (length pre + length (q :: cur))) [])) (x :: e1) (x :: f1)) as Pc.
        cbn [length app] in Pc. rewrite !Nat.add_0_r in Pc.
        rewrite hunk_body in Pc, R1, R2. destruct (script_sides _ _ _ _ _ Hc) as [S1 S2]. rewrite S1, S2 in Pc. rewrite S1 in R1. rewrite S2 in R2.
        apply Pc; auto. clear - P. revert P. cbn [length]. generalize (map hunk_of (go inc t (S (length pre + S (length cur))) [])). intros hs P.
        inversion P; subst.
        -- constructor.
        -- apply (patches_cons _ _ (x :: same)); cbn [length]; rewrite <- ?Nat.add_assoc in *; cbn [Nat.add] in *; auto.
Qed.
End P.

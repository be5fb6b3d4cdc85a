(** Proofs about the removal of structured control flow. *)
From Coq Require Import List Bool Arith Lia.
From Verif Require Import S_Control M_Control.
Import ListNotations.

Scheme stmt_mut := Induction for stmt Sort Prop
  with suite_mut := Induction for suite Sort Prop
  with handlers_mut := Induction for handlers Sort Prop.
Combined Scheme source_ind from stmt_mut, suite_mut, handlers_mut.

Section P.
Variable L : lang.
Variable isval : expr L -> bool.
Variable pvar : pat L -> bool.
Variable ctrl_instance : flow -> cls L -> bool.
Hypothesis isval_pure : forall e s, isval e = true -> exists v, eval L e s = Some (s, inl v).
Notation run := (run L ctrl_instance).
Notation run_stmt := (run_stmt L ctrl_instance).
Notation norm := (norm L isval pvar).
Notation norm_stmt := (norm_stmt L isval pvar).
Notation norm_handlers := (norm_handlers L isval pvar).
Notation stack := (list (nat * option (xexc L))).
Notation Tst := (Tst L).

(** ** Equations. *)
Lemma ex_if k n e b els s : exec_stmt (L:=L) k n (If e b els) s =
  match eval L e s with
  | None => None
  | Some (st1, inr x) => Some (st1, ORaise x)
  | Some (st1, inl v) => if truth L v then exec k n b st1 else exec k n els st1
  end.
Proof. reflexivity. Qed.
Lemma ex_while k n e b els s : exec_stmt (L:=L) k n (While e b els) s = while_ n e (exec k n b) (exec k n els) s.
Proof. reflexivity. Qed.
Lemma ex_for k n p e b els s : exec_stmt (L:=L) k n (For p e b els) s =
  match eval L e s with
  | None => None
  | Some (st1, inr x) => Some (st1, ORaise x)
  | Some (st1, inl it) => for_ k n p it (exec k n b) (exec k n els) st1
  end.
Proof. reflexivity. Qed.
Lemma ex_try k n b hs els fin s : exec_stmt (L:=L) k n (Try b hs els fin) s =
  finally_ (protected (exec k n b s) (exec k n els) (exec_handlers k n hs)) (exec k n fin).
Proof. reflexivity. Qed.
Lemma ex_cons k n s ss st : exec (L:=L) k n (Cons s ss) st =
  match exec_stmt k n s st with Some (st1, ONext) => exec k n ss st1 | r => r end.
Proof. reflexivity. Qed.
Lemma ex_h k n h b hs x st : exec_handlers (L:=L) k n (HCons h b hs) x st =
  match h with
  | All => exec k n b st
  | Only c => if instance L x c then exec k n b st else exec_handlers k n hs x st
  | As c p => if instance L x c then exec k n b (bind L p x st) else exec_handlers k n hs x st
  end.
Proof. destruct h; reflexivity. Qed.
Lemma fl_try b hs els fin : flows_stmt L (Try b hs els fin) =
  flows_then L b (flows_then L els [SEQ]) ++ flows_handlers L hs ++ remove1 SEQ (flows_then L fin [SEQ]).
Proof. reflexivity. Qed.

(** ** Strict and ordinary meaning. *)
Definition nostray (r : res L) : Prop := forall s, r <> Some (s, OStray).
Definition agree (r r' : res L) : Prop := nostray r -> r' = r.
Lemma nostray_none : nostray None. Proof. intros s; discriminate. Qed.

Lemma while_agree n e b els b' els' : (forall s, agree (b s) (b' s)) -> (forall s, agree (els s) (els' s)) ->
  forall s, agree (while_ n e b els s) (while_ n e b' els' s).
Proof.
  intros Hb He. induction n as [|n IH]; intros s N; [reflexivity|]. cbn [while_] in *.
  destruct (eval L e s) as [[s1 [v|x]]|]; auto.
  destruct (truth L v); [|apply He; exact N].
  specialize (Hb s1). destruct (b s1) as [[s2 o]|] eqn:E.
  - assert (Q : b' s1 = Some (s2, o)).
    { apply Hb. intros s3 R. injection R as -> ->. apply (N s3). reflexivity. }
    rewrite Q. destruct o; cbn [after_body] in *; auto; apply IH; exact N.
  - rewrite (Hb nostray_none). reflexivity.
Qed.
Lemma for_agree n p it b els b' els' : (forall s, agree (b s) (b' s)) -> (forall s, agree (els s) (els' s)) ->
  forall s, agree (for_ true n p it b els s) (for_ false n p it b' els' s).
Proof.
  intros Hb He. induction n as [|n IH]; intros s N; [reflexivity|]. cbn [for_] in *.
  destruct (next L it s) as [[s1 [v|x]]|]; auto.
  2: { destruct (instance L x (stop L)); auto. apply He; exact N. }
  destruct (assign L p v s1) as [[s2 [x|]]|]; auto.
  { cbn [leaves andb] in *. destruct (instance L x (stop L)); [exfalso; exact (N _ eq_refl)|reflexivity]. }
  specialize (Hb s2). destruct (b s2) as [[s3 o]|] eqn:E.
  - assert (Q : b' s2 = Some (s3, o)).
    { apply Hb. intros s4 R. injection R as -> ->. apply (N s4). reflexivity. }
    rewrite Q. destruct o; cbn [after_body leaves andb] in *; auto; try (apply IH; exact N).
    destruct (instance L x (stop L)); [exfalso; exact (N _ eq_refl)|reflexivity].
  - rewrite (Hb nostray_none). reflexivity.
Qed.
Lemma strict_agree n :
  (forall s st, agree (exec_stmt (L:=L) true n s st) (exec_stmt false n s st)) /\
  (forall ss st, agree (exec (L:=L) true n ss st) (exec false n ss st)) /\
  (forall hs x st, agree (exec_handlers (L:=L) true n hs x st) (exec_handlers false n hs x st)).
Proof.
  apply (source_ind L
    (fun s => forall st, agree (exec_stmt true n s st) (exec_stmt false n s st))
    (fun ss => forall st, agree (exec true n ss st) (exec false n ss st))
    (fun hs => forall x st, agree (exec_handlers true n hs x st) (exec_handlers false n hs x st)));
  try (intros; intro; reflexivity).
  - intros e b Hb els He s N. rewrite ?ex_if in *. destruct (eval L e s) as [[s1 [v|x]]|]; auto.
    destruct (truth L v); [apply Hb|apply He]; exact N.
  - intros e b Hb els He s. rewrite ?ex_while. apply while_agree; auto.
  - intros p e b Hb els He s N. rewrite ?ex_for in *. destruct (eval L e s) as [[s1 [v|x]]|]; auto.
    apply for_agree; auto.
  - intros b Hb hs Hh els He fin Hf s N. rewrite ?ex_try in *.
    set (inner := protected (exec true n b s) (exec true n els) (exec_handlers true n hs)) in *.
    set (inner' := protected (exec false n b s) (exec false n els) (exec_handlers false n hs)).
    assert (NI : nostray inner). { intros s1 E. rewrite E in N. exact (N _ eq_refl). }
    assert (A : inner' = inner).
    { subst inner inner'. unfold protected in *. specialize (Hb s). destruct (exec true n b s) as [[s1 o]|] eqn:E.
      - assert (Q : exec false n b s = Some (s1, o)).
        { apply Hb. intros s2 R. injection R as -> ->. exact (NI _ eq_refl). }
        rewrite Q. destruct o; auto; [apply He|apply Hh]; exact NI.
      - rewrite (Hb nostray_none). reflexivity. }
    rewrite A. unfold finally_ in *. destruct inner as [[s1 o]|]; auto.
    specialize (Hf s1). destruct (exec true n fin s1) as [[s2 o2]|] eqn:E.
    + assert (Q : o = OStray \/ exec false n fin s1 = Some (s2, o2)).
      { destruct o; try (right; apply Hf; intros s3 R; injection R as -> ->; exact (N _ eq_refl)). }
      destruct Q as [->|Q]; [reflexivity|]. rewrite Q. reflexivity.
    + rewrite (Hf nostray_none). reflexivity.
  - intros s Hs ss Hss st N. rewrite ?ex_cons in *. specialize (Hs st). destruct (exec_stmt true n s st) as [[s1 o]|] eqn:E.
    + assert (Q : exec_stmt false n s st = Some (s1, o)).
      { apply Hs. intros s2 R. injection R as -> ->. exact (N _ eq_refl). }
      rewrite Q. destruct o; auto. apply Hss; exact N.
    + rewrite (Hs nostray_none). reflexivity.
  - intros h b Hb hs Hh x st N. rewrite ?ex_h in *. destruct h as [|c|c p].
    + apply Hb; exact N.
    + destruct (instance L x c); [apply Hb|apply Hh]; exact N.
    + destruct (instance L x c); [apply Hb|apply Hh]; exact N.
Qed.

(** ** How a suite can end: flows. *)
Definition flow_of_out (o : out L) : option flow :=
  match o with ONext => Some SEQ | OBreak => Some BRK | OContinue => Some CNT | OReturn _ => Some RET | _ => None end.
Lemma flow_eqb_eq a b : flow_eqb a b = true <-> a = b.
Proof. destruct a, b; cbn; intuition congruence. Qed.
Lemma has_In f l : has f l = true <-> In f l.
Proof.
  unfold has. rewrite existsb_exists. split.
  - intros (g & I & E). apply flow_eqb_eq in E. subst. exact I.
  - intros I. exists f. split; [exact I|]. apply flow_eqb_eq. reflexivity.
Qed.
Lemma remove1_In f g l : f <> g -> In g l -> In g (remove1 f l).
Proof.
  intros N. induction l as [|h l IH]; cbn; [tauto|]. destruct (flow_eqb f h) eqn:E.
  - apply flow_eqb_eq in E. subst. intuition congruence.
  - cbn. tauto.
Qed.
Lemma nub_In f l : In f (nub l) <-> In f l.
Proof.
  induction l as [|g l IH]; cbn; [tauto|]. rewrite filter_In, IH. split.
  - tauto.
  - intros [->|I]; [auto|]. destruct (flow_eqb g f) eqn:E; [apply flow_eqb_eq in E; auto|auto].
Qed.
Lemma brkseq_In f l : In f l -> f <> BRK -> f <> CNT -> In f (brkseq l).
Proof.
  intros I N1 N2. unfold brkseq. apply remove1_In; [congruence|]. apply remove1_In; [congruence|].
  destruct (has BRK l); cbn; auto.
Qed.
Lemma brkseq_SEQ l : In BRK l -> In SEQ (brkseq l).
Proof.
  intros I. unfold brkseq. apply has_In in I. rewrite I. apply remove1_In; [congruence|]. apply remove1_In; [congruence|].
  left; reflexivity.
Qed.
Lemma seqflow_l f l k : f <> SEQ -> In f l -> In f (seqflow l k).
Proof. intros N I. unfold seqflow. destruct (has SEQ l); [|exact I]. apply in_or_app. left. apply remove1_In; auto. Qed.
Lemma seqflow_r f l k : In SEQ l -> In f k -> In f (seqflow l k).
Proof. intros S I. unfold seqflow. apply has_In in S. rewrite S. apply in_or_app. right. exact I. Qed.

Definition flowing (l : list flow) (r : res L) : Prop :=
  forall s o f, r = Some (s, o) -> flow_of_out o = Some f -> In f l.
Lemma while_flow n e b els lb le : (forall s, flowing lb (b s)) -> (forall s, flowing le (els s)) ->
  forall s, flowing (brkseq lb ++ le) (while_ n e b els s).
Proof.
  intros Hb He. induction n as [|n IH]; intros s s' o f E Ho; [discriminate|]. cbn [while_] in E.
  destruct (eval L e s) as [[s1 [v|x]]|]; try discriminate.
  2: { injection E as <- <-. discriminate. }
  destruct (truth L v).
  - destruct (b s1) as [[s2 o2]|] eqn:B; [|discriminate].
    destruct o2; cbn [after_body] in E; try (eapply IH; eassumption);
      injection E as <- <-; cbn in Ho; try discriminate; injection Ho as <-; apply in_or_app; left.
    + apply brkseq_SEQ. eapply Hb; [exact B|reflexivity].
    + apply brkseq_In; try discriminate. eapply Hb; [exact B|reflexivity].
  - apply in_or_app. right. eapply He; eassumption.
Qed.
Lemma for_flow strict n p it b els lb le : (forall s, flowing lb (b s)) -> (forall s, flowing le (els s)) ->
  forall s, flowing (brkseq lb ++ le) (for_ strict n p it b els s).
Proof.
  intros Hb He. induction n as [|n IH]; intros s s' o f E Ho; [discriminate|]. cbn [for_] in E.
  destruct (next L it s) as [[s1 [v|x]]|]; try discriminate.
  2: { destruct (instance L x (stop L)); [apply in_or_app; right; eapply He; eassumption|]. injection E as <- <-. discriminate. }
  destruct (assign L p v s1) as [[s2 [x|]]|]; try discriminate.
  { injection E as <- <-. cbn [leaves] in Ho. destruct (strict && instance L x (stop L)); discriminate. }
  destruct (b s2) as [[s3 o2]|] eqn:B; [|discriminate].
  destruct o2; cbn [after_body leaves] in E; try (eapply IH; eassumption).
  3: { destruct (strict && instance L x (stop L)); injection E as <- <-; discriminate. }
  all: injection E as <- <-; cbn in Ho; try discriminate; injection Ho as <-; apply in_or_app; left.
  - apply brkseq_SEQ. eapply Hb; [exact B|reflexivity].
  - apply brkseq_In; try discriminate. eapply Hb; [exact B|reflexivity].
Qed.
Lemma flows_sound strict n :
  (forall s st, flowing (flows_stmt L s) (exec_stmt strict n s st)) /\
  (forall ss st s1 o, exec strict n ss st = Some (s1, o) -> forall k,
     (o = ONext -> forall f, In f k -> In f (flows_then L ss k)) /\
     (o <> ONext -> forall f, flow_of_out o = Some f -> In f (flows_then L ss k))) /\
  (forall hs x st, flowing (flows_handlers L hs) (exec_handlers strict n hs x st)).
Proof.
  apply (source_ind L
    (fun s => forall st, flowing (flows_stmt L s) (exec_stmt strict n s st))
    (fun ss => forall st s1 o, exec strict n ss st = Some (s1, o) -> forall k,
     (o = ONext -> forall f, In f k -> In f (flows_then L ss k)) /\
     (o <> ONext -> forall f, flow_of_out o = Some f -> In f (flows_then L ss k)))
    (fun hs => forall x st, flowing (flows_handlers L hs) (exec_handlers strict n hs x st))).
  - intros e st s o f E Ho. cbn [exec_stmt exec exec_handlers] in E. destruct (eval L e st) as [[s1 [v|x]]|]; try discriminate; injection E as <- <-; [|discriminate].
    injection Ho as <-. left; reflexivity.
  - intros e st s o f E Ho. cbn [exec_stmt exec exec_handlers] in E. destruct (eval L e st) as [[s1 [v|x]]|]; try discriminate; injection E as <- <-; discriminate.
  - intros [e|] st s o f E Ho; cbn [exec_stmt exec exec_handlers] in E.
    + destruct (eval L e st) as [[s1 [v|x]]|]; try discriminate; injection E as <- <-; [|discriminate]. injection Ho as <-. left; reflexivity.
    + injection E as <- <-. injection Ho as <-. left; reflexivity.
  - intros st s o f E Ho. injection E as <- <-. injection Ho as <-. left; reflexivity.
  - intros st s o f E Ho. injection E as <- <-. injection Ho as <-. left; reflexivity.
  - intros e b Hb els He st s o f E Ho. rewrite ?ex_if in *. cbn [flows_stmt flows_then flows_handlers] in *. destruct (eval L e st) as [[s1 [v|x]]|]; try discriminate.
    2: { injection E as <- <-. discriminate. }
    apply in_or_app. destruct (truth L v); [left; specialize (Hb _ _ _ E [SEQ])|right; specialize (He _ _ _ E [SEQ])].
    + destruct Hb as [H1 H2]. destruct o; try (apply H2; [discriminate|exact Ho]). apply H1; [reflexivity|]. injection Ho as <-. left; reflexivity.
    + destruct He as [H1 H2]. destruct o; try (apply H2; [discriminate|exact Ho]). apply H1; [reflexivity|]. injection Ho as <-. left; reflexivity.
  - intros e b Hb els He st. rewrite ?ex_while. cbn [flows_stmt flows_then flows_handlers]. apply while_flow.
    + intros s s1 o f E Ho. destruct (Hb _ _ _ E [SEQ]) as [H1 H2]. destruct o; try (apply H2; [discriminate|exact Ho]). apply H1; [reflexivity|]. injection Ho as <-. left; reflexivity.
    + intros s s1 o f E Ho. destruct (He _ _ _ E [SEQ]) as [H1 H2]. destruct o; try (apply H2; [discriminate|exact Ho]). apply H1; [reflexivity|]. injection Ho as <-. left; reflexivity.
  - intros p e b Hb els He st s0 o0 f0 E0 Ho0. rewrite ?ex_for in *. cbn [flows_stmt flows_then flows_handlers] in *. destruct (eval L e st) as [[s1 [v|x]]|]; try discriminate.
    2: { injection E0 as <- <-. discriminate. }
    revert E0 Ho0. apply for_flow.
    + intros s s2 o f E Ho. destruct (Hb _ _ _ E [SEQ]) as [H1 H2]. destruct o; try (apply H2; [discriminate|exact Ho]). apply H1; [reflexivity|]. injection Ho as <-. left; reflexivity.
    + intros s s2 o f E Ho. destruct (He _ _ _ E [SEQ]) as [H1 H2]. destruct o; try (apply H2; [discriminate|exact Ho]). apply H1; [reflexivity|]. injection Ho as <-. left; reflexivity.
  - intros b Hb hs Hh els He fin Hf st s o f E Ho. rewrite ?ex_try, fl_try in *.
    set (inner := protected (exec strict n b st) (exec strict n els) (exec_handlers strict n hs)) in *.
    assert (FI : flowing (flows_then L b (flows_then L els [SEQ]) ++ flows_handlers L hs) inner).
    { subst inner. unfold protected. intros s1 o1 f1 E1 Ho1. apply in_or_app. destruct (exec strict n b st) as [[s2 o2]|] eqn:B; [|discriminate].
      specialize (Hb _ _ _ B (flows_then L els [SEQ])). destruct Hb as [H1 H2]. destruct o2.
      - left. apply H1; [reflexivity|]. destruct (He _ _ _ E1 [SEQ]) as [H3 H4]. destruct o1; try (apply H4; [discriminate|exact Ho1]).
        apply H3; [reflexivity|]. injection Ho1 as <-. left; reflexivity.
      - injection E1 as <- <-. left. apply H2; [discriminate|exact Ho1].
      - injection E1 as <- <-. left. apply H2; [discriminate|exact Ho1].
      - injection E1 as <- <-. left. apply H2; [discriminate|exact Ho1].
      - right. eapply Hh; eassumption.
      - injection E1 as <- <-. discriminate. }
    rewrite app_assoc. apply in_or_app. unfold finally_ in E. destruct inner as [[s1 o1]|]; [|discriminate].
    assert (C : (exists s2, exec strict n fin s1 = Some (s2, ONext) /\ o = o1) \/ (exists s2, exec strict n fin s1 = Some (s2, o) /\ o <> ONext) \/ o = OStray).
    { destruct o1; try (injection E as <- <-; right; right; reflexivity);
      (destruct (exec strict n fin s1) as [[s2 o2]|]; [|discriminate]; destruct o2; injection E as <- <-;
       first [left; eexists; split; reflexivity | right; left; eexists; split; [reflexivity|discriminate]]). }
    destruct C as [(s2 & F & Q)|[(s2 & F & N)|Q]]; [subst o| |subst o; discriminate].
    + left. eapply FI; [reflexivity|exact Ho].
    + right. destruct (Hf _ _ _ F [SEQ]) as [_ H2]. specialize (H2 N _ Ho). apply remove1_In; [|exact H2].
      destruct o; try discriminate Ho; injection Ho as <-; try discriminate. congruence.
  - intros st s1 o E k. injection E as <- <-. split; [intros _ f I; exact I|congruence].
  - intros s Hs ss Hss st s1 o E k. rewrite ?ex_cons in *. cbn [flows_stmt flows_then flows_handlers] in *. destruct (exec_stmt strict n s st) as [[s2 o2]|] eqn:B; [|discriminate].
    destruct o2; try (injection E as <- <-; split; [discriminate|]; intros _ f Ho; apply seqflow_l; [injection Ho as <-; discriminate|eapply Hs; [exact B|exact Ho]]).
    + assert (IS : In SEQ (flows_stmt L s)) by (eapply Hs; [exact B|reflexivity]).
      destruct (Hss _ _ _ E k) as [H1 H2]. split.
      * intros Eo f I. apply seqflow_r; auto.
      * intros No f Ho. apply seqflow_r; auto.
    + injection E as <- <-. split; [discriminate|]. intros _ f Ho. discriminate.
    + injection E as <- <-. split; [discriminate|]. intros _ f Ho. discriminate.
  - intros x st s o f E Ho. injection E as <- <-. discriminate.
  - intros h b Hb hs Hh x st s o f E Ho. rewrite ?ex_h in *. cbn [flows_stmt flows_then flows_handlers] in *. apply in_or_app.
    assert (B : forall st', exec strict n b st' = Some (s, o) -> In f (flows_then L b [SEQ])).
    { intros st' E'. destruct (Hb _ _ _ E' [SEQ]) as [H1 H2]. destruct o; try (apply H2; [discriminate|exact Ho]). apply H1; [reflexivity|]. injection Ho as <-. left; reflexivity. }
    destruct h as [|c|c p].
    + left. eapply B; exact E.
    + destruct (instance L x c); [left; eapply B; exact E|right; eapply Hh; [exact E|exact Ho]].
    + destruct (instance L x c); [left; eapply B; exact E|right; eapply Hh; [exact E|exact Ho]].
Qed.

(** A suite whose breaks and continues are its own does not end in one. *)
Definition inner_only (r : res L) : Prop := forall s o, r = Some (s, o) -> o <> OBreak /\ o <> OContinue.
Lemma while_closed n e b els : (forall s, inner_only (els s)) -> forall s, inner_only (while_ n e b els s).
Proof.
  intros He. induction n as [|n IH]; intros s s' o E; [discriminate|]. cbn [while_] in E.
  destruct (eval L e s) as [[s1 [v|x]]|]; try discriminate.
  2: { injection E as <- <-. split; discriminate. }
  destruct (truth L v); [|eapply He; exact E].
  destruct (b s1) as [[s2 o2]|]; [|discriminate].
  destruct o2; cbn [after_body] in E; try (eapply IH; exact E); injection E as <- <-; split; discriminate.
Qed.
Lemma for_closed k n p it b els : (forall s, inner_only (els s)) -> forall s, inner_only (for_ k n p it b els s).
Proof.
  intros He. induction n as [|n IH]; intros s s' o E; [discriminate|]. cbn [for_] in E.
  destruct (next L it s) as [[s1 [v|x]]|]; try discriminate.
  2: { destruct (instance L x (stop L)); [eapply He; exact E|]. injection E as <- <-. split; discriminate. }
  destruct (assign L p v s1) as [[s2 [x|]]|]; try discriminate.
  { injection E as <- <-. cbn [leaves]. destruct (k && instance L x (stop L)); split; discriminate. }
  destruct (b s2) as [[s3 o2]|]; [|discriminate].
  destruct o2; cbn [after_body leaves] in E; try (eapply IH; exact E); try (injection E as <- <-; split; discriminate).
  destruct (k && instance L x (stop L)); injection E as <- <-; split; discriminate.
Qed.
Lemma closed_sound k n :
  (forall s, closed_stmt s = true -> forall st, inner_only (exec_stmt (L:=L) k n s st)) /\
  (forall ss, closed ss = true -> forall st, inner_only (exec (L:=L) k n ss st)) /\
  (forall hs, closed_handlers hs = true -> forall x st, inner_only (exec_handlers (L:=L) k n hs x st)).
Proof.
  apply (source_ind L
    (fun s => closed_stmt s = true -> forall st, inner_only (exec_stmt k n s st))
    (fun ss => closed ss = true -> forall st, inner_only (exec k n ss st))
    (fun hs => closed_handlers hs = true -> forall x st, inner_only (exec_handlers k n hs x st))).
  - intros e _ st s o E. cbn in E. destruct (eval L e st) as [[s1 [v|x]]|]; try discriminate; injection E as <- <-; split; discriminate.
  - intros e _ st s o E. cbn in E. destruct (eval L e st) as [[s1 [v|x]]|]; try discriminate; injection E as <- <-; split; discriminate.
  - intros [e|] _ st s o E; cbn in E; [destruct (eval L e st) as [[s1 [v|x]]|]; try discriminate|]; injection E as <- <-; split; discriminate.
  - discriminate.
  - discriminate.
  - intros e b Hb els He C st s o E. apply andb_true_iff in C as [C1 C2]. rewrite ex_if in E.
    destruct (eval L e st) as [[s1 [v|x]]|]; try discriminate.
    + destruct (truth L v); [eapply Hb|eapply He]; eassumption.
    + injection E as <- <-; split; discriminate.
  - intros e b Hb els He C st. rewrite ex_while. apply while_closed. intros s. apply He. exact C.
  - intros p e b Hb els He C st s o E. rewrite ex_for in E. destruct (eval L e st) as [[s1 [v|x]]|]; try discriminate.
    + eapply for_closed; [intros s2; apply He; exact C|exact E].
    + injection E as <- <-; split; discriminate.
  - intros b Hb hs Hh els He fin Hf C st s o E. rewrite ex_try in E.
    change (closed b && closed_handlers hs && closed els && closed fin = true) in C.
    apply andb_true_iff in C as [C C4]. apply andb_true_iff in C as [C C3]. apply andb_true_iff in C as [C1 C2].
    assert (I : inner_only (protected (exec k n b st) (exec k n els) (exec_handlers k n hs))).
    { intros s1 o1 E1. unfold protected in E1. specialize (Hb C1 st). destruct (exec k n b st) as [[s2 o2]|]; [|discriminate].
      destruct o2; try (eapply He; [exact C3|exact E1]); try (eapply Hh; [exact C2|exact E1]);
      injection E1 as <- <-; eapply Hb; reflexivity. }
    unfold finally_ in E. destruct (protected (exec k n b st) (exec k n els) (exec_handlers k n hs)) as [[s1 o1]|]; [|discriminate].
    specialize (I _ _ eq_refl). specialize (Hf C4 s1). destruct (exec k n fin s1) as [[s2 o2]|].
    + specialize (Hf _ _ eq_refl). destruct o1, o2; injection E as <- <-; auto; split; discriminate.
    + destruct o1; try discriminate E. injection E as <- <-. auto.
  - intros _ st s o E. injection E as <- <-. split; discriminate.
  - intros s Hs ss Hss C st s1 o E. apply andb_true_iff in C as [C1 C2]. rewrite ex_cons in E.
    specialize (Hs C1 st). destruct (exec_stmt k n s st) as [[s2 o2]|]; [|discriminate].
    specialize (Hs _ _ eq_refl). destruct o2; try (eapply Hss; eassumption); injection E as <- <-; auto.
  - intros _ x st s o E. injection E as <- <-. split; discriminate.
  - intros h b Hb hs Hh C x st s o E. apply andb_true_iff in C as [C1 C2]. rewrite ex_h in E.
    destruct h as [|c|c p]; [eapply Hb; eassumption| |]; (destruct (instance L x c); [eapply Hb|eapply Hh]; eassumption).
Qed.

(** ** The stack. *)
Fixpoint fits (m : list mark) (h : stack) : Prop :=
  match m with
  | [] => h <> []
  | LOOP :: m => fits m h
  | _ :: m => match h with [] => False | _ :: h => fits m h end
  end.
Definition below (c : nat) (h : stack) : Prop := Forall (fun e => fst e < c) h.
Lemma below_le c c' h : c <= c' -> below c h -> below c' h.
Proof. intros Hc. apply Forall_impl. intros a. lia. Qed.

Definition top (x : xexc L) (h : stack) : stack := match h with [] => [] | (id, _) :: h => (id, Some x) :: h end.
Inductive kind := KB | KC | KR (v : val L).
Definition kexn (k : kind) : xexc L := match k with KB => XBrk | KC => XCnt | KR v => XRet v end.
Definition kout (k : kind) : tout L := match k with KB => TBroke | KC => TContinued | KR v => TReturned v end.
Fixpoint unw (m : list mark) (k : kind) (h : stack) : tout L * stack :=
  match m with
  | DROP :: m => unw m k (tl h)
  | FINAL :: _ => (TRaised, top (kexn k) h)
  | LOOP :: m => match k with KR _ => unw m k h | _ => (kout k, h) end
  | [] => (kout k, h)
  end.
Lemma fits_ne m h : fits m h -> h <> [].
Proof. revert h. induction m as [|[] m IH]; intros h F; cbn in F; auto; destruct h; try tauto; discriminate. Qed.
Lemma raise_top x s τ h c : h <> [] -> raise_ L x (Tst s τ h c) = Some (Tst s τ (top x h) c, TRaised).
Proof. intros N. destruct h as [|[id y] h]; [congruence|]. reflexivity. Qed.

Lemma run_app n a b t : run n (tapp L a b) t = match run n a t with Some (t1, TNext) => run n b t1 | r => r end.
Proof.
  revert t. induction a as [|s a IH]; intros t; [reflexivity|]. cbn [tapp M_Control.run].
  change (match run_stmt n s t with Some (t1, TNext) => run n (tapp L a b) t1 | r => r end =
          match (match run_stmt n s t with Some (t1, TNext) => run n a t1 | r => r end) with Some (t1, TNext) => run n b t1 | r => r end).
  destruct (run_stmt n s t) as [[t1 []]|]; auto.
Qed.
Lemma run_cons n s a t : run n (TCons L s a) t = match run_stmt n s t with Some (t1, TNext) => run n a t1 | r => r end.
Proof. reflexivity. Qed.
Lemma run_one n s t : run n (one L s) t = run_stmt n s t.
Proof. unfold one. rewrite run_cons. destruct (run_stmt n s t) as [[t1 []]|]; reflexivity. Qed.

Lemma run_ce n e b els t : run_stmt n (TIf L (CE L e) b els) t =
  with_val L (eval L e (st L t)) t (fun v t => if truth L v then run n b t else run n els t).
Proof. reflexivity. Qed.
Lemma run_push n b els t : run_stmt n (TIf L (CPush L) b els) t = push_ L (run n b) (run n els) t.
Proof. reflexivity. Qed.
Lemma run_true n b els t : run_stmt n (TIf L (CTrue L) b els) t = run n b t.
Proof. reflexivity. Qed.
Lemma run_inst n i c b els t : run_stmt n (TIf L (CInst L i c) b els) t =
  match exc_of L (tmp L t i) with
  | Some x => if xinstance L ctrl_instance x c then run n b t else run n els t
  | None => Some (t, TStuck)
  end.
Proof. reflexivity. Qed.
Lemma run_while n b t : run_stmt n (TWhile L b) t = twhile L n (run n b) t.
Proof. reflexivity. Qed.

(** Leaving: [e] has the value v and no effect. *)
Definition leaves_as (t : tst L) (l : leave L) (k : kind) : Prop :=
  match l, k with
  | LBreak _, KB | LContinue _, KC => True
  | LReturn _ e, KR v => forall h f, with_texpr L e (set_stk L h t) f = f v (set_stk L h t)
  | _, _ => False
  end.
Lemma exit_ok n l k s τ c h0 : leaves_as (Tst s τ h0 c) l k -> forall m h, fits m h ->
  run n (exit_context L m l) (Tst s τ h c) = Some (Tst s τ (snd (unw m k h)) c, fst (unw m k h)).
Proof.
  intros V. assert (S1 : forall h, run_stmt n (leave_stmt L l) (Tst s τ h c) = Some (Tst s τ h c, kout k)).
  { intros h. destruct l, k; try contradiction V; try reflexivity. cbn [leave_stmt M_Control.run_stmt]. specialize (V h). cbn in V. unfold set_stk in V. cbn in V. rewrite V. reflexivity. }
  assert (S2 : forall h, h <> [] -> run_stmt n (leave_exn L l) (Tst s τ h c) = Some (Tst s τ (top (kexn k) h) c, TRaised)).
  { intros h N. destruct l, k; try contradiction V; cbn [leave_exn M_Control.run_stmt]; try (rewrite raise_top by exact N; reflexivity).
    specialize (V h). unfold set_stk in V. cbn in V. rewrite V. rewrite raise_top by exact N. reflexivity. }
  induction m as [|[] m IH]; intros h F.
  - cbn [exit_context]. rewrite run_one, S1. reflexivity.
  - cbn [exit_context]. rewrite run_cons. cbn [fits] in F. destruct h as [|e h]; [contradiction|].
    cbn [M_Control.run_stmt stk]. unfold set_stk. cbn [stk st tmp ctr]. rewrite IH by exact F. reflexivity.
  - cbn [exit_context unw]. destruct l, k; try contradiction V; try (rewrite run_one; cbn [fits] in F; rewrite S1; reflexivity).
    apply IH. exact F.
  - cbn [exit_context unw]. rewrite run_one, S2; [reflexivity|]. eapply fits_ne; exact F.
Qed.

(** ** The simulation. *)
Definition after (m : list mark) (o : out L) (h : stack) : tout L * stack :=
  match o with
  | ONext => (TNext, h)
  | OBreak => unw m KB h
  | OContinue => unw m KC h
  | OReturn v => unw m (KR v) h
  | ORaise x => (TRaised, top (User x) h)
  | OStray => (TStuck, h)
  end.
Definition same (k k' : nat) (τ τ' : nat -> tv L) : Prop := forall i, i < k \/ k' <= i -> τ' i = τ i.
Definition sim (m : list mark) (k k' : nat) (τ : nat -> tv L) (h : stack) (c : nat) (r : res L) (tr : tres L) : Prop :=
  match r with
  | None => tr = None
  | Some (_, OStray) => True
  | Some (s, o) => exists τ' c', tr = Some (Tst s τ' (snd (after m o h)) c', fst (after m o h)) /\ c <= c' /\ same k k' τ τ'
  end.
Lemma same_refl k k' τ : same k k' τ τ. Proof. intros i _. reflexivity. Qed.
Lemma same_trans k k' τ τ1 τ2 : same k k' τ τ1 -> same k k' τ1 τ2 -> same k k' τ τ2.
Proof. intros A B i I. rewrite B, A; auto. Qed.
Lemma same_widen k k' j j' τ τ' : j <= k -> k' <= j' -> same k k' τ τ' -> same j j' τ τ'.
Proof. intros A B S i I. apply S. lia. Qed.
Lemma sim_intro m k k' τ h c s o tr τ' c' : tr = Some (Tst s τ' (snd (after m o h)) c', fst (after m o h)) -> c <= c' -> same k k' τ τ' ->
  sim m k k' τ h c (Some (s, o)) tr.
Proof. intros E H S. unfold sim. destruct o; try (exists τ', c'; auto). exact I. Qed.
Lemma sim_elim m k k' τ h c s o tr : o <> OStray -> sim m k k' τ h c (Some (s, o)) tr ->
  exists τ' c', tr = Some (Tst s τ' (snd (after m o h)) c', fst (after m o h)) /\ c <= c' /\ same k k' τ τ'.
Proof. intros N H. destruct o; try exact H. congruence. Qed.
Lemma sim_start m k k' τ τ1 h c c1 r tr : c <= c1 -> same k k' τ τ1 -> sim m k k' τ1 h c1 r tr -> sim m k k' τ h c r tr.
Proof.
  intros Hc S H. destruct r as [[s o]|]; [|exact H]. destruct o; try exact I;
  destruct H as (τ' & c' & E & Hc' & S'); exists τ', c'; (split; [exact E|split; [lia|eapply same_trans; eassumption]]).
Qed.
Lemma sim_widen m k k' j j' τ h c r tr : j <= k -> k' <= j' -> sim m k k' τ h c r tr -> sim m j j' τ h c r tr.
Proof.
  intros A B H. destruct r as [[s o]|]; [|exact H]. destruct o; try exact I;
  destruct H as (τ' & c' & E & Hc' & S'); exists τ', c'; (split; [exact E|split; [lia|eapply same_widen; eassumption]]).
Qed.
Lemma unw_next m k h : fst (unw m k h) <> TNext.
Proof. revert h. induction m as [|[] m IH]; intros h; cbn [unw]; [destruct k; discriminate|apply IH| |discriminate]. destruct k; [discriminate..|apply IH]. Qed.
Lemma unw_ret m h v : match fst (unw m (KR v) h) with TReturned w => w = v | TRaised => True | _ => False end.
Proof. revert h. induction m as [|[] m IH]; intros h; cbn [unw]; [reflexivity|apply IH|apply IH|exact I]. Qed.
Lemma after_next m o h : o <> ONext -> fst (after m o h) <> TNext.
Proof. intros N. destruct o; try congruence; cbn [after]; try apply unw_next; discriminate. Qed.

Definition rseq (r : res L) (f : ST L -> res L) : res L := match r with Some (s, ONext) => f s | r => r end.
Definition tseq (tr : tres L) (g : tst L -> tres L) : tres L := match tr with Some (t1, TNext) => g t1 | r => r end.
Lemma run_app_seq n a b t : run n (tapp L a b) t = tseq (run n a t) (run n b).
Proof. rewrite run_app. destruct (run n a t) as [[t1 []]|]; reflexivity. Qed.
Lemma run_cons_seq n a b t : run n (TCons L a b) t = tseq (run_stmt n a t) (run n b).
Proof. rewrite run_cons. destruct (run_stmt n a t) as [[t1 []]|]; reflexivity. Qed.
Lemma ex_cons_seq k n s ss st : exec (L:=L) k n (Cons s ss) st = rseq (exec_stmt k n s st) (exec k n ss).
Proof. rewrite ex_cons. destruct (exec_stmt k n s st) as [[t1 []]|]; reflexivity. Qed.
Lemma sim_seq m k k1 k2 τ h c r1 tr1 f g : k <= k1 -> k1 <= k2 ->
  sim m k k1 τ h c r1 tr1 ->
  (forall s τ1 c1, c <= c1 -> same k k1 τ τ1 -> sim m k1 k2 τ1 h c1 (f s) (g (Tst s τ1 h c1))) ->
  sim m k k2 τ h c (rseq r1 f) (tseq tr1 g).
Proof.
  unfold rseq, tseq. intros K1 K2 H G. destruct r1 as [[s o]|]; [|cbn in H; subst tr1; reflexivity].
  destruct o; try exact I;
  destruct H as (τ' & c' & -> & Hc' & S').
  - cbn [after fst snd]. eapply sim_start; [exact Hc'| |eapply sim_widen; [ | |eapply G; auto]]; try lia. eapply same_widen; [| |exact S']; lia.
  - pose proof (after_next m OBreak h ltac:(discriminate)) as N. eapply sim_intro; [|exact Hc'|eapply same_widen; [| |exact S']; lia].
    destruct (fst (after m OBreak h)); congruence.
  - pose proof (after_next m OContinue h ltac:(discriminate)) as N. eapply sim_intro; [|exact Hc'|eapply same_widen; [| |exact S']; lia].
    destruct (fst (after m OContinue h)); congruence.
  - pose proof (after_next m (OReturn v) h ltac:(discriminate)) as N. eapply sim_intro; [|exact Hc'|eapply same_widen; [| |exact S']; lia].
    destruct (fst (after m (OReturn v) h)); congruence.
  - eapply sim_intro; [reflexivity|exact Hc'|eapply same_widen; [| |exact S']; lia].
Qed.

Lemma with_val_sim m k k' τ h c e s f g : h <> [] ->
  (forall s1 v, eval L e s = Some (s1, inl v) -> sim m k k' τ h c (f s1 v) (g v (Tst s1 τ h c))) ->
  sim m k k' τ h c (match eval L e s with None => None | Some (s1, inl v) => f s1 v | Some (s1, inr x) => Some (s1, ORaise x) end)
    (with_val L (eval L e s) (Tst s τ h c) g).
Proof.
  intros N G. unfold with_val. destruct (eval L e s) as [[s1 [v|x]]|].
  - unfold set_st. cbn [st tmp stk ctr]. apply G. reflexivity.
  - unfold set_st. cbn [st tmp stk ctr]. rewrite raise_top by exact N. eapply sim_intro; [reflexivity|lia|apply same_refl].
  - reflexivity.
Qed.

Variable n : nat.
(** A normalized suite [s'] is right for its meaning [f]. *)
Definition right (m : list mark) (k k' : nat) (f : ST L -> res L) (s' : tsuite L) : Prop :=
  k <= k' /\ forall s τ h c, fits m h -> below c h -> sim m k k' τ h c (f s) (run n s' (Tst s τ h c)).

Lemma while_right m k k1 k2 e B E els' b' : right (LOOP :: m) k k1 E els' -> right (LOOP :: m) k1 k2 B b' ->
  (forall s, inner_only (E s)) ->
  forall j s τ h c, fits m h -> below c h ->
  sim m k k2 τ h c (while_ j e B E s) (twhile L j (run n (TCons L (TIf L (CE L e) (one L (TPass L)) (tapp L els' (one L (TBreak L)))) b')) (Tst s τ h c)).
Proof.
  intros [K1 HE] [K2 HB] HI. induction j as [|j IH]; intros s τ h c F Bl; [reflexivity|].
  cbn [while_ twhile]. rewrite run_cons, run_ce. cbn [st]. pose proof (fits_ne _ _ F) as NE.
  unfold with_val. destruct (eval L e s) as [[s1 [v|x]]|].
  - unfold set_st. cbn [st tmp stk ctr]. destruct (truth L v).
    + rewrite run_one. change (run_stmt n (TPass L) (Tst s1 τ h c)) with (Some (Tst s1 τ h c, @TNext L)). cbv iota beta.
      specialize (HB s1 τ h c F Bl). destruct (B s1) as [[s2 o]|]; [|cbn in HB; rewrite HB; reflexivity].
      destruct o; try exact I; destruct HB as (τ' & c' & -> & Hc & S); cbn [after after_body unw kout fst snd].
      * eapply sim_start; [exact Hc|eapply same_widen; [| |exact S]; lia|]. apply IH; [exact F|eapply below_le; eassumption].
      * eapply sim_intro; [reflexivity|exact Hc|eapply same_widen; [| |exact S]; lia].
      * eapply sim_start; [exact Hc|eapply same_widen; [| |exact S]; lia|]. apply IH; [exact F|eapply below_le; eassumption].
      * pose proof (unw_ret m h v0) as U. eapply sim_intro; [|exact Hc|eapply same_widen; [| |exact S]; lia].
        cbn [after]. destruct (fst (unw m (KR v0) h)); try contradiction U; reflexivity.
      * eapply sim_intro; [reflexivity|exact Hc|eapply same_widen; [| |exact S]; lia].
    + rewrite run_app. specialize (HE s1 τ h c F Bl). specialize (HI s1). destruct (E s1) as [[s2 o]|]; [|cbn in HE; rewrite HE; reflexivity].
      specialize (HI _ _ eq_refl) as [NB NC].
      destruct o; try congruence; try exact I; destruct HE as (τ' & c' & -> & Hc & S); cbn [after unw kout fst snd].
      * rewrite run_one. cbn [M_Control.run_stmt]. eapply sim_intro; [reflexivity|exact Hc|eapply same_widen; [| |exact S]; lia].
      * pose proof (unw_ret m h v0) as U. eapply sim_intro; [|exact Hc|eapply same_widen; [| |exact S]; lia].
        cbn [after]. destruct (fst (unw m (KR v0) h)); try contradiction U; reflexivity.
      * eapply sim_intro; [reflexivity|exact Hc|eapply same_widen; [| |exact S]; lia].
  - unfold set_st. cbn [st tmp stk ctr]. rewrite raise_top by exact NE. eapply sim_intro; [reflexivity|lia|apply same_refl].
  - reflexivity.
Qed.

(** ** Jump buffers. *)
Definition catch (id : nat) (g : tst L -> tres L) (tr : tres L) : tres L :=
  match tr with
  | Some (t1, TRaised) =>
      match stk L t1 with
      | (id', _) :: _ => if id' =? id then g t1 else Some (t1, TRaised)
      | [] => Some (t1, TStuck)
      end
  | r => r
  end.
Lemma push_catch b e s τ h c : push_ L b e (Tst s τ h c) = catch c e (b (Tst s τ ((c, None) :: h) (S c))).
Proof. unfold push_, catch. cbn [st tmp stk ctr]. destruct (b (Tst s τ ((c, None) :: h) (S c))) as [[t1 []]|]; reflexivity. Qed.
Lemma top_below x c h : h <> [] -> below c h -> exists id y r, top x h = (id, y) :: r /\ id < c.
Proof. intros N B. destruct h as [|[id y] h]; [congruence|]. inversion B; subst. cbn. eauto. Qed.
Lemma unw_below m k c h : fits m h -> below c h -> fst (unw m k h) = TRaised -> exists id y r, snd (unw m k h) = (id, y) :: r /\ id < c.
Proof.
  revert h. induction m as [|[] m IH]; intros h F B E; cbn [unw] in *.
  - destruct k; discriminate.
  - cbn [fits] in F. destruct h as [|e h]; [contradiction|]. cbn [tl] in *. inversion B; subst. apply IH; auto.
  - destruct k; [discriminate..|]. apply IH; auto.
  - cbn [snd]. apply top_below; [eapply fits_ne; exact F|exact B].
Qed.
Lemma after_below m o c h : fits m h -> below c h -> fst (after m o h) = TRaised -> exists id y r, snd (after m o h) = (id, y) :: r /\ id < c.
Proof.
  intros F B E. destruct o; cbn [after] in *; try discriminate; try (apply unw_below; assumption).
  cbn [snd]. apply top_below; [eapply fits_ne; exact F|exact B].
Qed.
(** An exception that is for an outer buffer passes. *)
Lemma catch_pass id g m k k' τ h c r tr : fits m h -> below id h -> sim m k k' τ h c r tr -> sim m k k' τ h c r (catch id g tr).
Proof.
  intros F B H. destruct r as [[s o]|]; [|cbn in *; subst; reflexivity].
  destruct (match o with OStray => true | _ => false end) eqn:EO; [destruct o; try discriminate; exact I|].
  assert (NO : o <> OStray) by (intro; subst; discriminate).
  apply sim_elim in H; [|exact NO]. destruct H as (τ' & c' & -> & Hc & S).
  eapply sim_intro; [|exact Hc|exact S]. unfold catch. destruct (fst (after m o h)) eqn:E; try reflexivity.
  destruct (after_below _ _ _ _ F B E) as (i & y & rest & Q & Lt). cbn [stk]. rewrite Q.
  destruct (Nat.eqb_spec i id); [lia|]. reflexivity.
Qed.

Definition hright (m : list mark) (x k k' : nat) (f : exc L -> ST L -> res L) (s' : tsuite L) : Prop :=
  k <= k' /\ forall e s τ h c, fits m h -> below c h -> τ x = TExc L (User e) -> sim m k k' τ h c (f e s) (run n s' (Tst s τ h c)).

Lemma set_same i v k k' τ : k <= i < k' -> same k k' τ (fun j => if j =? i then v else τ j).
Proof. intros I j J. destruct (Nat.eqb_spec j i); [lia|reflexivity]. Qed.

Lemma nohandler_right m k k1 k2 B E b' e' : right m k k1 B b' -> right m k1 k2 E e' ->
  right m k k2 (fun s => protected (B s) E (fun x s => Some (s, ORaise x))) (tapp L b' e').
Proof.
  intros [K1 HB] [K2 HE]. split; [lia|]. intros s τ h c F Bl. rewrite run_app_seq.
  assert (Q : protected (B s) E (fun x s => Some (s, ORaise x)) = rseq (B s) E).
  { destruct (B s) as [[s1 []]|]; reflexivity. }
  rewrite Q. eapply sim_seq; [exact K1|exact K2|apply HB; assumption|].
  intros s1 τ1 c1 Hc S. apply HE; [exact F|eapply below_le; eassumption].
Qed.
Lemma try_right m k k1 k2 k3 B E H b' e' h' : right (DROP :: m) k k1 B b' -> right m k1 k2 E e' -> hright m k2 (S k2) k3 H h' ->
  right m k k3 (fun s => protected (B s) E H) (one L (TIf L (CPush L) (tapp L b' (TCons L (TDrop L) e')) (TCons L (TPop L k2) h'))).
Proof.
  intros [K1 HB] [K2 HE] [K3 HH]. split; [lia|]. intros s τ h c F Bl. rewrite run_one, run_push, push_catch, run_app.
  assert (F1 : fits (DROP :: m) ((c, None) :: h)) by exact F.
  assert (B1 : below (S c) ((c, None) :: h)). { constructor; [cbn; lia|]. eapply below_le; [|exact Bl]. lia. }
  specialize (HB s τ _ _ F1 B1). destruct (B s) as [[s1 o]|]; [|cbn in HB; rewrite HB; reflexivity].
  destruct o; try exact I; destruct HB as (τ' & c' & -> & Hc & S); cbn [protected].
  - cbn [after fst snd]. rewrite run_cons. cbn [M_Control.run_stmt stk]. unfold set_stk. cbn [st tmp stk ctr].
    apply catch_pass; [exact F|exact Bl|]. eapply sim_start with (c1 := c'); [lia|eapply same_widen; [| |exact S]; lia|].
    eapply sim_widen; [| |apply HE; [exact F|eapply below_le; [|exact Bl]; lia]]; lia.
  - change (after (DROP :: m) OBreak ((c, None) :: h)) with (after m OBreak h).
    pose proof (after_next m OBreak h ltac:(discriminate)) as N.
    assert (Q : forall X Y : tres L, match fst (after m OBreak h) with TNext => X | _ => Y end = Y) by (intros; destruct (fst (after m OBreak h)); congruence).
    apply catch_pass; [exact F|exact Bl|]. eapply sim_intro with (c' := c') (τ' := τ'); [|lia|eapply same_widen; [| |exact S]; lia].
    destruct (fst (after m OBreak h)); congruence.
  - change (after (DROP :: m) OContinue ((c, None) :: h)) with (after m OContinue h).
    pose proof (after_next m OContinue h ltac:(discriminate)) as N.
    apply catch_pass; [exact F|exact Bl|]. eapply sim_intro with (c' := c') (τ' := τ'); [|lia|eapply same_widen; [| |exact S]; lia].
    destruct (fst (after m OContinue h)); congruence.
  - change (after (DROP :: m) (OReturn v) ((c, None) :: h)) with (after m (OReturn v) h).
    pose proof (after_next m (OReturn v) h ltac:(discriminate)) as N.
    apply catch_pass; [exact F|exact Bl|]. eapply sim_intro with (c' := c') (τ' := τ'); [|lia|eapply same_widen; [| |exact S]; lia].
    destruct (fst (after m (OReturn v) h)); congruence.
  - cbn [after fst snd top]. unfold catch. cbn [stk]. rewrite Nat.eqb_refl, run_cons. cbn [M_Control.run_stmt stk].
    unfold set_tmp, set_stk. cbn [st tmp stk ctr].
    eapply sim_start with (c1 := c') (τ1 := fun j => if j =? k2 then TExc L (User x) else τ' j); [lia| |eapply sim_widen; [| |apply HH; [exact F|eapply below_le; [|exact Bl]; lia|]]]; try lia.
    + eapply same_trans; [eapply same_widen; [| |exact S]; lia|]. apply set_same. lia.
    + rewrite Nat.eqb_refl. reflexivity.
Qed.

(** ** for loops. *)
Definition get_ (p : pat L) (i v : nat) : tsuite L :=
  if pvar p then one L (TAssignNext L p i) else TCons L (TSetNext L v i) (one L (TAssignTmp L p v)).
Definition got (p : pat L) (v : nat) (w : val L) (τ : nat -> tv L) : nat -> tv L :=
  if pvar p then τ else fun j => if j =? v then TVal L w else τ j.
Lemma run_get p i v it s τ h c : τ i = TVal L it -> h <> [] ->
  run n (get_ p i v) (Tst s τ h c) =
  match next L it s with
  | None => None
  | Some (s1, inr x) => Some (Tst s1 τ (top (User x) h) c, TRaised)
  | Some (s1, inl w) =>
      match assign L p w s1 with
      | None => None
      | Some (s2, None) => Some (Tst s2 (got p v w τ) h c, TNext)
      | Some (s2, Some x) => Some (Tst s2 (got p v w τ) (top (User x) h) c, TRaised)
      end
  end.
Proof.
  intros T N. unfold get_, got. destruct (pvar p).
  - rewrite run_one. cbn [M_Control.run_stmt]. unfold next_tmp. cbn [tmp st]. rewrite T. unfold with_val.
    destruct (next L it s) as [[s1 [w|x]]|]; [| |reflexivity]; unfold set_st; cbn [st tmp stk ctr].
    + unfold assign_. cbn [st]. destruct (assign L p w s1) as [[s2 [x|]]|]; [| |reflexivity]; unfold set_st; cbn [st tmp stk ctr]; [|reflexivity].
      apply raise_top; exact N.
    + apply raise_top; exact N.
  - rewrite run_cons. cbn [M_Control.run_stmt]. unfold next_tmp. cbn [tmp st]. rewrite T. unfold with_val.
    destruct (next L it s) as [[s1 [w|x]]|]; [| |reflexivity]; unfold set_st; cbn [st tmp stk ctr].
    + rewrite run_one. unfold set_tmp. cbn [M_Control.run_stmt st tmp stk ctr]. rewrite Nat.eqb_refl. unfold assign_. cbn [st].
      destruct (assign L p w s1) as [[s2 [x|]]|]; [| |reflexivity]; unfold set_st; cbn [st tmp stk ctr]; [|reflexivity].
      apply raise_top; exact N.
    + rewrite raise_top by exact N. reflexivity.
Qed.
Definition for_handler (x : nat) (els' : tsuite L) : tsuite L :=
  TCons L (TPop L x) (one L (TIf L (CInst L x (UserC L (stop L))) els' (one L (TRaiseTmp L x)))).
Lemma for_handler_ok m k x k2 E els' s τ h c e c0 : right m (S x) k2 E els' -> k <= x -> fits m h -> below c0 h -> c0 <= c ->
  sim m k k2 τ h c0 (if instance L e (stop L) then E s else Some (s, ORaise e)) (run n (for_handler x els') (Tst s τ ((c0, Some (User e)) :: h) c)).
Proof.
  intros [K HE] Kx F B C. unfold for_handler. rewrite run_cons. cbn [M_Control.run_stmt stk].
  unfold set_tmp, set_stk. cbn [st tmp stk ctr]. rewrite run_one, run_inst. cbn [tmp exc_of]. rewrite Nat.eqb_refl. cbn [exc_of xinstance flow_of].
  set (τ1 := fun j => if j =? x then TExc L (User e) else τ j).
  assert (S : same k k2 τ τ1) by (apply set_same; lia).
  destruct (instance L e (stop L)).
  - eapply sim_start; [exact C|exact S|]. eapply sim_widen; [| |apply HE; [exact F|eapply below_le; [exact C|exact B]]]; lia.
  - rewrite run_one. cbn [M_Control.run_stmt tmp]. unfold τ1 at 1. rewrite Nat.eqb_refl. cbn [exc_of].
    rewrite raise_top by (eapply fits_ne; exact F). eapply sim_intro; [reflexivity|exact C|exact S].
Qed.

Lemma for_right m k k1 k2 p it B E b' els' c h : right (LOOP :: DROP :: m) (S (S k)) k1 B b' -> right m (S k1) k2 E els' ->
  fits m h -> below c h ->
  forall j s τ c1, S c <= c1 -> τ k = TVal L it ->
  sim m k k2 τ h c (for_ true j p it B E s)
    (catch c (run n (for_handler k1 els'))
      (tseq (twhile L j (run n (TCons L (TIf L (CTrue L) (one L (TPass L)) (one L (TBreak L))) (tapp L (get_ p k (S k)) b'))) (Tst s τ ((c, None) :: h) c1))
            (run n (one L (TDrop L))))).
Proof.
  intros [K1 HB] HEE F Bl. pose proof HEE as [K2 HE].
  induction j as [|j IH]; intros s τ c1 C T; [reflexivity|]. cbn [for_ twhile].
  rewrite run_cons, run_true, run_one. change (run_stmt n (TPass L) (Tst s τ ((c, None) :: h) c1)) with (Some (Tst s τ ((c, None) :: h) c1, @TNext L)). cbv iota beta.
  rewrite run_app. rewrite (run_get p k (S k) it) by (exact T || discriminate).
  destruct (next L it s) as [[s1 [w|x]]|]; [| |reflexivity].
  2: { cbn [tseq]. unfold catch. cbn [top stk]. rewrite Nat.eqb_refl. apply for_handler_ok; auto; lia. }
  set (τ1 := got p (S k) w τ). 
  assert (S1 : same k k2 τ τ1). { unfold τ1, got. destruct (pvar p); [apply same_refl|]. apply set_same. lia. }
  assert (T1 : τ1 k = TVal L it). { unfold τ1, got. destruct (pvar p); [exact T|]. destruct (Nat.eqb_spec k (S k)); [lia|exact T]. }
  destruct (assign L p w s1) as [[s2 [x|]]|]; [| |reflexivity].
  { cbn [leaves]. cbn [tseq]. unfold catch. cbn [top stk]. rewrite Nat.eqb_refl. cbn [andb].
    pose proof (for_handler_ok m k k1 k2 E els' s2 τ1 h c1 x c HEE ltac:(lia) F Bl ltac:(lia)) as H.
    destruct (instance L x (stop L)); [exact I|]. eapply sim_start; [apply le_n|exact S1|exact H]. }
  assert (F1 : fits (LOOP :: DROP :: m) ((c, None) :: h)) by exact F.
  assert (B1 : below c1 ((c, None) :: h)). { constructor; [cbn; lia|]. eapply below_le; [|exact Bl]. lia. }
  specialize (HB s2 τ1 _ _ F1 B1). destruct (B s2) as [[s3 o]|]; [|cbn in HB; rewrite HB; reflexivity].
  destruct o; try exact I; destruct HB as (τ2 & c2 & -> & C2 & S2); cbn [leaves after_body];
    (assert (S3 : same k k2 τ τ2) by (eapply same_trans; [exact S1|eapply same_widen; [| |exact S2]; lia]));
    (assert (T2 : τ2 k = TVal L it) by (rewrite S2; [exact T1|lia])).
  - cbn [after fst snd]. eapply sim_start; [apply le_n|exact S3|]. apply IH; [lia|exact T2].
  - cbn [after unw kout fst snd tseq]. rewrite run_one. cbn [M_Control.run_stmt stk]. unfold set_stk. cbn [st tmp stk ctr].
    unfold catch. eapply sim_intro; [reflexivity|lia|exact S3].
  - cbn [after unw kout fst snd]. eapply sim_start; [apply le_n|exact S3|]. apply IH; [lia|exact T2].
  - change (after (LOOP :: DROP :: m) (OReturn v) ((c, None) :: h)) with (after m (OReturn v) h).
    apply catch_pass; [exact F|exact Bl|]. eapply sim_intro with (c' := c2) (τ' := τ2); [|lia|exact S3].
    pose proof (unw_ret m h v) as U. cbn [after]. destruct (fst (unw m (KR v) h)); try contradiction U; reflexivity.
  - cbn [after fst snd top tseq]. unfold catch. cbn [stk]. rewrite Nat.eqb_refl. cbn [andb].
    pose proof (for_handler_ok m k k1 k2 E els' s3 τ2 h c2 x c HEE ltac:(lia) F Bl ltac:(lia)) as H.
    destruct (instance L x (stop L)); [exact I|]. eapply sim_start; [apply le_n|exact S3|exact H].
Qed.

(** ** finally. *)
Definition xof (o : out L) : xexc L :=
  match o with ONext | OStray => XSeq | OBreak => XBrk | OContinue => XCnt | OReturn v => XRet v | ORaise x => User x end.
Lemma xinst_flow x g : xinstance L ctrl_instance x (FlowC L g) = match flow_of L x with Some f => flow_eqb g f | None => false end.
Proof. destruct x; reflexivity. Qed.
Lemma exit_ne m l : exit_context L m l <> TNil L.
Proof. induction m as [|[] m IH]; cbn; try discriminate. destruct l; try discriminate. exact IH. Qed.
Lemma invalid_brk m h : valid_relay L (exit_context L m (LBreak L)) = false -> unw m KB h = (TRaised, top XBrk h).
Proof.
  destruct m as [|[] m]; cbn; try discriminate; [|reflexivity]. pose proof (exit_ne m (LBreak L)) as N.
  destruct (exit_context L m (LBreak L)) as [|t [|u r]]; [congruence|discriminate|discriminate].
Qed.
Lemma invalid_cnt m h : valid_relay L (exit_context L m (LContinue L)) = false -> unw m KC h = (TRaised, top XCnt h).
Proof.
  destruct m as [|[] m]; cbn; try discriminate; [|reflexivity]. pose proof (exit_ne m (LContinue L)) as N.
  destruct (exit_context L m (LContinue L)) as [|t [|u r]]; [congruence|discriminate|discriminate].
Qed.
Lemma invalid_ret m h x v : valid_relay L (TCons L (TDowncast L x) (exit_context L m (LReturn L (TRetVal L x)))) = false -> unw m (KR v) h = (TRaised, top (XRet v) h).
Proof.
  induction m as [|[] m IH]; cbn [exit_context unw]; intros V; try discriminate V; [|apply IH; exact V|reflexivity].
  pose proof (exit_ne m (LReturn L (TRetVal L x))) as N. cbn [valid_relay] in V.
  destruct (exit_context L m (LReturn L (TRetVal L x))) as [|t r]; [congruence|discriminate].
Qed.
Lemma relay_ok m x f o s τ h c : fits m h -> flow_of_out o = Some f -> τ x = TExc L (xof o) ->
  run n (relay L m x f) (Tst s τ h c) = Some (Tst s τ (snd (after m o h)) c, fst (after m o h)).
Proof.
  intros F Ho T. destruct o; try discriminate Ho; injection Ho as <-; cbn [relay after].
  - reflexivity.
  - eapply exit_ok with (h0 := h); [exact I|exact F].
  - eapply exit_ok with (h0 := h); [exact I|exact F].
  - rewrite run_cons. cbn [M_Control.run_stmt tmp]. rewrite T. cbn [xof].
    eapply exit_ok with (h0 := h); [|exact F]. intros h1 g. cbn [with_texpr set_stk tmp]. rewrite T. reflexivity.
Qed.
Lemma relays_ok m x o s τ h c ctrl : o <> OStray -> fits m h -> (forall f, flow_of_out o = Some f -> In f ctrl) -> τ x = TExc L (xof o) ->
  run n (relays L m x ctrl) (Tst s τ h c) = Some (Tst s τ (snd (after m o h)) c, fst (after m o h)).
Proof.
  intros NS F I T. pose proof (fits_ne _ _ F) as NE.
  assert (R : run n (one L (TRaiseTmp L x)) (Tst s τ h c) = Some (Tst s τ (top (xof o) h) c, TRaised)).
  { rewrite run_one. cbn [M_Control.run_stmt tmp]. rewrite T. cbn [exc_of]. apply raise_top. exact NE. }
  assert (FX : flow_of L (xof o) = flow_of_out o) by (destruct o; try reflexivity; congruence).
  assert (G : forall l, run n (relays L m x l) (Tst s τ h c) = Some (Tst s τ (top (xof o) h) c, TRaised) \/
                        run n (relays L m x l) (Tst s τ h c) = Some (Tst s τ (snd (after m o h)) c, fst (after m o h))).
  { induction l as [|g l IH]; [left; exact R|]. cbn [relays fold_right]. fold (relays L m x l).
    destruct (valid_relay L (relay L m x g)); [|exact IH]. rewrite run_one, run_inst. cbn [tmp]. rewrite T. cbn [exc_of].
    rewrite xinst_flow, FX. destruct (flow_of_out o) as [f|] eqn:Ef; [|exact IH].
    destruct (flow_eqb g f) eqn:Eg; [|exact IH]. apply flow_eqb_eq in Eg. subst g. right. apply relay_ok; auto. }
  assert (V : forall f l, flow_of_out o = Some f -> In f l -> valid_relay L (relay L m x f) = true ->
     run n (relays L m x l) (Tst s τ h c) = Some (Tst s τ (snd (after m o h)) c, fst (after m o h))).
  { intros f l Ef. induction l as [|g l IH]; [contradiction|]. intros Il Vf. cbn [relays fold_right]. fold (relays L m x l).
    assert (Dec : g = f \/ g <> f) by (destruct g, f; (left; reflexivity) || (right; discriminate)). destruct Dec as [->|Ng].
    - rewrite Vf, run_one, run_inst. cbn [tmp]. rewrite T. cbn [exc_of]. rewrite xinst_flow, FX, Ef.
      replace (flow_eqb f f) with true by (destruct f; reflexivity). apply relay_ok; auto.
    - destruct Il as [->|Il]; [congruence|]. destruct (valid_relay L (relay L m x g)); [|apply IH; auto].
      rewrite run_one, run_inst. cbn [tmp]. rewrite T. cbn [exc_of]. rewrite xinst_flow, FX, Ef.
      destruct (flow_eqb g f) eqn:Eg; [apply flow_eqb_eq in Eg; congruence|]. apply IH; auto. }
  assert (Bad : Some (Tst s τ (top (xof o) h) c, @TRaised L) = Some (Tst s τ (snd (after m o h)) c, fst (after m o h)) \/
     exists f, flow_of_out o = Some f /\ valid_relay L (relay L m x f) = true).
  { destruct o; try congruence.
    - right. exists SEQ. split; reflexivity.
    - destruct (valid_relay L (relay L m x BRK)) eqn:Vb; [right; exists BRK; auto|left]. cbn [after]. rewrite invalid_brk by exact Vb. reflexivity.
    - destruct (valid_relay L (relay L m x CNT)) eqn:Vb; [right; exists CNT; auto|left]. cbn [after]. rewrite invalid_cnt by exact Vb. reflexivity.
    - destruct (valid_relay L (relay L m x RET)) eqn:Vb; [right; exists RET; auto|left]. cbn [after]. rewrite (invalid_ret m h x v) by exact Vb. reflexivity.
    - left. reflexivity. }
  destruct Bad as [Q|(f & Ef & Vf)].
  - destruct (G ctrl) as [->| ->]; [exact Q|reflexivity].
  - eapply V; eauto.
Qed.
Lemma finally_right m k k1 k2 J Fn ss fin' ctrl : right (FINAL :: m) k k1 J ss -> right m (S k1) k2 Fn fin' ->
  (forall s, flowing ctrl (J s)) ->
  right m k k2 (fun s => finally_ (J s) Fn)
    (one L (TIf L (CPush L) (tapp L ss (if has SEQ ctrl then one L (TRaiseSeq L) else TNil L)) (TCons L (TPop L k1) (tapp L fin' (relays L m k1 ctrl))))).
Proof.
  intros [K1 HJ] [K2 HF] FL. split; [lia|]. intros s τ h c F Bl. rewrite run_one, run_push, push_catch, run_app_seq.
  assert (F1 : fits (FINAL :: m) ((c, None) :: h)) by exact F.
  assert (B1 : below (S c) ((c, None) :: h)). { constructor; [cbn; lia|]. eapply below_le; [|exact Bl]. lia. }
  specialize (HJ s τ _ _ F1 B1). specialize (FL s). destruct (J s) as [[s1 o]|]; [|cbn in HJ; rewrite HJ; reflexivity].
  destruct (match o with OStray => true | _ => false end) eqn:EO; [destruct o; try discriminate; exact I|].
  assert (NO : o <> OStray) by (intro; subst; discriminate). clear EO.
  apply sim_elim in HJ; [|exact NO]. destruct HJ as (τ1 & c1 & -> & C1 & S1).
  (* every way out arrives at the buffer *)
  assert (A : tseq (Some (Tst s1 τ1 (snd (after (FINAL :: m) o ((c, None) :: h))) c1, fst (after (FINAL :: m) o ((c, None) :: h))))
     (run n (if has SEQ ctrl then one L (TRaiseSeq L) else TNil L)) = Some (Tst s1 τ1 ((c, Some (xof o)) :: h) c1, TRaised)).
  { destruct o; try congruence; try reflexivity. cbn [after fst snd tseq xof].
    assert (Q : has SEQ ctrl = true) by (apply has_In; eapply FL; reflexivity). rewrite Q. reflexivity. }
  rewrite A. unfold catch. cbn [stk]. rewrite Nat.eqb_refl, run_cons. cbn [M_Control.run_stmt stk].
  unfold set_tmp, set_stk. cbn [st tmp stk ctr]. rewrite run_app_seq.
  set (τ2 := fun j => if j =? k1 then TExc L (xof o) else τ1 j).
  assert (S2 : same k k2 τ τ2). { eapply same_trans; [eapply same_widen; [| |exact S1]; lia|]. apply set_same. lia. }
  assert (B2 : below c1 h) by (eapply below_le; [|exact Bl]; lia).
  specialize (HF s1 τ2 h c1 F B2).
  assert (FE : finally_ (Some (s1, o)) Fn = match Fn s1 with None => None | Some (s2, ONext) => Some (s2, o) | Some (s2, o') => Some (s2, o') end)
    by (destruct o; try congruence; reflexivity).
  rewrite FE. destruct (Fn s1) as [[s2 o2]|]; [|cbn in HF; rewrite HF; reflexivity].
  destruct (match o2 with OStray => true | _ => false end) eqn:EO; [destruct o2; try discriminate; exact I|].
  assert (NO2 : o2 <> OStray) by (intro; subst; discriminate). clear EO.
  apply sim_elim in HF; [|exact NO2]. destruct HF as (τ3 & c3 & -> & C3 & S3).
  assert (S4 : same k k2 τ τ3) by (eapply same_trans; [exact S2|eapply same_widen; [| |exact S3]; lia]).
  assert (DN : o2 = ONext \/ o2 <> ONext) by (destruct o2; (left; reflexivity) || (right; discriminate)).
  destruct DN as [->|NN].
  - cbn [after fst snd tseq]. rewrite (relays_ok m k1 o) ; [eapply sim_intro; [reflexivity|lia|exact S4]|exact NO|exact F| |].
    + intros f Ef. eapply FL; [reflexivity|exact Ef].
    + rewrite S3 by lia. unfold τ2. rewrite Nat.eqb_refl. reflexivity.
  - pose proof (after_next m o2 h NN) as NX. assert (G : forall X : tres L, X = Some (Tst s2 τ3 (snd (after m o2 h)) c3, fst (after m o2 h)) ->
      sim m k k2 τ h c (Some (s2, o2)) X) by (intros X ->; eapply sim_intro; [reflexivity|lia|exact S4]).
    assert (Q : tseq (Some (Tst s2 τ3 (snd (after m o2 h)) c3, fst (after m o2 h))) (run n (relays L m k1 ctrl)) = Some (Tst s2 τ3 (snd (after m o2 h)) c3, fst (after m o2 h))).
    { unfold tseq. destruct (fst (after m o2 h)); congruence. }
    rewrite Q. destruct o2; try congruence; exact (G _ eq_refl).
Qed.

(** ** The whole pass. *)
Lemma right_ext m k k' f g s' : (forall s, f s = g s) -> right m k k' f s' -> right m k k' g s'.
Proof. intros E [K H]. split; [exact K|]. intros. rewrite <- E. apply H; assumption. Qed.
Lemma pass_right :
  (forall s, tame_stmt s = true -> forall m k s' k', norm_stmt m k s = (s', k') -> right m k k' (exec_stmt true n s) s') /\
  (forall ss, tame ss = true -> forall m k s' k', norm m k ss = (s', k') -> right m k k' (exec true n ss) s') /\
  (forall hs, tame_handlers hs = true -> forall m x k s' k', x < k -> norm_handlers m x k hs = (s', k') -> hright m x k k' (exec_handlers true n hs) s').
Proof.
  apply (source_ind L
    (fun s => tame_stmt s = true -> forall m k s' k', norm_stmt m k s = (s', k') -> right m k k' (exec_stmt true n s) s')
    (fun ss => tame ss = true -> forall m k s' k', norm m k ss = (s', k') -> right m k k' (exec true n ss) s')
    (fun hs => tame_handlers hs = true -> forall m x k s' k', x < k -> norm_handlers m x k hs = (s', k') -> hright m x k k' (exec_handlers true n hs) s')).
  - intros e _ m k s' k' N. injection N as <- <-. split; [lia|]. intros s τ h c F Bl. rewrite run_one. cbn [M_Control.run_stmt st exec_stmt].
    apply (with_val_sim m k k τ h c e s (fun s1 _ => Some (s1, ONext))); [eapply fits_ne; exact F|].
    intros s1 v _. eapply sim_intro; [reflexivity|lia|apply same_refl].
  - intros e _ m k s' k' N. injection N as <- <-. split; [lia|]. intros s τ h c F Bl. rewrite run_one. cbn [M_Control.run_stmt st exec_stmt].
    apply (with_val_sim m k k τ h c e s (fun s1 v => Some (s1, ORaise (as_exc L v)))); [eapply fits_ne; exact F|].
    intros s1 v _. rewrite raise_top by (eapply fits_ne; exact F). eapply sim_intro; [reflexivity|lia|apply same_refl].
  - intros [e|] _ m k s' k' N; cbn [M_Control.norm_stmt] in N.
    + destruct (isval e) eqn:V; injection N as <- <-; (split; [lia|]); intros s τ h c F Bl; cbn [exec_stmt].
      * destruct (isval_pure e s V) as [v Ev]. rewrite Ev. eapply sim_intro; [|apply le_n|apply same_refl].
        eapply exit_ok with (h0 := h) (k := KR v); [|exact F]. intros h1 g. cbn [with_texpr set_stk st]. rewrite Ev. reflexivity.
      * rewrite run_cons. cbn [M_Control.run_stmt st].
        unfold with_val. destruct (eval L e s) as [[s1 [v|x]]|]; [| |reflexivity]; unfold set_st, set_tmp; cbn [st tmp stk ctr].
        -- eapply sim_intro with (τ' := fun j => if j =? k then TVal L v else τ j); [|apply le_n|apply set_same; lia].
           eapply exit_ok with (h0 := h) (k := KR v); [|exact F]. intros h1 g. cbn [with_texpr set_stk tmp]. rewrite Nat.eqb_refl. reflexivity.
        -- rewrite raise_top by (eapply fits_ne; exact F). eapply sim_intro; [reflexivity|lia|apply same_refl].
    + injection N as <- <-. split; [lia|]. intros s τ h c F Bl. cbn [exec_stmt]. eapply sim_intro; [|apply le_n|apply same_refl].
      eapply exit_ok with (h0 := h) (k := KR (none L)); [|exact F]. intros h1 g. reflexivity.
  - intros _ m k s' k' N. injection N as <- <-. split; [lia|]. intros s τ h c F Bl. cbn [exec_stmt]. eapply sim_intro; [|apply le_n|apply same_refl].
    eapply exit_ok with (h0 := h) (k := KB); [exact I|exact F].
  - intros _ m k s' k' N. injection N as <- <-. split; [lia|]. intros s τ h c F Bl. cbn [exec_stmt]. eapply sim_intro; [|apply le_n|apply same_refl].
    eapply exit_ok with (h0 := h) (k := KC); [exact I|exact F].
  - intros e b Hb els He T m k s' k' N. apply andb_true_iff in T as [T1 T2].
    change (norm_stmt m k (If e b els)) with (let '(b', k) := norm m k b in let '(els', k) := norm m k els in (one L (TIf L (CE L e) b' els'), k)) in N.
    destruct (norm m k b) as [b' k1] eqn:N1. destruct (norm m k1 els) as [els' k2] eqn:N2. injection N as <- <-.
    destruct (Hb T1 _ _ _ _ N1) as [K1 H1]. destruct (He T2 _ _ _ _ N2) as [K2 H2]. split; [lia|].
    intros s τ h c F Bl. rewrite run_one, run_ce, ex_if. cbn [st].
    apply (with_val_sim m k k2 τ h c e s (fun s1 v => if truth L v then exec true n b s1 else exec true n els s1)); [eapply fits_ne; exact F|].
    intros s1 v _. destruct (truth L v); [eapply sim_widen; [| |apply H1; assumption]|eapply sim_widen; [| |apply H2; assumption]]; lia.
  - intros e b Hb els He T m k s' k' N. cbn [tame_stmt] in T. change (tame b && tame els && closed els = true) in T.
    apply andb_true_iff in T as [T T3]. apply andb_true_iff in T as [T1 T2].
    change (norm_stmt m k (While e b els)) with (let '(els', k) := norm (LOOP :: m) k els in let '(b', k) := norm (LOOP :: m) k b in
      (one L (TWhile L (TCons L (TIf L (CE L e) (one L (TPass L)) (tapp L els' (one L (TBreak L)))) b')), k)) in N.
    destruct (norm (LOOP :: m) k els) as [els' k1] eqn:N1. destruct (norm (LOOP :: m) k1 b) as [b' k2] eqn:N2. injection N as <- <-.
    pose proof (He T2 _ _ _ _ N1) as H1. pose proof (Hb T1 _ _ _ _ N2) as H2. split; [destruct H1, H2; lia|].
    intros s τ h c F Bl. rewrite run_one, run_while, ex_while. eapply while_right; try eassumption.
    intros s1. apply closed_sound. exact T3.
  - intros p e b Hb els He T m k s' k' N. apply andb_true_iff in T as [T1 T2].
    change (norm_stmt m k (For p e b els)) with (let '(b', k1) := norm (LOOP :: DROP :: m) (S (S k)) b in let '(els', k2) := norm m (S k1) els in
      (TCons L (TSet L k e) (one L (TIf L (CPush L) (TCons L (TWhile L (TCons L (TIf L (CTrue L) (one L (TPass L)) (one L (TBreak L))) (tapp L (get_ p k (S k)) b'))) (one L (TDrop L)))
        (for_handler k1 els'))), k2)) in N.
    destruct (norm (LOOP :: DROP :: m) (S (S k)) b) as [b' k1] eqn:N1. destruct (norm m (S k1) els) as [els' k2] eqn:N2. injection N as <- <-.
    pose proof (Hb T1 _ _ _ _ N1) as H1. pose proof (He T2 _ _ _ _ N2) as H2. pose proof H1 as [K1 _]. pose proof H2 as [K2 _]. split; [lia|].
    intros s τ h c F Bl. rewrite run_cons, ex_for. cbn [M_Control.run_stmt st]. unfold with_val.
    destruct (eval L e s) as [[s1 [it|x]]|]; [| |reflexivity]; unfold set_st, set_tmp; cbn [st tmp stk ctr].
    + rewrite run_one, run_push, push_catch, run_cons_seq, run_while.
      eapply sim_start with (τ1 := fun j => if j =? k then TVal L it else τ j); [apply le_n|apply set_same; lia|].
      apply (for_right m k k1 k2 p it (exec true n b) (exec true n els) b' els' c h H1 H2 F Bl); [apply le_n|].
      rewrite Nat.eqb_refl. reflexivity.
    + rewrite raise_top by (eapply fits_ne; exact F). eapply sim_intro; [reflexivity|lia|apply same_refl].
  - intros b Hb hs Hh els He fin Hf T m k s' k' N.
    change (tame b && tame_handlers hs && tame els && tame fin = true) in T.
    apply andb_true_iff in T as [T T4]. apply andb_true_iff in T as [T T3]. apply andb_true_iff in T as [T1 T2].
    assert (Try0 : forall m k s' k', norm_try L (fun m k => norm m k b) (is_hnil L hs) (fun m x k => norm_handlers m x k hs) (fun m k => norm m k els) m k = (s', k') ->
      right m k k' (fun s => protected (exec true n b s) (exec true n els) (exec_handlers true n hs)) s').
    { clear m k s' k' N. intros m k s' k' N. unfold norm_try in N. destruct (is_hnil L hs) eqn:EH.
      - destruct hs as [|? ? ?]; [|discriminate EH]. destruct (norm m k b) as [b' k1] eqn:N1. destruct (norm m k1 els) as [e' k2] eqn:N2. injection N as <- <-.
        apply (nohandler_right m k k1 k2 (exec true n b) (exec true n els) b' e'); [eapply Hb|eapply He]; eassumption.
      - destruct (norm (DROP :: m) k b) as [b' k1] eqn:N1. destruct (norm m k1 els) as [e' k2] eqn:N2.
        destruct (norm_handlers m k2 (S k2) hs) as [h' k3] eqn:N3. injection N as <- <-.
        apply (try_right m k k1 k2 k3 (exec true n b) (exec true n els) (exec_handlers true n hs)); [eapply Hb|eapply He|eapply Hh]; try eassumption. lia. }
    change (norm_stmt m k (Try b hs els fin)) with
      (if is_nil L fin then norm_try L (fun m k => norm m k b) (is_hnil L hs) (fun m x k => norm_handlers m x k hs) (fun m k => norm m k els) m k
       else let '(ss, k1) := norm_try L (fun m k => norm m k b) (is_hnil L hs) (fun m x k => norm_handlers m x k hs) (fun m k => norm m k els) (FINAL :: m) k in
            let '(fin', k2) := norm m (S k1) fin in
            let ctrl := nub (flows_stmt L (Try b hs els Nil)) in
            let mbseq := if has SEQ ctrl then one L (TRaiseSeq L) else TNil L in
            (one L (TIf L (CPush L) (tapp L ss mbseq) (TCons L (TPop L k1) (tapp L fin' (relays L m k1 ctrl)))), k2)) in N.
    destruct (is_nil L fin) eqn:EF.
    + destruct fin as [|? ?]; [|discriminate EF]. eapply right_ext; [|eapply Try0; exact N]. intros s. rewrite ex_try. cbn beta.
      destruct (protected (exec true n b s) (exec true n els) (exec_handlers true n hs)) as [[s1 []]|]; reflexivity.
    + destruct (norm_try L (fun m k => norm m k b) (is_hnil L hs) (fun m x k => norm_handlers m x k hs) (fun m k => norm m k els) (FINAL :: m) k) as [ss k1] eqn:N1.
      destruct (norm m (S k1) fin) as [fin' k2] eqn:N2. cbn zeta in N. injection N as <- <-.
      eapply right_ext; [intros s; rewrite ex_try; reflexivity|].
      apply (finally_right m k k1 k2 (fun s => protected (exec true n b s) (exec true n els) (exec_handlers true n hs)) (exec true n fin)).
      * apply Try0. exact N1.
      * eapply Hf; eassumption.
      * intros s s1 o f E Ho. apply nub_In. destruct (flows_sound true n) as (FS & _ & _).
        eapply (FS (Try b hs els Nil) s s1 o); [|exact Ho]. rewrite ex_try, E. destruct o; try discriminate Ho; reflexivity.
  - intros _ m k s' k' N. injection N as <- <-. split; [lia|]. intros s τ h c F Bl. eapply sim_intro; [reflexivity|lia|apply same_refl].
  - intros s Hs ss Hss T m k s' k' N. apply andb_true_iff in T as [T1 T2].
    change (norm m k (Cons s ss)) with (let '(s', k) := norm_stmt m k s in let '(ss', k) := norm m k ss in (tapp L s' ss', k)) in N.
    destruct (norm_stmt m k s) as [a k1] eqn:N1. destruct (norm m k1 ss) as [b k2] eqn:N2. injection N as <- <-.
    destruct (Hs T1 _ _ _ _ N1) as [K1 H1]. destruct (Hss T2 _ _ _ _ N2) as [K2 H2]. split; [lia|].
    intros st τ h c F Bl. rewrite run_app_seq, ex_cons_seq. eapply sim_seq; [exact K1|exact K2|apply H1; assumption|].
    intros s1 τ1 c1 C S. apply H2; [exact F|eapply below_le; eassumption].
  - intros _ m x k s' k' Lt N. injection N as <- <-. split; [lia|]. intros e s τ h c F Bl T. rewrite run_one. cbn [M_Control.run_stmt tmp exec_handlers].
    rewrite T. cbn [exc_of]. rewrite raise_top by (eapply fits_ne; exact F). eapply sim_intro; [reflexivity|lia|apply same_refl].
  - intros p b Hb hs Hh T m x k s' k' Lt N. apply andb_true_iff in T as [T1 T2].
    change (norm_handlers m x k (HCons p b hs)) with (let '(b', k) := norm m k b in let '(r, k) := norm_handlers m x k hs in
      (one L (match p with All => TIf L (CTrue L) b' r | Only c => TIf L (CInst L x (UserC L c)) b' r | As c p => TIf L (CInst L x (UserC L c)) (TCons L (TBind L p x) b') r end), k)) in N.
    destruct (norm m k b) as [b' k1] eqn:N1. destruct (norm_handlers m x k1 hs) as [r k2] eqn:N2. injection N as <- <-.
    destruct (Hb T1 _ _ _ _ N1) as [K1 H1]. destruct (Hh T2 m x k1 r k2 ltac:(lia) N2) as [K2 H2]. split; [lia|].
    intros e s τ h c F Bl Tx. rewrite run_one, ex_h. destruct p as [|cl|cl q].
    + rewrite run_true. eapply sim_widen; [| |apply H1; assumption]; lia.
    + rewrite run_inst. cbn [tmp]. rewrite Tx. cbn [exc_of xinstance flow_of]. destruct (instance L e cl).
      * eapply sim_widen; [| |apply H1; assumption]; lia.
      * eapply sim_widen; [| |apply H2; assumption]; lia.
    + rewrite run_inst. cbn [tmp]. rewrite Tx. cbn [exc_of xinstance flow_of]. destruct (instance L e cl).
      * rewrite run_cons. cbn [M_Control.run_stmt tmp]. rewrite Tx. unfold set_st. cbn [st tmp stk ctr].
        eapply sim_widen; [| |apply H1; assumption]; lia.
      * eapply sim_widen; [| |apply H2; assumption]; lia.
Qed.

(** ** A function body. *)
Scheme tstmt_mind := Induction for tstmt Sort Prop with tsuite_mind := Induction for tsuite Sort Prop.
Combined Scheme target_ind from tstmt_mind, tsuite_mind.
Lemma has_app f a b : has f (a ++ b) = has f a || has f b.
Proof. apply existsb_app. Qed.
Lemma tflows_sound :
  (forall s t t', run_stmt n s t = Some (t', TNext) -> has SEQ (tflows_stmt L s) = true) /\
  (forall ss t t', run n ss t = Some (t', TNext) -> has SEQ (tflows L ss) = true).
Proof.
  assert (R : forall x t t', raise_ L x t <> Some (t', TNext)).
  { intros x t t' E. unfold raise_ in E. destruct (stk L t) as [|[? ?] ?]; discriminate E. }
  assert (V : forall r t t' f, (forall v t, f v t <> Some (t', TNext)) -> with_val L r t f <> Some (t', TNext)).
  { intros r t t' f F E. unfold with_val in E. destruct r as [[s1 [v|x]]|]; [exact (F _ _ E)|exact (R _ _ _ E)|discriminate E]. }
  assert (X : forall e t t' f, (forall v t, f v t <> Some (t', TNext)) -> with_texpr L e t f <> Some (t', TNext)).
  { intros e t t' f F E. unfold with_texpr in E. destruct e as [e|i|i|]; [exact (V _ _ _ _ F E)| | |exact (F _ _ E)].
    - destruct (tmp L t i); try discriminate E. exact (F _ _ E).
    - destruct (tmp L t i) as [|[]|]; try discriminate E. exact (F _ _ E). }
  apply (target_ind L
    (fun s => forall t t', run_stmt n s t = Some (t', TNext) -> has SEQ (tflows_stmt L s) = true)
    (fun ss => forall t t', run n ss t = Some (t', TNext) -> has SEQ (tflows L ss) = true)); try (intros; reflexivity).
  - intros e t t' E. exfalso. refine (V _ _ _ _ _ E). intros. apply R.
  - intros i t t' E. exfalso. cbn [M_Control.run_stmt] in E. destruct (exc_of L (tmp L t i)); [exact (R _ _ _ E)|discriminate E].
  - intros t t' E. exfalso. exact (R _ _ _ E).
  - intros t t' E. exfalso. exact (R _ _ _ E).
  - intros t t' E. exfalso. exact (R _ _ _ E).
  - intros e t t' E. exfalso. refine (X _ _ _ _ _ E). intros. apply R.
  - intros e t t' E. exfalso. refine (X _ _ _ _ _ E). intros v t1 Q. discriminate Q.
  - intros t t' E. discriminate E.
  - intros t t' E. discriminate E.
  - intros c b Hb els He t t' E. change (has SEQ (tflows L b ++ tflows L els) = true). rewrite has_app, orb_true_iff. destruct c as [|e| |i c].
    + rewrite run_push in E. unfold push_ in E. destruct (run n b _) as [[t1 o]|] eqn:E1; [|discriminate E].
      destruct o; try discriminate E; [left; eapply Hb; exact E1|].
      destruct (stk L t1) as [|[id' y] h]; [discriminate E|]. destruct (id' =? ctr L t); [|discriminate E]. right. eapply He; exact E.
    + rewrite run_ce in E. unfold with_val in E. destruct (eval L e (st L t)) as [[s1 [v|x]]|]; [|exfalso; exact (R _ _ _ E)|discriminate E].
      destruct (truth L v); [left; eapply Hb|right; eapply He]; exact E.
    + rewrite run_true in E. left. eapply Hb; exact E.
    + rewrite run_inst in E. destruct (exc_of L (tmp L t i)) as [x|]; [|discriminate E].
      destruct (xinstance L ctrl_instance x c); [left; eapply Hb|right; eapply He]; exact E.
  - intros b Hb t t' E. change (has SEQ (brkseq (tflows L b) ++ [SEQ]) = true). rewrite has_app. apply orb_true_r.
  - intros s Hs ss Hss t t' E. rewrite run_cons in E. change (has SEQ (seqflow (tflows_stmt L s) (tflows L ss)) = true).
    destruct (run_stmt n s t) as [[t1 o]|] eqn:E1; [|discriminate E]. destruct o; try discriminate E.
    unfold seqflow. rewrite (Hs _ _ E1), has_app, (Hss _ _ E). apply orb_true_r.
Qed.
Lemma def_right body s τ h c : tame body = true -> closed body = true -> h <> [] -> below c h -> nostray (exec true n body s) ->
  match exec true n body s with
  | None => run n (norm_def L isval pvar body) (Tst s τ h c) = None
  | Some (s', o) => exists τ' c',
      run n (norm_def L isval pvar body) (Tst s τ h c) =
      Some (match o with
            | ONext => (Tst s' τ' h c', TReturned (none L))
            | OReturn v => (Tst s' τ' h c', TReturned v)
            | ORaise x => (Tst s' τ' (top (User x) h) c', TRaised)
            | _ => (Tst s' τ' h c', TStuck)
            end)
  end.
Proof.
  intros T C N B NS. destruct pass_right as (_ & P & _). destruct (norm [] 0 body) as [b k'] eqn:E.
  destruct (P body T [] 0 b k' E) as [_ H]. specialize (H s τ h c N B).
  destruct (closed_sound true n) as (_ & CS & _). specialize (CS body C s).
  unfold norm_def. rewrite E. cbn [fst]. destruct (exec true n body s) as [[s' o]|].
  - destruct (CS _ _ eq_refl) as [NB NC].
    assert (No : o <> OStray) by (intros ->; exact (NS _ eq_refl)).
    destruct (sim_elim _ _ _ _ _ _ _ _ _ No H) as (τ' & c' & R & _ & _). exists τ', c'.
    destruct o; try congruence; cbn [after fst snd unw kout] in R.
    + destruct tflows_sound as [_ F]. unfold fallsthru. rewrite (F _ _ _ R), run_app, R, run_one. reflexivity.
    + destruct (fallsthru L b); [rewrite run_app|]; rewrite R; reflexivity.
    + destruct (fallsthru L b); [rewrite run_app|]; rewrite R; reflexivity.
  - cbn [sim] in H. destruct (fallsthru L b); [rewrite run_app|]; rewrite H; reflexivity.
Qed.
Lemma nofor_right :
  (forall s, nofor_stmt s = true -> forall st, nostray (exec_stmt (L:=L) true n s st)) /\
  (forall ss, nofor ss = true -> forall st, nostray (exec (L:=L) true n ss st)) /\
  (forall hs, nofor_handlers hs = true -> forall x st, nostray (exec_handlers (L:=L) true n hs x st)).
Proof.
  apply (source_ind L
    (fun s => nofor_stmt s = true -> forall st, nostray (exec_stmt (L:=L) true n s st))
    (fun ss => nofor ss = true -> forall st, nostray (exec (L:=L) true n ss st))
    (fun hs => nofor_handlers hs = true -> forall x st, nostray (exec_handlers (L:=L) true n hs x st))).
  - intros e _ st s1 E. cbn [exec_stmt] in E. destruct (eval L e st) as [[? []]|]; discriminate E.
  - intros e _ st s1 E. cbn [exec_stmt] in E. destruct (eval L e st) as [[? []]|]; discriminate E.
  - intros [e|] _ st s1 E; cbn [exec_stmt] in E; [|discriminate E]. destruct (eval L e st) as [[? []]|]; discriminate E.
  - intros _ st s1 E. discriminate E.
  - intros _ st s1 E. discriminate E.
  - intros e b Hb els He T st s1 E. apply andb_true_iff in T as [T1 T2]. rewrite ex_if in E. destruct (eval L e st) as [[? [v|]]|]; try discriminate E.
    destruct (truth L v); [exact (Hb T1 _ _ E)|exact (He T2 _ _ E)].
  - intros e b Hb els He T st s1. apply andb_true_iff in T as [T1 T2]. rewrite ex_while. generalize n at 1. intros j. revert st.
    induction j as [|j IH]; intros st E; [discriminate E|]. cbn [while_] in E. destruct (eval L e st) as [[s2 [v|]]|]; try discriminate E.
    destruct (truth L v); [|exact (He T2 _ _ E)]. specialize (Hb T1 s2). destruct (exec true n b s2) as [[s3 o]|]; [|discriminate E].
    destruct o; cbn [after_body] in E; try discriminate E; try (exact (IH _ E)). exact (Hb _ eq_refl).
  - intros p e b Hb els He T. discriminate T.
  - intros b Hb hs Hh els He fin Hf T st s1 E. apply andb_true_iff in T as [T T4]. apply andb_true_iff in T as [T T3]. apply andb_true_iff in T as [T1 T2].
    rewrite ex_try in E. unfold finally_, protected in E. specialize (Hb T1 st). destruct (exec true n b st) as [[s2 o]|]; [|discriminate E].
    destruct (match o with ONext => exec true n els s2 | ORaise x => exec_handlers true n hs x s2 | _ => Some (s2, o) end) as [[s3 o3]|] eqn:E1; [|destruct o; discriminate].
    assert (o3 <> OStray).
    { intros ->. destruct o; try discriminate E1; [exact (He T3 _ _ E1)|exact (Hh T2 _ _ _ E1)|exact (Hb _ eq_refl)]. }
    specialize (Hf T4 s3). destruct (exec true n fin s3) as [[s4 o4]|].
    + destruct o4; (destruct o, o3; try discriminate; try congruence); exact (Hf _ eq_refl).
    + destruct o, o3; try discriminate; congruence.
  - intros _ st s1 E. discriminate E.
  - intros s Hs ss Hss T st s1 E. apply andb_true_iff in T as [T1 T2]. rewrite ex_cons in E. specialize (Hs T1 st).
    destruct (exec_stmt true n s st) as [[s2 o]|]; [|discriminate E]. destruct o; try discriminate E; [exact (Hss T2 _ _ E)|exact (Hs _ eq_refl)].
  - intros _ x st s1 E. discriminate E.
  - intros h b Hb hs Hh T x st s1 E. apply andb_true_iff in T as [T1 T2]. rewrite ex_h in E.
    destruct h as [|c|c p]; [exact (Hb T1 _ _ E)| |]; (destruct (instance L x c); [exact (Hb T1 _ _ E)|exact (Hh T2 _ _ _ E)]).
Qed.

(** ** break and continue stay in loops. *)
Definition looped (m : list mark) : bool := existsb (fun x => match x with LOOP => true | _ => false end) m.
Lemma placed_app l a b : placed L l (tapp L a b) = placed L l a && placed L l b.
Proof. induction a as [|s a IH]; [reflexivity|]. change (placed_stmt L l s && placed L l (tapp L a b) = (placed_stmt L l s && placed L l a) && placed L l b). rewrite IH, andb_assoc. reflexivity. Qed.
Lemma placed_exit m l : match l with LReturn _ _ => True | _ => looped m = true end -> placed L (looped m) (exit_context L m l) = true.
Proof.
  intros H. assert (G : forall q m, (match l with LReturn _ _ => True | _ => q = true end) -> placed L q (exit_context L m l) = true).
  { clear H m. intros q m H. induction m as [|[] m IH]; cbn [exit_context].
    - destruct l; cbn; rewrite ?H; reflexivity.
    - change (true && placed L q (exit_context L m l) = true). rewrite IH. reflexivity.
    - destruct l; cbn [leave_stmt]; [cbn; rewrite H; reflexivity..|exact IH].
    - destruct l; reflexivity. }
  apply G. destruct l; auto.
Qed.
Definition free_in (m : list mark) (cl : bool) : Prop := cl = false -> looped m = true.
Lemma free_l m a b : free_in m (a && b) -> free_in m a /\ free_in m b.
Proof. unfold free_in. destruct a, b; cbn; auto. Qed.
Lemma placed_right :
  (forall s, nofinal_stmt s = true -> forall m k, free_in m (closed_stmt s) -> placed L (looped m) (fst (norm_stmt m k s)) = true) /\
  (forall ss, nofinal ss = true -> forall m k, free_in m (closed ss) -> placed L (looped m) (fst (norm m k ss)) = true) /\
  (forall hs, nofinal_handlers hs = true -> forall m x k, free_in m (closed_handlers hs) -> placed L (looped m) (fst (norm_handlers m x k hs)) = true).
Proof.
  apply (source_ind L
    (fun s => nofinal_stmt s = true -> forall m k, free_in m (closed_stmt s) -> placed L (looped m) (fst (norm_stmt m k s)) = true)
    (fun ss => nofinal ss = true -> forall m k, free_in m (closed ss) -> placed L (looped m) (fst (norm m k ss)) = true)
    (fun hs => nofinal_handlers hs = true -> forall m x k, free_in m (closed_handlers hs) -> placed L (looped m) (fst (norm_handlers m x k hs)) = true)).
  - reflexivity.
  - reflexivity.
  - intros [e|] _ m k C; cbn [M_Control.norm_stmt]; [|apply placed_exit; exact I].
    destruct (isval e); cbn [fst]; [|change (true && placed L (looped m) (exit_context L m (LReturn L (TTmp L k))) = true)]; rewrite placed_exit by exact I; reflexivity.
  - intros _ m k C. apply placed_exit. apply C. reflexivity.
  - intros _ m k C. apply placed_exit. apply C. reflexivity.
  - intros e b Hb els He T m k C. apply andb_true_iff in T as [T1 T2]. apply free_l in C as [C1 C2].
    change (norm_stmt m k (If e b els)) with (let '(b', k) := norm m k b in let '(els', k) := norm m k els in (one L (TIf L (CE L e) b' els'), k)).
    specialize (Hb T1 m k C1). destruct (norm m k b) as [b' k1]. specialize (He T2 m k1 C2). destruct (norm m k1 els) as [els' k2]. cbn [fst] in *.
    change (placed L (looped m) b' && placed L (looped m) els' && true = true). rewrite Hb, He. reflexivity.
  - intros e b Hb els He T m k C. apply andb_true_iff in T as [T1 T2].
    change (norm_stmt m k (While e b els)) with (let '(els', k) := norm (LOOP :: m) k els in let '(b', k) := norm (LOOP :: m) k b in
      (one L (TWhile L (TCons L (TIf L (CE L e) (one L (TPass L)) (tapp L els' (one L (TBreak L)))) b')), k)).
    specialize (He T2 (LOOP :: m) k (fun _ => eq_refl)). destruct (norm (LOOP :: m) k els) as [els' k1].
    specialize (Hb T1 (LOOP :: m) k1 (fun _ => eq_refl)). destruct (norm (LOOP :: m) k1 b) as [b' k2]. cbn [fst looped existsb orb] in *.
    change (true && placed L true (tapp L els' (one L (TBreak L))) && placed L true b' && true = true). rewrite placed_app, He, Hb. reflexivity.
  - intros p e b Hb els He T m k C. apply andb_true_iff in T as [T1 T2].
    change (norm_stmt m k (For p e b els)) with (let '(b', k1) := norm (LOOP :: DROP :: m) (S (S k)) b in let '(els', k2) := norm m (S k1) els in
      (TCons L (TSet L k e) (one L (TIf L (CPush L) (TCons L (TWhile L (TCons L (TIf L (CTrue L) (one L (TPass L)) (one L (TBreak L))) (tapp L (get_ p k (S k)) b'))) (one L (TDrop L)))
        (for_handler k1 els'))), k2)).
    specialize (Hb T1 (LOOP :: DROP :: m) (S (S k)) (fun _ => eq_refl)). destruct (norm (LOOP :: DROP :: m) (S (S k)) b) as [b' k1].
    specialize (He T2 m (S k1) C). destruct (norm m (S k1) els) as [els' k2]. cbn [fst] in *. change (looped (LOOP :: DROP :: m)) with true in Hb.
    change (true && ((true && placed L true (tapp L (get_ p k (S k)) b') && true) && (true && ((placed L (looped m) els' && true) && true)) && true) = true).
    rewrite placed_app, Hb, He. unfold get_. destruct (pvar p); reflexivity.
  - intros b Hb hs Hh els He fin Hf T m k C. change (nofinal b && nofinal_handlers hs && nofinal els && is_nil_ fin = true) in T.
    apply andb_true_iff in T as [T T4]. apply andb_true_iff in T as [T T3]. apply andb_true_iff in T as [T1 T2].
    destruct fin as [|? ?]; [|discriminate T4]. change (free_in m (closed b && closed_handlers hs && closed els && true)) in C.
    apply free_l in C as [C _]. apply free_l in C as [C C3]. apply free_l in C as [C1 C2].
    change (norm_stmt m k (Try b hs els Nil)) with (norm_try L (fun m k => norm m k b) (is_hnil L hs) (fun m x k => norm_handlers m x k hs) (fun m k => norm m k els) m k).
    unfold norm_try. destruct (is_hnil L hs).
    + specialize (Hb T1 m k C1). destruct (norm m k b) as [b' k1]. specialize (He T3 m k1 C3). destruct (norm m k1 els) as [e' k2]. cbn [fst] in *.
      rewrite placed_app, Hb, He. reflexivity.
    + specialize (Hb T1 (DROP :: m) k C1). destruct (norm (DROP :: m) k b) as [b' k1]. specialize (He T3 m k1 C3). destruct (norm m k1 els) as [e' k2].
      specialize (Hh T2 m k2 (S k2) C2). destruct (norm_handlers m k2 (S k2) hs) as [h' k3]. cbn [fst] in *. change (looped (DROP :: m)) with (looped m) in Hb.
      change (placed L (looped m) (tapp L b' (TCons L (TDrop L) e')) && (true && placed L (looped m) h') && true = true).
      rewrite placed_app, Hb, Hh. change (true && placed L (looped m) e' && true && true = true). rewrite He. reflexivity.
  - reflexivity.
  - intros s Hs ss Hss T m k C. apply andb_true_iff in T as [T1 T2]. apply free_l in C as [C1 C2].
    change (norm m k (Cons s ss)) with (let '(s', k) := norm_stmt m k s in let '(ss', k) := norm m k ss in (tapp L s' ss', k)).
    specialize (Hs T1 m k C1). destruct (norm_stmt m k s) as [a k1]. specialize (Hss T2 m k1 C2). destruct (norm m k1 ss) as [b k2]. cbn [fst] in *.
    rewrite placed_app, Hs, Hss. reflexivity.
  - reflexivity.
  - intros p b Hb hs Hh T m x k C. apply andb_true_iff in T as [T1 T2]. apply free_l in C as [C1 C2].
    change (norm_handlers m x k (HCons p b hs)) with (let '(b', k) := norm m k b in let '(r, k) := norm_handlers m x k hs in
      (one L (match p with All => TIf L (CTrue L) b' r | Only c => TIf L (CInst L x (UserC L c)) b' r | As c p => TIf L (CInst L x (UserC L c)) (TCons L (TBind L p x) b') r end), k)).
    specialize (Hb T1 m k C1). destruct (norm m k b) as [b' k1]. specialize (Hh T2 m x k1 C2). destruct (norm_handlers m x k1 hs) as [r k2]. cbn [fst] in *.
    destruct p; change (placed L (looped m) b' && placed L (looped m) r && true = true); rewrite Hb, Hh; reflexivity.
Qed.
End P.

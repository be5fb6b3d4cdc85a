(** Taking the calls out of expressions: proofs. *)
From Coq Require Import List Bool Arith Lia.
From Verif Require Import S_Hoist M_Hoist.
Import ListNotations.

Scheme expr_mut := Induction for expr Sort Prop with exprs_mut := Induction for exprs Sort Prop.
Combined Scheme expr_both from expr_mut, exprs_mut.
Scheme stmt_mut := Induction for stmt Sort Prop with suite_mut := Induction for suite Sort Prop with branches_mut := Induction for branches Sort Prop.
Combined Scheme stmt_all from stmt_mut, suite_mut, branches_mut.

(** ** Equations. *)
Section Equations.
Variable L : lang.
Lemma eq_0 : forall (x : nat), calls (@Var L x) = (false). Proof. reflexivity. Qed.
Lemma eq_1 : forall (o : op L) (es : exprs L), calls (Op o es) = (callss es). Proof. reflexivity. Qed.
Lemma eq_2 : forall (f : fn L) (es : exprs L), calls (Fn f es) = (true). Proof. reflexivity. Qed.
Lemma eq_3 : forall (a : expr L) (b : expr L), calls (And a b) = (calls a || calls b). Proof. reflexivity. Qed.
Lemma eq_4 : forall (a : expr L) (b : expr L), calls (Or a b) = (calls a || calls b). Proof. reflexivity. Qed.
Lemma eq_5 : forall (a : expr L) (c : expr L) (b : expr L), calls (Cond a c b) = (calls a || calls c || calls b). Proof. reflexivity. Qed.
Lemma eq_6 : @callss L ENil = (false). Proof. reflexivity. Qed.
Lemma eq_7 : forall (e : expr L) (es : exprs L), callss (ECons e es) = (calls e || callss es). Proof. reflexivity. Qed.
Lemma eq_8 : forall (m : nat) (x : nat), below m (@Var L x) = (Nat.ltb x m). Proof. reflexivity. Qed.
Lemma eq_9 : forall (m : nat) (o : op L) (es : exprs L), below m (Op o es) = (belows m es). Proof. reflexivity. Qed.
Lemma eq_10 : forall (m : nat) (f : fn L) (es : exprs L), below m (Fn f es) = (belows m es). Proof. reflexivity. Qed.
Lemma eq_11 : forall (m : nat) (a : expr L) (b : expr L), below m (And a b) = (below m a && below m b). Proof. reflexivity. Qed.
Lemma eq_12 : forall (m : nat) (a : expr L) (b : expr L), below m (Or a b) = (below m a && below m b). Proof. reflexivity. Qed.
Lemma eq_13 : forall (m : nat) (a : expr L) (c : expr L) (b : expr L), below m (Cond a c b) = (below m a && below m c && below m b). Proof. reflexivity. Qed.
Lemma eq_14 : forall (m : nat), @belows L m ENil = (true). Proof. reflexivity. Qed.
Lemma eq_15 : forall (m : nat) (e : expr L) (es : exprs L), belows m (ECons e es) = (below m e && belows m es). Proof. reflexivity. Qed.
Lemma eq_16 : forall (F : op L -> bool) (x : nat), settled F (@Var L x) = (true). Proof. reflexivity. Qed.
Lemma eq_17 : forall (F : op L -> bool) (o : op L) (es : exprs L), settled F (Op o es) = (F o && settleds F es). Proof. reflexivity. Qed.
Lemma eq_18 : forall (F : op L -> bool) (f : fn L) (es : exprs L), settled F (Fn f es) = (true). Proof. reflexivity. Qed.
Lemma eq_19 : forall (F : op L -> bool) (a : expr L) (b : expr L), settled F (And a b) = (calls b || (settled F a && settled F b)). Proof. reflexivity. Qed.
Lemma eq_20 : forall (F : op L -> bool) (a : expr L) (b : expr L), settled F (Or a b) = (calls b || (settled F a && settled F b)). Proof. reflexivity. Qed.
Lemma eq_21 : forall (F : op L -> bool) (a : expr L) (c : expr L) (b : expr L), settled F (Cond a c b) = (calls a || calls b || (settled F a && settled F c && settled F b)). Proof. reflexivity. Qed.
Lemma eq_22 : forall (F : op L -> bool), @settleds L F ENil = (true). Proof. reflexivity. Qed.
Lemma eq_23 : forall (F : op L -> bool) (e : expr L) (es : exprs L), settleds F (ECons e es) = (settled F e && settleds F es). Proof. reflexivity. Qed.
Lemma eq_24 : forall (F : op L -> bool) (x : nat), ordered F (@Var L x) = (true). Proof. reflexivity. Qed.
Lemma eq_25 : forall (F : op L -> bool) (o : op L) (es : exprs L), ordered F (Op o es) = (ordereds F es). Proof. reflexivity. Qed.
Lemma eq_26 : forall (F : op L -> bool) (f : fn L) (es : exprs L), ordered F (Fn f es) = (ordereds F es). Proof. reflexivity. Qed.
Lemma eq_27 : forall (F : op L -> bool) (a : expr L) (b : expr L), ordered F (And a b) = (ordered F a && ordered F b). Proof. reflexivity. Qed.
Lemma eq_28 : forall (F : op L -> bool) (a : expr L) (b : expr L), ordered F (Or a b) = (ordered F a && ordered F b). Proof. reflexivity. Qed.
Lemma eq_29 : forall (F : op L -> bool) (a : expr L) (c : expr L) (b : expr L), ordered F (Cond a c b) = (ordered F a && ordered F c && ordered F b). Proof. reflexivity. Qed.
Lemma eq_30 : forall (F : op L -> bool), @ordereds L F ENil = (true). Proof. reflexivity. Qed.
Lemma eq_31 : forall (F : op L -> bool) (e : expr L) (es : exprs L), ordereds F (ECons e es) = (ordered F e && (negb (callss es) || settled F e) && ordereds F es). Proof. reflexivity. Qed.
Lemma eq_32 : forall (x : nat) (l : locals L) (w : world L), eval (@Var L x) l w = (Some (w, inl (l x))). Proof. reflexivity. Qed.
Lemma eq_33 : forall (o : op L) (es : exprs L) (l : locals L) (w : world L), eval (Op o es) l w = (bind (evals es l w) (fun vs w => Some (w, apply L o vs w))). Proof. reflexivity. Qed.
Lemma eq_34 : forall (f : fn L) (es : exprs L) (l : locals L) (w : world L), eval (Fn f es) l w = (bind (evals es l w) (fun vs w => call L f vs w)). Proof. reflexivity. Qed.
Lemma eq_35 : forall (a : expr L) (b : expr L) (l : locals L) (w : world L), eval (And a b) l w = (bind (eval a l w) (fun v w => if truth L v then eval b l w else Some (w, inl v))). Proof. reflexivity. Qed.
Lemma eq_36 : forall (a : expr L) (b : expr L) (l : locals L) (w : world L), eval (Or a b) l w = (bind (eval a l w) (fun v w => if truth L v then Some (w, inl v) else eval b l w)). Proof. reflexivity. Qed.
Lemma eq_37 : forall (a : expr L) (c : expr L) (b : expr L) (l : locals L) (w : world L), eval (Cond a c b) l w = (bind (eval c l w) (fun v w => if truth L v then eval a l w else eval b l w)). Proof. reflexivity. Qed.
Lemma eq_38 : forall (l : locals L) (w : world L), @evals L ENil l w = (Some (w, inl [])). Proof. reflexivity. Qed.
Lemma eq_39 : forall (e : expr L) (es : exprs L) (l : locals L) (w : world L), evals (ECons e es) l w = (bind (eval e l w) (fun v w => bind (evals es l w) (fun vs w => Some (w, inl (v :: vs))))). Proof. reflexivity. Qed.
Lemma eq_40 : forall (x : nat) (k : nat), @pre L (@Var L x) k = ((Nil, Var x, k)). Proof. reflexivity. Qed.
Lemma eq_41 : forall (o : op L) (es : exprs L) (k : nat), pre (Op o es) k = (let '(ps, es', k1) := pres es k in (ps, Op o es', k1)). Proof. reflexivity. Qed.
Lemma eq_42 : forall (f : fn L) (es : exprs L) (k : nat), pre (Fn f es) k = (let '(ps, es', k1) := pres es k in (app ps (one (Set_ k1 (Fn f es'))), Var k1, S k1)). Proof. reflexivity. Qed.
Lemma eq_43 : forall (a : expr L) (c : expr L) (b : expr L) (k : nat), pre (Cond a c b) k = (let '(pa, a', k1) := pre a k in let '(pb, b', k2) := pre b k1 in let '(pc, c', k3) := pre c k2 in if empty (app pa pb) then (pc, Cond a' c' b', k3) else (app pc (one (if1 c' (app pa (one (Set_ k3 a'))) (app pb (one (Set_ k3 b'))))), Var k3, S k3)). Proof. reflexivity. Qed.
Lemma eq_44 : forall (a : expr L) (b : expr L) (k : nat), pre (Or a b) k = (let '(pa, a', k1) := pre a k in let '(pb, b', k2) := pre b k1 in if empty pb then (pa, Or a' b', k2) else (app pa (Cons (Set_ k2 a') (one (if1 (Var k2) (one (Set_ (S k2) (Var k2))) (app pb (one (Set_ (S k2) b')))))), Var (S k2), S (S k2))). Proof. reflexivity. Qed.
Lemma eq_45 : forall (a : expr L) (b : expr L) (k : nat), pre (And a b) k = (let '(pa, a', k1) := pre a k in let '(pb, b', k2) := pre b k1 in if empty pb then (pa, And a' b', k2) else (app pa (Cons (Set_ k2 a') (one (if1 (Var k2) (app pb (one (Set_ (S k2) b'))) (one (Set_ (S k2) (Var k2)))))), Var (S k2), S (S k2))). Proof. reflexivity. Qed.
Lemma eq_46 : forall (k : nat), @pres L ENil k = ((Nil, ENil, k)). Proof. reflexivity. Qed.
Lemma eq_47 : forall (e : expr L) (es : exprs L) (k : nat), pres (ECons e es) k = (let '(p, e', k1) := pre e k in let '(ps, es', k2) := pres es k1 in (app p ps, ECons e' es', k2)). Proof. reflexivity. Qed.
Lemma eq_48 : forall (m : nat) (e : expr L), uses m (Do e) = (below m e). Proof. reflexivity. Qed.
Lemma eq_49 : forall (m : nat) (e : expr L), uses m (Return e) = (below m e). Proof. reflexivity. Qed.
Lemma eq_50 : forall (m : nat) (x : nat) (e : expr L), uses m (Set_ x e) = (Nat.ltb x m && below m e). Proof. reflexivity. Qed.
Lemma eq_51 : forall (m : nat), @uses L m Break = (true). Proof. reflexivity. Qed.
Lemma eq_52 : forall (m : nat), @uses L m Continue = (true). Proof. reflexivity. Qed.
Lemma eq_53 : forall (m : nat) (bs : branches L) (els : suite L), uses m (If bs els) = (usesb m bs && usess m els). Proof. reflexivity. Qed.
Lemma eq_54 : forall (m : nat) (b : suite L), uses m (Loop b) = (usess m b). Proof. reflexivity. Qed.
Lemma eq_55 : forall (m : nat), @usess L m Nil = (true). Proof. reflexivity. Qed.
Lemma eq_56 : forall (m : nat) (s : stmt L) (ss : suite L), usess m (Cons s ss) = (uses m s && usess m ss). Proof. reflexivity. Qed.
Lemma eq_57 : forall (m : nat), @usesb L m BNil = (true). Proof. reflexivity. Qed.
Lemma eq_58 : forall (m : nat) (c : expr L) (b : suite L) (bs : branches L), usesb m (BCons c b bs) = (below m c && usess m b && usesb m bs). Proof. reflexivity. Qed.
Lemma eq_59 : forall (F : op L -> bool) (e : expr L), ordered_stmt F (Do e) = (ordered F e). Proof. reflexivity. Qed.
Lemma eq_60 : forall (F : op L -> bool) (e : expr L), ordered_stmt F (Return e) = (ordered F e). Proof. reflexivity. Qed.
Lemma eq_61 : forall (F : op L -> bool) (x : nat) (e : expr L), ordered_stmt F (Set_ x e) = (ordered F e). Proof. reflexivity. Qed.
Lemma eq_62 : forall (F : op L -> bool), @ordered_stmt L F Break = (true). Proof. reflexivity. Qed.
Lemma eq_63 : forall (F : op L -> bool), @ordered_stmt L F Continue = (true). Proof. reflexivity. Qed.
Lemma eq_64 : forall (F : op L -> bool) (bs : branches L) (els : suite L), ordered_stmt F (If bs els) = (ordered_branches F bs && match bs with BCons _ _ bs => quiet bs | BNil => true end && ordered_suite F els). Proof. reflexivity. Qed.
Lemma eq_65 : forall (F : op L -> bool) (b : suite L), ordered_stmt F (Loop b) = (ordered_suite F b). Proof. reflexivity. Qed.
Lemma eq_66 : forall (F : op L -> bool), @ordered_suite L F Nil = (true). Proof. reflexivity. Qed.
Lemma eq_67 : forall (F : op L -> bool) (s : stmt L) (ss : suite L), ordered_suite F (Cons s ss) = (ordered_stmt F s && ordered_suite F ss). Proof. reflexivity. Qed.
Lemma eq_68 : forall (F : op L -> bool), @ordered_branches L F BNil = (true). Proof. reflexivity. Qed.
Lemma eq_69 : forall (F : op L -> bool) (c : expr L) (b : suite L) (bs : branches L), ordered_branches F (BCons c b bs) = (ordered F c && ordered_suite F b && ordered_branches F bs). Proof. reflexivity. Qed.
Lemma eq_70 : forall (c : expr L) (b : suite L) (bs : branches L), quiet (BCons c b bs) = (negb (calls c) && quiet bs). Proof. reflexivity. Qed.
Lemma eq_71 : forall (n : nat) (e : expr L) (l : locals L) (w : world L), exec_stmt n (Do e) l w = (match eval e l w with None => None | Some (w, inl _) => Some (l, w, ONext) | Some (w, inr x) => Some (l, w, ORaise x) end). Proof. reflexivity. Qed.
Lemma eq_72 : forall (n : nat) (e : expr L) (l : locals L) (w : world L), exec_stmt n (Return e) l w = (match eval e l w with None => None | Some (w, inl v) => Some (l, w, OReturn v) | Some (w, inr x) => Some (l, w, ORaise x) end). Proof. reflexivity. Qed.
Lemma eq_73 : forall (n : nat) (y : nat) (e : expr L) (l : locals L) (w : world L), exec_stmt n (Set_ y e) l w = (match eval e l w with None => None | Some (w, inl v) => Some (put l y v, w, ONext) | Some (w, inr x) => Some (l, w, ORaise x) end). Proof. reflexivity. Qed.
Lemma eq_74 : forall (n : nat) (l : locals L) (w : world L), @exec_stmt L n Break l w = (Some (l, w, OBreak)). Proof. reflexivity. Qed.
Lemma eq_75 : forall (n : nat) (l : locals L) (w : world L), @exec_stmt L n Continue l w = (Some (l, w, OContinue)). Proof. reflexivity. Qed.
Lemma eq_76 : forall (n : nat) (l : locals L) (w : world L), @exec L n Nil l w = (Some (l, w, ONext)). Proof. reflexivity. Qed.
Lemma eq_77 : forall (e : expr L) (k : nat), @pre_stmt L (Do e) k = (let '(ps, e', k1) := pre_top e k in (ps, Do e', k1)). Proof. reflexivity. Qed.
Lemma eq_78 : forall (x : nat) (e : expr L) (k : nat), @pre_stmt L (Set_ x e) k = (let '(ps, e', k1) := pre_top e k in (ps, Set_ x e', k1)). Proof. reflexivity. Qed.
Lemma eq_79 : forall (e : expr L) (k : nat), @pre_stmt L (Return e) k = (let '(ps, e', k1) := pre_top e k in (ps, Return e', k1)). Proof. reflexivity. Qed.
Lemma eq_80 : forall (k : nat), @pre_stmt L Break k = ((Nil, Break, k)). Proof. reflexivity. Qed.
Lemma eq_81 : forall (k : nat), @pre_stmt L Continue k = ((Nil, Continue, k)). Proof. reflexivity. Qed.
Lemma eq_82 : forall (bs : branches L) (els : suite L) (k : nat), pre_stmt (If bs els) k = (let '(ps, bs', k1) := pre_branches bs k in let '(els', k2) := pre_suite els k1 in (ps, If bs' els', k2)). Proof. reflexivity. Qed.
Lemma eq_83 : forall (b : suite L) (k : nat), pre_stmt (Loop b) k = (let '(b', k1) := pre_suite b k in (Nil, Loop b', k1)). Proof. reflexivity. Qed.
Lemma eq_84 : forall (k : nat), @pre_suite L Nil k = ((Nil, k)). Proof. reflexivity. Qed.
Lemma eq_85 : forall (s : stmt L) (ss : suite L) (k : nat), pre_suite (Cons s ss) k = (let '(ps, s', k1) := pre_stmt s k in let '(ss', k2) := pre_suite ss k1 in (app ps (Cons s' ss'), k2)). Proof. reflexivity. Qed.
Lemma eq_86 : forall (k : nat), @pre_branches L BNil k = ((Nil, BNil, k)). Proof. reflexivity. Qed.
Lemma eq_87 : forall (c : expr L) (b : suite L) (bs : branches L) (k : nat), pre_branches (BCons c b bs) k = (let '(p, c', k1) := pre c k in let '(b', k2) := pre_suite b k1 in let '(ps, bs', k3) := pre_branches bs k2 in (app p ps, BCons c' b' bs', k3)). Proof. reflexivity. Qed.
End Equations.
Local Hint Rewrite eq_0 eq_1 eq_2 eq_3 eq_4 eq_5 eq_6 eq_7 eq_8 eq_9 eq_10 eq_11 eq_12 eq_13 eq_14 eq_15 eq_16 eq_17 eq_18 eq_19 eq_20 eq_21 eq_22 eq_23 eq_24 eq_25 eq_26 eq_27 eq_28 eq_29 eq_30 eq_31 eq_32 eq_33 eq_34 eq_35 eq_36 eq_37 eq_38 eq_39 eq_40 eq_41 eq_42 eq_43 eq_44 eq_45 eq_46 eq_47 eq_48 eq_49 eq_50 eq_51 eq_52 eq_53 eq_54 eq_55 eq_56 eq_57 eq_58 eq_59 eq_60 eq_61 eq_62 eq_63 eq_64 eq_65 eq_66 eq_67 eq_68 eq_69 eq_70 eq_71 eq_72 eq_73 eq_74 eq_75 eq_76 eq_77 eq_78 eq_79 eq_80 eq_81 eq_82 eq_83 eq_84 eq_85 eq_86 eq_87 : hoist.
Ltac eqs := autorewrite with hoist.
Ltac eqs_all := autorewrite with hoist in *.

Section Facts.
Variable L : lang.
Notation expr := (expr L). Notation exprs := (exprs L).

Lemma empty_app : forall a b : suite L, empty (app a b) = empty a && empty b.
Proof. intros [|s a] b; reflexivity. Qed.
Lemma app_nil : forall a : suite L, app a Nil = a.
Proof. fix IH 1. intros [|s a]; [reflexivity|]. cbn [app]. rewrite IH. reflexivity. Qed.
Lemma empty_nil : forall a : suite L, empty a = true -> a = Nil.
Proof. intros [|s a] H; [reflexivity|discriminate H]. Qed.

Ltac split_pre := repeat match goal with
  | |- context [pre ?e ?k] => let E := fresh "E" in destruct (pre e k) as [[? ?] ?] eqn:E
  | |- context [pres ?e ?k] => let E := fresh "E" in destruct (pres e k) as [[? ?] ?] eqn:E
  end.

Lemma pre_none : (forall (e : expr) k, calls e = false -> pre e k = (Nil, e, k)) /\
  (forall (es : exprs) k, callss es = false -> pres es k = (Nil, es, k)).
Proof.
  apply expr_both; intros; eqs_all; try reflexivity; try discriminate;
    repeat match goal with H : _ || _ = false |- _ => apply orb_false_elim in H; destruct H end;
    repeat match goal with H : forall k, _ = false -> _, G : _ = false |- _ => rewrite (fun k => H k G); clear H end; reflexivity.
Qed.
Lemma pre_empty : (forall (e : expr) k, empty (fst (fst (pre e k))) = negb (calls e)) /\
  (forall (es : exprs) k, empty (fst (fst (pres es k))) = negb (callss es)).
Proof.
  apply expr_both; intros; eqs_all; try reflexivity.
  - specialize (H k). split_pre. exact H.
  - specialize (H k). split_pre. cbn [fst]. rewrite empty_app. cbn. apply andb_false_r.
  - specialize (H k). split_pre. specialize (H0 n). rewrite E0 in H0. cbn [fst] in *. destruct (empty s0); cbn [fst].
    + destruct (calls b); [discriminate H0|]. rewrite orb_false_r. exact H.
    + destruct (calls b); [|discriminate H0]. rewrite orb_true_r, empty_app. apply andb_false_r.
  - specialize (H k). split_pre. specialize (H0 n). rewrite E0 in H0. cbn [fst] in *. destruct (empty s0); cbn [fst].
    + destruct (calls b); [discriminate H0|]. rewrite orb_false_r. exact H.
    + destruct (calls b); [|discriminate H0]. rewrite orb_true_r, empty_app. apply andb_false_r.
  - specialize (H k). split_pre. specialize (H1 n). rewrite E0 in H1. specialize (H0 n0). rewrite E1 in H0. cbn [fst] in *. rewrite empty_app.
    destruct (calls a), (calls b); rewrite ?H, ?H1; cbn [negb andb orb fst]; rewrite ?empty_app, ?andb_false_r, ?orb_true_r, ?orb_false_r; cbn [negb]; try reflexivity. exact H0.
  - specialize (H k). split_pre. specialize (H0 n). rewrite E0 in H0. cbn [fst] in *. rewrite empty_app, H, H0. destruct (calls e), (callss es); reflexivity.
Qed.
Lemma pre_rest : (forall (e : expr) k, calls (snd (fst (pre e k))) = false) /\
  (forall (es : exprs) k, callss (snd (fst (pres es k))) = false).
Proof.
  apply expr_both; intros; eqs_all; try reflexivity.
  - specialize (H k). split_pre. exact H.
  - specialize (H k). split_pre. reflexivity.
  - specialize (H k). split_pre. specialize (H0 n). rewrite E0 in H0. cbn [fst snd] in *. destruct (empty s0); (cbn [fst snd]; eqs; cbn [fst snd]); rewrite ?H, ?H0; reflexivity.
  - specialize (H k). split_pre. specialize (H0 n). rewrite E0 in H0. cbn [fst snd] in *. destruct (empty s0); (cbn [fst snd]; eqs; cbn [fst snd]); rewrite ?H, ?H0; reflexivity.
  - specialize (H k). split_pre. specialize (H1 n). rewrite E0 in H1. specialize (H0 n0). rewrite E1 in H0. cbn [fst snd] in *.
    destruct (empty (app s s0)); (cbn [fst snd]; eqs; cbn [fst snd]); rewrite ?H, ?H0, ?H1; reflexivity.
  - specialize (H k). split_pre. specialize (H0 n). rewrite E0 in H0. (cbn [fst snd] in *; eqs_all; cbn [fst snd] in *). rewrite H, H0. reflexivity.
Qed.
Lemma below_more : (forall (e : expr) a b, a <= b -> below a e = true -> below b e = true) /\
  (forall (es : exprs) a b, a <= b -> belows a es = true -> belows b es = true).
Proof.
  apply expr_both; intros; eqs_all; try reflexivity;
    repeat match goal with H : _ && _ = true |- _ => apply andb_prop in H; destruct H end;
    rewrite ?andb_true_iff; repeat split; eauto.
  apply Nat.ltb_lt in H0. apply Nat.ltb_lt. lia.
Qed.
Lemma pre_below : (forall (e : expr) k, below k e = true -> k <= snd (pre e k) /\ below (snd (pre e k)) (snd (fst (pre e k))) = true) /\
  (forall (es : exprs) k, belows k es = true -> k <= snd (pres es k) /\ belows (snd (pres es k)) (snd (fst (pres es k))) = true).
Proof.
  destruct below_more as [bm bms].
  apply expr_both; intros; eqs_all.
  - cbn. auto.
  - specialize (H k H0). split_pre. exact H.
  - specialize (H k H0). split_pre. (cbn [fst snd] in *; eqs_all; cbn [fst snd] in *). split; [lia|]. apply Nat.ltb_lt. lia.
  - apply andb_prop in H1. destruct H1 as [B1 B2]. specialize (H k B1). split_pre. cbn [fst snd] in *. specialize (H0 n (bm _ _ _ (proj1 H) B2)).
    rewrite E0 in H0. cbn [fst snd] in *. destruct (empty s0); (cbn [fst snd]; eqs; cbn [fst snd]).
    + split; [lia|]. rewrite (bm _ _ _ (proj1 H0) (proj2 H)), (proj2 H0). reflexivity.
    + split; [lia|]. apply Nat.ltb_lt. lia.
  - apply andb_prop in H1. destruct H1 as [B1 B2]. specialize (H k B1). split_pre. cbn [fst snd] in *. specialize (H0 n (bm _ _ _ (proj1 H) B2)).
    rewrite E0 in H0. cbn [fst snd] in *. destruct (empty s0); (cbn [fst snd]; eqs; cbn [fst snd]).
    + split; [lia|]. rewrite (bm _ _ _ (proj1 H0) (proj2 H)), (proj2 H0). reflexivity.
    + split; [lia|]. apply Nat.ltb_lt. lia.
  - apply andb_prop in H2. destruct H2 as [B1 B2]. apply andb_prop in B1. destruct B1 as [B1 B3].
    specialize (H k B1). split_pre. cbn [fst snd] in *. specialize (H1 n (bm _ _ _ (proj1 H) B2)). rewrite E0 in H1. cbn [fst snd] in *.
    assert (N : k <= n0) by lia. specialize (H0 n0 (bm _ _ _ N B3)). rewrite E1 in H0. cbn [fst snd] in *.
    destruct (empty (app s s0)); (cbn [fst snd]; eqs; cbn [fst snd]).
    + split; [lia|]. assert (M : n <= n1) by lia. rewrite (bm _ _ _ M (proj2 H)), (proj2 H0), (bm _ _ _ (proj1 H0) (proj2 H1)). reflexivity.
    + split; [lia|]. apply Nat.ltb_lt. lia.
  - cbn. auto.
  - apply andb_prop in H1. destruct H1 as [B1 B2]. specialize (H k B1). split_pre. cbn [fst snd] in *. specialize (H0 n (bms _ _ _ (proj1 H) B2)).
    rewrite E0 in H0. (cbn [fst snd] in *; eqs_all; cbn [fst snd] in *). split; [lia|]. rewrite (bm _ _ _ (proj1 H0) (proj2 H)), (proj2 H0). reflexivity.
Qed.

Definition same (k : nat) (l l' : locals L) : Prop := forall x, x < k -> l x = l' x.
Lemma same_trans : forall k a b c, same k a b -> same k b c -> same k a c.
Proof. intros k a b c H G x X. rewrite (H x X). apply G, X. Qed.
Lemma same_less : forall k j a b, j <= k -> same k a b -> same j a b.
Proof. intros k j a b J H x X. apply H. lia. Qed.
Lemma same_put : forall k l x v, k <= x -> same k l (put l x v).
Proof. intros k l x v K y Y. unfold put. destruct (Nat.eqb_spec y x); [lia|reflexivity]. Qed.
Lemma same_sym : forall k a b, same k a b -> same k b a.
Proof. intros k a b H x X. symmetry. apply H, X. Qed.
Lemma put_here : forall (l : locals L) x v, put l x v x = v.
Proof. intros l x v. unfold put. rewrite Nat.eqb_refl. reflexivity. Qed.

Lemma eval_same : (forall (e : expr) k l l', below k e = true -> same k l l' -> forall w, eval e l w = eval e l' w) /\
  (forall (es : exprs) k l l', belows k es = true -> same k l l' -> forall w, evals es l w = evals es l' w).
Proof.
  apply expr_both; intros; eqs_all;
    repeat match goal with H : _ && _ = true |- _ => apply andb_prop in H; destruct H end.
  - rewrite H0; [reflexivity|]. apply Nat.ltb_lt. exact H.
  - rewrite (H k l l') by assumption. reflexivity.
  - rewrite (H k l l') by assumption. reflexivity.
  - rewrite (H k l l') by assumption. destruct (eval a l' w) as [[w1 [v|x]]|]; cbn [bind]; try reflexivity. destruct (truth L v); [eauto|reflexivity].
  - rewrite (H k l l') by assumption. destruct (eval a l' w) as [[w1 [v|x]]|]; cbn [bind]; try reflexivity. destruct (truth L v); [reflexivity|eauto].
  - rewrite (H0 k l l') by assumption. destruct (eval c l' w) as [[w1 [v|x]]|]; cbn [bind]; try reflexivity. destruct (truth L v); eauto.
  - reflexivity.
  - rewrite (H k l l') by assumption. destruct (eval e l' w) as [[w1 [v|x]]|]; cbn [bind]; try reflexivity. rewrite (H0 k l l') by assumption. reflexivity.
Qed.
Lemma eval_pure : (forall (e : expr) l w, calls e = false -> exists r, eval e l w = Some (w, r)) /\
  (forall (es : exprs) l w, callss es = false -> exists r, evals es l w = Some (w, r)).
Proof.
  apply expr_both; intros; eqs_all; try discriminate;
    repeat match goal with H : _ || _ = false |- _ => apply orb_false_elim in H; destruct H end.
  - eauto.
  - destruct (H l w H0) as ([v|x] & ->); cbn [bind]; eauto.
  - destruct (H l w H1) as ([v|x] & ->); cbn [bind]; [|eauto]. destruct (truth L v); eauto.
  - destruct (H l w H1) as ([v|x] & ->); cbn [bind]; [|eauto]. destruct (truth L v); eauto.
  - destruct (H0 l w H4) as ([v|x] & ->); cbn [bind]; [|eauto]. destruct (truth L v); eauto.
  - eauto.
  - destruct (H l w H1) as ([v|x] & ->); cbn [bind]; [|eauto]. destruct (H0 l w H2) as ([v'|x] & ->); cbn [bind]; eauto.
Qed.

Variable fixed : op L -> bool.
Lemma pre_settled : (forall (e : expr) k, settled fixed e = true -> settled fixed (snd (fst (pre e k))) = true) /\
  (forall (es : exprs) k, settleds fixed es = true -> settleds fixed (snd (fst (pres es k))) = true).
Proof.
  destruct pre_empty as [PE PEs]. destruct pre_rest as [PR PRs].
  apply expr_both; intros; eqs_all; try reflexivity.
  - apply andb_prop in H0. destruct H0 as [F S1]. specialize (H k S1). split_pre. (cbn [fst snd] in *; eqs_all; cbn [fst snd] in *). rewrite F, H. reflexivity.
  - split_pre. reflexivity.
  - pose proof (PE a k) as Ea. specialize (H k). split_pre. specialize (H0 n). pose proof (PE b n) as Eb. rewrite E0 in H0, Eb. cbn [fst snd] in *. rewrite Eb.
    destruct (calls b); [reflexivity|]. cbn [negb]. (cbn [fst snd orb] in *; eqs_all; cbn [fst snd orb] in *). apply andb_prop in H1. destruct H1 as [S1 S2]. rewrite (H S1), (H0 S2). apply orb_true_r.
  - pose proof (PE a k) as Ea. specialize (H k). split_pre. specialize (H0 n). pose proof (PE b n) as Eb. rewrite E0 in H0, Eb. cbn [fst snd] in *. rewrite Eb.
    destruct (calls b); [reflexivity|]. cbn [negb]. (cbn [fst snd orb] in *; eqs_all; cbn [fst snd orb] in *). apply andb_prop in H1. destruct H1 as [S1 S2]. rewrite (H S1), (H0 S2). apply orb_true_r.
  - pose proof (PE a k) as Ea. specialize (H k). split_pre. specialize (H1 n). pose proof (PE b n) as Eb. rewrite E0 in H1, Eb. specialize (H0 n0). rewrite E1 in H0. cbn [fst snd] in *.
    rewrite empty_app, Ea, Eb. destruct (calls a), (calls b); try reflexivity. (cbn [negb andb fst snd orb] in *; eqs_all; cbn [negb andb fst snd orb] in *).
    apply andb_prop in H2. destruct H2 as [S1 S2]. apply andb_prop in S1. destruct S1 as [S1 S3]. rewrite (H S1), (H0 S3), (H1 S2). apply orb_true_r.
  - apply andb_prop in H1. destruct H1 as [S1 S2]. specialize (H k S1). split_pre. specialize (H0 n S2). rewrite E0 in H0. (cbn [fst snd] in *; eqs_all; cbn [fst snd] in *). rewrite H, H0. reflexivity.
Qed.
Hypothesis RF : really_fixed fixed.
Lemma settled_value : (forall (e : expr) l, calls e = false -> settled fixed e = true -> exists v, forall w, eval e l w = Some (w, inl v)) /\
  (forall (es : exprs) l, callss es = false -> settleds fixed es = true -> exists v, forall w, evals es l w = Some (w, inl v)).
Proof.
  apply expr_both; intros; eqs_all; try discriminate;
    repeat match goal with H : _ || _ = false |- _ => apply orb_false_elim in H; destruct H end.
  - eexists. intro w. eqs. reflexivity.
  - apply andb_prop in H1. destruct H1 as [F S1]. destruct (H l H0 S1) as (vs & E). destruct (RF o F vs) as (v & V). exists v. intro w. eqs. rewrite E. cbn [bind]. rewrite V. reflexivity.
  - rewrite H3 in H2. apply andb_prop in H2. destruct H2 as [S1 S2]. destruct (H l H1 S1) as (v & V). destruct (H0 l H3 S2) as (v' & V').
    exists (if truth L v then v' else v). intro w. eqs. rewrite V. cbn [bind]. destruct (truth L v); [apply V'|reflexivity].
  - rewrite H3 in H2. apply andb_prop in H2. destruct H2 as [S1 S2]. destruct (H l H1 S1) as (v & V). destruct (H0 l H3 S2) as (v' & V').
    exists (if truth L v then v else v'). intro w. eqs. rewrite V. cbn [bind]. destruct (truth L v); [reflexivity|apply V'].
  - rewrite H2, H4 in H3. apply andb_prop in H3. destruct H3 as [S1 S2]. apply andb_prop in S1. destruct S1 as [S1 S3].
    destruct (H l H2 S1) as (v & V). destruct (H0 l H5 S3) as (u & U). destruct (H1 l H4 S2) as (v' & V').
    exists (if truth L u then v else v'). intro w. eqs. rewrite U. cbn [bind]. destruct (truth L u); auto.
  - eexists. intro w. eqs. reflexivity.
  - apply andb_prop in H2. destruct H2 as [S1 S2]. destruct (H l H1 S1) as (v & V). destruct (H0 l H3 S2) as (vs & VS). exists (v :: vs). intro w. eqs. rewrite V. cbn [bind]. rewrite VS. reflexivity.
Qed.

Variable n : nat.
Lemma exec_app : forall (a b : suite L) l w, exec n (app a b) l w = match exec n a l w with Some (l1, w1, ONext) => exec n b l1 w1 | r => r end.
Proof.
  fix IH 1. intros [|s a] b l w; [reflexivity|].
  change (exec n (app (Cons s a) b) l w) with (match exec_stmt n s l w with Some (l1, w1, ONext) => exec n (app a b) l1 w1 | r => r end).
  change (exec n (Cons s a) l w) with (match exec_stmt n s l w with Some (l1, w1, ONext) => exec n a l1 w1 | r => r end).
  destruct (exec_stmt n s l w) as [[[l1 w1] [| | | |]]|]; try reflexivity. apply IH.
Qed.
Lemma exec_cons : forall (s : stmt L) a l w, exec n (Cons s a) l w = match exec_stmt n s l w with Some (l1, w1, ONext) => exec n a l1 w1 | r => r end.
Proof. reflexivity. Qed.
Lemma exec_one : forall (s : stmt L) l w, exec n (one s) l w = exec_stmt n s l w.
Proof. intros s l w. unfold one. rewrite exec_cons. destruct (exec_stmt n s l w) as [[[l1 w1] [| | | |]]|]; reflexivity. Qed.
Lemma exec_set : forall x (e : expr) l w, exec_stmt n (Set_ x e) l w =
  match eval e l w with None => None | Some (w, inl v) => Some (put l x v, w, ONext) | Some (w, inr e) => Some (l, w, ORaise e) end.
Proof. reflexivity. Qed.
Lemma exec_if1 : forall (c : expr) a b l w, exec_stmt n (if1 c a b) l w = test (eval c l w) l (exec n a l) (exec n b l).
Proof. reflexivity. Qed.

(** ** Expressions. *)
Definition good {A} (k : nat) (src : res L A) (tgt : locals L -> world L -> res L A) (l : locals L) (r : sres L) : Prop :=
  match r with
  | None => src = None
  | Some (l1, w1, ONext) => same k l l1 /\ src = tgt l1 w1
  | Some (l1, w1, ORaise x) => same k l l1 /\ src = Some (w1, inr x)
  | _ => False
  end.
Variable m : nat.
Lemma pre_good :
  (forall (e : expr) k l w, m <= k -> below m e = true -> ordered fixed e = true ->
    good k (eval e l w) (eval (snd (fst (pre e k)))) l (exec n (fst (fst (pre e k))) l w)) /\
  (forall (es : exprs) k l w, m <= k -> belows m es = true -> ordereds fixed es = true ->
    good k (evals es l w) (evals (snd (fst (pres es k)))) l (exec n (fst (fst (pres es k))) l w)).
Proof.
  destruct pre_none as [PN PNs]. destruct pre_empty as [PE PEs]. destruct pre_rest as [PR PRs]. destruct below_more as [BM BMs].
  destruct pre_below as [PB PBs]. destruct eval_same as [ES ESs]. destruct eval_pure as [EP EPs]. destruct pre_settled as [PS PSs]. destruct settled_value as [SV SVs].
  apply expr_both.
  - intros x k l w M B O. eqs_all. cbn. split; [intros ? ?|]; reflexivity.
  - intros o es IH k l w M B O. eqs_all. specialize (IH k l w M B O). eqs. split_pre. cbn [fst snd] in *. unfold good in *.
    destruct (exec n s l w) as [[[l1 w1] [| | |v|x]]|]; try contradiction; eqs.
    + destruct IH as [S1 IH]. split; [exact S1|]. rewrite IH. reflexivity.
    + destruct IH as [S1 IH]. split; [exact S1|]. rewrite IH. reflexivity.
    + rewrite IH. reflexivity.
  - intros f es IH k l w M B O. eqs_all. specialize (IH k l w M B O). pose proof (PBs es k (BMs _ _ _ M B)) as PB1. eqs. split_pre. cbn [fst snd] in *. rewrite exec_app.
    unfold good in *. destruct (exec n s l w) as [[[l1 w1] [| | |v|x]]|]; try contradiction; eqs.
    + destruct IH as [S1 IH]. rewrite exec_one, exec_set. eqs. rewrite IH. destruct (bind _ _) as [[w2 [v|x]]|]; [| |reflexivity].
      * split; [|eqs; rewrite put_here; reflexivity]. eapply same_trans; [exact S1|]. apply same_put. lia.
      * split; [exact S1|reflexivity].
    + destruct IH as [S1 IH]. split; [exact S1|]. rewrite IH. reflexivity.
    + rewrite IH. reflexivity.
  - intros a IHa b IHb k l w M B O. eqs_all. apply andb_prop in B. destruct B as [Ba Bb]. apply andb_prop in O. destruct O as [Oa Ob].
    specialize (IHa k l w M Ba Oa). pose proof (PB a k (BM _ _ _ M Ba)) as PB1. pose proof (PR a k) as PR1.
    eqs. split_pre. rename s into pa, e into a', n0 into k1, s0 into pb, e0 into b', n1 into k2. cbn [fst snd] in *.
    assert (M1 : m <= k1) by lia. pose proof (PB b k1 (BM _ _ _ M1 Bb)) as PB2. pose proof (PR b k1) as PR2. pose proof (PE b k1) as PE2. rewrite E0 in PB2, PR2, PE2. cbn [fst snd] in *.
    destruct (empty pb) eqn:EB.
    + assert (Eb : pre b k1 = (Nil, b, k1)) by (apply PN; destruct (calls b); [discriminate PE2|reflexivity]). rewrite E0 in Eb. injection Eb as -> -> ->.
      cbn [fst snd]. unfold good in *. destruct (exec n pa l w) as [[[l1 w1] [| | |v|x]]|]; try contradiction; eqs.
      * destruct IHa as [S1 IHa]. split; [exact S1|]. rewrite IHa. destruct (eval a' l1 w1) as [[w2 [v|x]]|]; cbn [bind]; try reflexivity.
        rewrite (ES b m l l1 Bb (same_less _ _ _ _ M S1)). reflexivity.
      * destruct IHa as [S1 IHa]. split; [exact S1|]. rewrite IHa. reflexivity.
      * rewrite IHa. reflexivity.
    + cbn [fst snd]. rewrite exec_app. unfold good in *. destruct (exec n pa l w) as [[[l1 w1] [| | |v|x]]|]; try contradiction.
      * destruct IHa as [S1 IHa]. rewrite exec_cons, exec_set. eqs. rewrite IHa. destruct (EP a' l1 w1 PR1) as ([v|x] & Ev); rewrite Ev; cbn [bind].
        -- rewrite exec_one, exec_if1. eqs. rewrite put_here. cbn [test].
           assert (S2 : same k l (put l1 k2 v)) by (eapply same_trans; [exact S1|apply same_put; lia]).
           destruct (truth L v).
           ++ rewrite exec_app. specialize (IHb k1 (put l1 k2 v) w1 M1 Bb Ob). rewrite E0 in IHb. cbn [fst snd] in IHb.
              rewrite (ES b m l (put l1 k2 v) Bb (same_less _ _ _ _ M S2)).
              destruct (exec n pb (put l1 k2 v) w1) as [[[l3 w3] [| | |u|x]]|]; try contradiction.
              ** destruct IHb as [S3 IHb]. assert (S4 : same k l l3) by (eapply same_trans; [exact S2|eapply same_less; [|exact S3]; lia]).
                 rewrite exec_one, exec_set, IHb. destruct (eval b' l3 w3) as [[w4 [u|x]]|]; [| |reflexivity].
                 --- split; [|eqs; rewrite put_here; reflexivity]. eapply same_trans; [exact S4|apply same_put; lia].
                 --- split; [exact S4|reflexivity].
              ** destruct IHb as [S3 IHb]. split; [|exact IHb]. eapply same_trans; [exact S2|eapply same_less; [|exact S3]; lia].
              ** exact IHb.
           ++ rewrite exec_one, exec_set. eqs. rewrite put_here. split; [|eqs; rewrite put_here; reflexivity]. eapply same_trans; [exact S2|apply same_put; lia].
        -- split; [exact S1|reflexivity].
      * destruct IHa as [S1 IHa]. split; [exact S1|]. eqs. rewrite IHa. reflexivity.
      * eqs. rewrite IHa. reflexivity.
  - intros a IHa b IHb k l w M B O. eqs_all. apply andb_prop in B. destruct B as [Ba Bb]. apply andb_prop in O. destruct O as [Oa Ob].
    specialize (IHa k l w M Ba Oa). pose proof (PB a k (BM _ _ _ M Ba)) as PB1. pose proof (PR a k) as PR1.
    eqs. split_pre. rename s into pa, e into a', n0 into k1, s0 into pb, e0 into b', n1 into k2. cbn [fst snd] in *.
    assert (M1 : m <= k1) by lia. pose proof (PB b k1 (BM _ _ _ M1 Bb)) as PB2. pose proof (PR b k1) as PR2. pose proof (PE b k1) as PE2. rewrite E0 in PB2, PR2, PE2. cbn [fst snd] in *.
    destruct (empty pb) eqn:EB.
    + assert (Eb : pre b k1 = (Nil, b, k1)) by (apply PN; destruct (calls b); [discriminate PE2|reflexivity]). rewrite E0 in Eb. injection Eb as -> -> ->.
      cbn [fst snd]. unfold good in *. destruct (exec n pa l w) as [[[l1 w1] [| | |v|x]]|]; try contradiction; eqs.
      * destruct IHa as [S1 IHa]. split; [exact S1|]. rewrite IHa. destruct (eval a' l1 w1) as [[w2 [v|x]]|]; cbn [bind]; try reflexivity.
        rewrite (ES b m l l1 Bb (same_less _ _ _ _ M S1)). reflexivity.
      * destruct IHa as [S1 IHa]. split; [exact S1|]. rewrite IHa. reflexivity.
      * rewrite IHa. reflexivity.
    + cbn [fst snd]. rewrite exec_app. unfold good in *. destruct (exec n pa l w) as [[[l1 w1] [| | |v|x]]|]; try contradiction.
      * destruct IHa as [S1 IHa]. rewrite exec_cons, exec_set. eqs. rewrite IHa. destruct (EP a' l1 w1 PR1) as ([v|x] & Ev); rewrite Ev; cbn [bind].
        -- rewrite exec_one, exec_if1. eqs. rewrite put_here. cbn [test].
           assert (S2 : same k l (put l1 k2 v)) by (eapply same_trans; [exact S1|apply same_put; lia]).
           destruct (truth L v).
           ++ rewrite exec_one, exec_set. eqs. rewrite put_here. split; [|eqs; rewrite put_here; reflexivity]. eapply same_trans; [exact S2|apply same_put; lia].
           ++ rewrite exec_app. specialize (IHb k1 (put l1 k2 v) w1 M1 Bb Ob). rewrite E0 in IHb. cbn [fst snd] in IHb.
              rewrite (ES b m l (put l1 k2 v) Bb (same_less _ _ _ _ M S2)).
              destruct (exec n pb (put l1 k2 v) w1) as [[[l3 w3] [| | |u|x]]|]; try contradiction.
              ** destruct IHb as [S3 IHb]. assert (S4 : same k l l3) by (eapply same_trans; [exact S2|eapply same_less; [|exact S3]; lia]).
                 rewrite exec_one, exec_set, IHb. destruct (eval b' l3 w3) as [[w4 [u|x]]|]; [| |reflexivity].
                 --- split; [|eqs; rewrite put_here; reflexivity]. eapply same_trans; [exact S4|apply same_put; lia].
                 --- split; [exact S4|reflexivity].
              ** destruct IHb as [S3 IHb]. split; [|exact IHb]. eapply same_trans; [exact S2|eapply same_less; [|exact S3]; lia].
              ** exact IHb.
        -- split; [exact S1|reflexivity].
      * destruct IHa as [S1 IHa]. split; [exact S1|]. eqs. rewrite IHa. reflexivity.
      * eqs. rewrite IHa. reflexivity.
  - intros a IHa c IHc b IHb k l w M B O. eqs_all. apply andb_prop in B. destruct B as [Ba Bb]. apply andb_prop in Ba. destruct Ba as [Ba Bc].
    apply andb_prop in O. destruct O as [Oa Ob]. apply andb_prop in Oa. destruct Oa as [Oa Oc].
    pose proof (PB a k (BM _ _ _ M Ba)) as PB1. pose proof (PE a k) as PE1.
    eqs. split_pre. rename s into pa, e into a', n0 into k1, s0 into pb, e0 into b', n1 into k2, s1 into pc, e1 into c', n2 into k3. cbn [fst snd] in *.
    assert (M1 : m <= k1) by lia. pose proof (PB b k1 (BM _ _ _ M1 Bb)) as PB2. pose proof (PE b k1) as PE2. rewrite E0 in PB2, PE2. cbn [fst snd] in *.
    assert (M2 : m <= k2) by lia. pose proof (PB c k2 (BM _ _ _ M2 Bc)) as PB3. rewrite E1 in PB3. pose proof (PR c k2) as PR3. rewrite E1 in PR3.
    specialize (IHc k2 l w M2 Bc Oc). rewrite E1 in IHc. cbn [fst snd] in *. rewrite empty_app, PE1, PE2.
    destruct (calls a || calls b) eqn:CB.
    + assert (negb (calls a) && negb (calls b) = false) as -> by (destruct (calls a), (calls b); try reflexivity; discriminate CB).
      cbn [fst snd]. rewrite exec_app. unfold good in *. destruct (exec n pc l w) as [[[l1 w1] [| | |v|x]]|]; try contradiction; eqs.
      * destruct IHc as [S1 IHc]. rewrite exec_one, exec_if1, IHc. destruct (EP c' l1 w1 PR3) as ([v|x] & Ev); rewrite Ev; cbn [bind test].
        -- destruct (truth L v).
           ++ rewrite exec_app. specialize (IHa k l1 w1 M Ba Oa). rewrite E in IHa. cbn [fst snd] in IHa.
              rewrite (ES a m l l1 Ba (same_less _ _ _ _ M2 S1)).
              destruct (exec n pa l1 w1) as [[[l3 w3] [| | |u|x]]|]; try contradiction.
              ** destruct IHa as [S3 IHa]. assert (S4 : same k l l3) by (eapply same_trans; [eapply same_less; [|exact S1]; lia|exact S3]).
                 rewrite exec_one, exec_set, IHa. destruct (eval a' l3 w3) as [[w4 [u|x]]|]; [| |reflexivity].
                 --- split; [|eqs; rewrite put_here; reflexivity]. eapply same_trans; [exact S4|apply same_put; lia].
                 --- split; [exact S4|reflexivity].
              ** destruct IHa as [S3 IHa]. split; [|exact IHa]. eapply same_trans; [eapply same_less; [|exact S1]; lia|exact S3].
              ** exact IHa.
           ++ rewrite exec_app. specialize (IHb k1 l1 w1 M1 Bb Ob). rewrite E0 in IHb. cbn [fst snd] in IHb.
              rewrite (ES b m l l1 Bb (same_less _ _ _ _ M2 S1)).
              destruct (exec n pb l1 w1) as [[[l3 w3] [| | |u|x]]|]; try contradiction.
              ** destruct IHb as [S3 IHb]. assert (S4 : same k l l3) by (eapply same_trans; [eapply same_less; [|exact S1]; lia|eapply same_less; [|exact S3]; lia]).
                 rewrite exec_one, exec_set, IHb. destruct (eval b' l3 w3) as [[w4 [u|x]]|]; [| |reflexivity].
                 --- split; [|eqs; rewrite put_here; reflexivity]. eapply same_trans; [exact S4|apply same_put; lia].
                 --- split; [exact S4|reflexivity].
              ** destruct IHb as [S3 IHb]. split; [|exact IHb]. eapply same_trans; [eapply same_less; [|exact S1]; lia|eapply same_less; [|exact S3]; lia].
              ** exact IHb.
        -- split; [|reflexivity]. eapply same_less; [|exact S1]; lia.
      * destruct IHc as [S1 IHc]. split; [eapply same_less; [|exact S1]; lia|]. rewrite IHc. reflexivity.
      * rewrite IHc. reflexivity.
    + apply orb_false_elim in CB. destruct CB as [Ca Cb]. rewrite Ca, Cb. cbn [negb andb].
      rewrite (PN a k Ca) in E. injection E as <- <- <-. rewrite (PN b k Cb) in E0. injection E0 as <- <- <-.
      cbn [fst snd]. unfold good in *. destruct (exec n pc l w) as [[[l1 w1] [| | |v|x]]|]; try contradiction; eqs.
      * destruct IHc as [S1 IHc]. split; [exact S1|]. rewrite IHc. destruct (eval c' l1 w1) as [[w2 [v|x]]|]; cbn [bind]; try reflexivity.
        rewrite (ES b m l l1 Bb (same_less _ _ _ _ M S1)), (ES a m l l1 Ba (same_less _ _ _ _ M S1)). reflexivity.
      * destruct IHc as [S1 IHc]. split; [exact S1|]. rewrite IHc. reflexivity.
      * rewrite IHc. reflexivity.
  - intros k l w M B O. eqs_all. cbn. split; [intros ? ?|]; reflexivity.
  - intros e IHe es IHs k l w M B O. eqs_all. apply andb_prop in B. destruct B as [Be Bs]. apply andb_prop in O. destruct O as [Oe Os]. apply andb_prop in Oe. destruct Oe as [Oe Q].
    specialize (IHe k l w M Be Oe). pose proof (PB e k (BM _ _ _ M Be)) as PB1. pose proof (PR e k) as PR1. pose proof (PS e k) as PS1.
    eqs. split_pre. rename s into p, e0 into e', n0 into k1, s0 into ps, e1 into es', n1 into k2. cbn [fst snd] in *.
    assert (M1 : m <= k1) by lia. rewrite exec_app. destruct (callss es) eqn:CE.
    + cbn [negb orb] in Q. specialize (PS1 Q). unfold good in *. destruct (exec n p l w) as [[[l1 w1] [| | |v|x]]|]; try contradiction; eqs.
      * destruct IHe as [S1 IHe]. destruct (SV e' l1 PR1 PS1) as (v & V). rewrite IHe, V. cbn [bind].
        specialize (IHs k1 l1 w1 M1 Bs Os). rewrite E0 in IHs. cbn [fst snd] in IHs. rewrite (ESs es m l l1 Bs (same_less _ _ _ _ M S1)).
        destruct (exec n ps l1 w1) as [[[l2 w2] [| | |u|x]]|]; try contradiction.
        -- destruct IHs as [S2 IHs]. split; [eapply same_trans; [exact S1|eapply same_less; [|exact S2]; lia]|].
           eqs. rewrite <- (ES e' k1 l1 l2 (proj2 PB1) S2), V. cbn [bind]. rewrite IHs. reflexivity.
        -- destruct IHs as [S2 IHs]. split; [eapply same_trans; [exact S1|eapply same_less; [|exact S2]; lia]|]. rewrite IHs. reflexivity.
        -- rewrite IHs. reflexivity.
      * destruct IHe as [S1 IHe]. split; [exact S1|]. rewrite IHe. reflexivity.
      * rewrite IHe. reflexivity.
    + rewrite (PNs es k1 CE) in E0. injection E0 as <- <- <-. unfold good in *. destruct (exec n p l w) as [[[l1 w1] [| | |v|x]]|]; try contradiction; eqs.
      * destruct IHe as [S1 IHe]. split; [exact S1|]. rewrite IHe. destruct (eval e' l1 w1) as [[w2 [v|x]]|]; cbn [bind]; try reflexivity.
        rewrite (ESs es m l l1 Bs (same_less _ _ _ _ M S1)). reflexivity.
      * destruct IHe as [S1 IHe]. split; [exact S1|]. rewrite IHe. reflexivity.
      * rewrite IHe. reflexivity.
Qed.
Lemma pre_top_good : forall (e : expr) k l w, m <= k -> below m e = true -> ordered fixed e = true ->
  good k (eval e l w) (eval (snd (fst (pre_top e k)))) l (exec n (fst (fst (pre_top e k))) l w).
Proof.
  intros e k l w M B O. destruct e; try exact (proj1 pre_good _ k l w M B O).
  pose proof (proj2 pre_good es k l w M B O) as IH. (cbn [pre_top]; cbn [pre_top]). split_pre. cbn [fst snd] in *. unfold good in *.
  destruct (exec n s l w) as [[[l1 w1] [| | |v|x]]|]; try contradiction; eqs.
  + destruct IH as [S1 IH]. split; [exact S1|]. rewrite IH. reflexivity.
  + destruct IH as [S1 IH]. split; [exact S1|]. rewrite IH. reflexivity.
  + rewrite IH. reflexivity.
Qed.

(** ** Statements. *)
Definition sim (r r' : sres L) : Prop :=
  match r, r' with
  | None, None => True
  | Some (l, w, o), Some (l', w', o') => same m l l' /\ w = w' /\ o = o'
  | _, _ => False
  end.
Definition sims (f g : locals L -> world L -> sres L) : Prop := forall l l' w, same m l l' -> sim (f l w) (g l' w).
Definition then_ (r : sres L) (f : locals L -> world L -> sres L) : sres L := match r with Some (l, w, ONext) => f l w | r => r end.
Lemma rounds_sim : forall f g, sims f g -> forall r, sims (rounds r f) (rounds r g).
Proof.
  intros f g H. induction r as [|r IH]; intros l l' w E; [exact I|]. cbn [rounds]. specialize (H l l' w E). unfold sim in H.
  destruct (f l w) as [[[l1 w1] o]|], (g l' w) as [[[l2 w2] o']|]; try contradiction; [|exact I]. destruct H as (E1 & <- & <-).
  destruct o; try (apply IH; exact E1); cbn; auto.
Qed.
Definition quiet_tail (bs : branches L) : bool := match bs with BCons _ _ bs => quiet bs | BNil => true end.

Ltac split_all := repeat match goal with
  | |- context [pre ?e ?k] => let E := fresh "E" in destruct (pre e k) as [[? ?] ?] eqn:E
  | |- context [pre_top ?e ?k] => let E := fresh "E" in destruct (pre_top e k) as [[? ?] ?] eqn:E
  | |- context [pre_stmt ?e ?k] => let E := fresh "E" in destruct (pre_stmt e k) as [[? ?] ?] eqn:E
  | |- context [pre_suite ?e ?k] => let E := fresh "E" in destruct (pre_suite e k) as [? ?] eqn:E
  | |- context [pre_branches ?e ?k] => let E := fresh "E" in destruct (pre_branches e k) as [[? ?] ?] eqn:E
  end.

Lemma usess_more : (forall (s : stmt L) a b, a <= b -> uses a s = true -> uses b s = true) /\
  (forall (s : suite L) a b, a <= b -> usess a s = true -> usess b s = true) /\
  (forall (s : branches L) a b, a <= b -> usesb a s = true -> usesb b s = true).
Proof.
  apply stmt_all; intros; eqs_all; try reflexivity; repeat match goal with H : _ && _ = true |- _ => apply andb_prop in H; destruct H end;
    rewrite ?andb_true_iff; repeat split; eauto using (proj1 below_more). apply Nat.ltb_lt in H0. apply Nat.ltb_lt. lia.
Qed.
Lemma top_more : forall (e : expr) k, below k e = true -> k <= snd (pre_top e k).
Proof.
  intros e k B. destruct e; try exact (proj1 (proj1 pre_below _ k B)). pose proof (proj1 (proj2 pre_below es k B)) as H. (cbn [pre_top]; cbn [pre_top]). split_pre. exact H.
Qed.
Lemma stmt_more : (forall (s : stmt L) k, uses k s = true -> k <= snd (pre_stmt s k)) /\
  (forall (s : suite L) k, usess k s = true -> k <= snd (pre_suite s k)) /\
  (forall (s : branches L) k, usesb k s = true -> k <= snd (pre_branches s k)).
Proof.
  destruct usess_more as (UM & UMs & UMb). destruct below_more as [BM _].
  apply stmt_all; intros; eqs_all; try (cbn; lia);
    repeat match goal with H : _ && _ = true |- _ => apply andb_prop in H; destruct H end.
  - pose proof (top_more e k H) as T. split_all. exact T.
  - pose proof (top_more e k H0) as T. split_all. exact T.
  - pose proof (top_more e k H) as T. split_all. exact T.
  - specialize (H k H1). split_all. cbn [snd] in *. specialize (H0 n0). rewrite E0 in H0. cbn [snd] in *. specialize (H0 (UMs _ _ _ H H2)). lia.
  - specialize (H k H0). split_all. exact H.
  - specialize (H k H1). split_all. cbn [snd] in *. specialize (H0 n0). rewrite E0 in H0. cbn [snd] in *. specialize (H0 (UMs _ _ _ H H2)). lia.
  - pose proof (proj1 (proj1 pre_below c k H1)) as T. split_all. cbn [snd] in *. specialize (H n0). rewrite E0 in H. cbn [snd] in *. specialize (H (UMs _ _ _ T H3)).
    specialize (H0 n1). rewrite E1 in H0. cbn [snd] in *. assert (K : k <= n1) by lia. specialize (H0 (UMb _ _ _ K H2)). lia.
Qed.

Lemma test_sim : forall r l l' yes no yes' no', same m l l' -> (forall w, sim (yes w) (yes' w)) -> (forall w, sim (no w) (no' w)) ->
  sim (test r l yes no) (test r l' yes' no').
Proof.
  intros r l l' yes no yes' no' E Y N. destruct r as [[w [v|x]]|]; cbn [test]; [destruct (truth L v); auto| |exact I]. cbn. auto.
Qed.
Lemma stmt_sim :
  (forall (s : stmt L) k, m <= k -> uses m s = true -> ordered_stmt fixed s = true ->
    sims (exec_stmt n s) (fun l w => then_ (exec n (fst (fst (pre_stmt s k))) l w) (exec_stmt n (snd (fst (pre_stmt s k)))))) /\
  (forall (ss : suite L) k, m <= k -> usess m ss = true -> ordered_suite fixed ss = true ->
    sims (exec n ss) (exec n (fst (pre_suite ss k)))) /\
  (forall (bs : branches L) k, m <= k -> usesb m bs = true -> ordered_branches fixed bs = true ->
    (quiet bs = true -> fst (fst (pre_branches bs k)) = Nil) /\
    (quiet_tail bs = true -> forall els els', sims els els' ->
      sims (exec_if n bs els) (fun l w => then_ (exec n (fst (fst (pre_branches bs k))) l w) (exec_if n (snd (fst (pre_branches bs k))) els')))).
Proof.
  destruct usess_more as (UM & UMs & UMb). destruct below_more as [BM _]. destruct stmt_more as (SM & SMs & SMb). destruct eval_same as [ES _].
  apply stmt_all.
  - intros e k M U O l l' w E. eqs_all. pose proof (pre_top_good e k l' w M U O) as G. split_all. cbn [fst snd] in *. eqs. rewrite (ES e m l l' U E). unfold good in G.
    destruct (exec n s l' w) as [[[l1 w1] [| | |v|x]]|]; try contradiction; cbn [then_].
    + destruct G as [S1 G]. rewrite G. assert (S2 : same m l l1) by (eapply same_trans; [exact E|eapply same_less; [exact M|exact S1]]). eqs.
      destruct (eval e0 l1 w1) as [[w2 [v|x]]|]; cbn; auto.
    + destruct G as [S1 G]. rewrite G. assert (S2 : same m l l1) by (eapply same_trans; [exact E|eapply same_less; [exact M|exact S1]]). cbn. auto.
    + rewrite G. exact I.
  - intros y e k M U O l l' w E. eqs_all. apply andb_prop in U. destruct U as [Y U]. apply Nat.ltb_lt in Y. pose proof (pre_top_good e k l' w M U O) as G. split_all. cbn [fst snd] in *. eqs. rewrite (ES e m l l' U E). unfold good in G.
    destruct (exec n s l' w) as [[[l1 w1] [| | |v|x]]|]; try contradiction; cbn [then_].
    + destruct G as [S1 G]. rewrite G. assert (S2 : same m l l1) by (eapply same_trans; [exact E|eapply same_less; [exact M|exact S1]]). eqs.
      destruct (eval e0 l1 w1) as [[w2 [v|x]]|]; cbn; auto. split; [|auto]. intros z Z. unfold put. destruct (Nat.eqb z y); [reflexivity|apply S2, Z].
    + destruct G as [S1 G]. rewrite G. assert (S2 : same m l l1) by (eapply same_trans; [exact E|eapply same_less; [exact M|exact S1]]). cbn. auto.
    + rewrite G. exact I.
  - intros e k M U O l l' w E. eqs_all. pose proof (pre_top_good e k l' w M U O) as G. split_all. cbn [fst snd] in *. eqs. rewrite (ES e m l l' U E). unfold good in G.
    destruct (exec n s l' w) as [[[l1 w1] [| | |v|x]]|]; try contradiction; cbn [then_].
    + destruct G as [S1 G]. rewrite G. assert (S2 : same m l l1) by (eapply same_trans; [exact E|eapply same_less; [exact M|exact S1]]). eqs.
      destruct (eval e0 l1 w1) as [[w2 [v|x]]|]; cbn; auto.
    + destruct G as [S1 G]. rewrite G. assert (S2 : same m l l1) by (eapply same_trans; [exact E|eapply same_less; [exact M|exact S1]]). cbn. auto.
    + rewrite G. exact I.
  - intros k M U O l l' w E. eqs_all. cbn. auto.
  - intros k M U O l l' w E. eqs_all. cbn. auto.
  - intros bs IHb els IHe k M U O. eqs_all. apply andb_prop in U. destruct U as [Ub Ue]. apply andb_prop in O. destruct O as [Ob Oe]. apply andb_prop in Ob. destruct Ob as [Ob Q].
    pose proof (SMb bs k (UMb _ _ _ M Ub)) as K. destruct (IHb k M Ub Ob) as [_ H]. split_all. cbn [fst snd] in *.
    specialize (IHe n0 ltac:(lia) Ue Oe). rewrite E0 in IHe. cbn [fst] in IHe. specialize (H Q (exec n els) (exec n s0) IHe). exact H.
  - intros b IHb k M U O. eqs_all. specialize (IHb k M U O). split_all. cbn [fst snd] in *. intros l l' w E1. (cbn [then_]; eqs; cbn [then_]).
    change (exec_stmt n (Loop b) l w) with (rounds n (exec n b) l w). change (exec_stmt n (Loop s) l' w) with (rounds n (exec n s) l' w). apply rounds_sim; assumption.
  - intros k M U O l l' w E. eqs_all. cbn. auto.
  - intros s IHs ss IHss k M U O. eqs_all. apply andb_prop in U. destruct U as [U1 U2]. apply andb_prop in O. destruct O as [O1 O2].
    pose proof (SM s k (UM _ _ _ M U1)) as K. specialize (IHs k M U1 O1). split_all. cbn [fst snd] in *. specialize (IHss n0 ltac:(lia) U2 O2). rewrite E0 in IHss. cbn [fst] in IHss.
    intros l l' w E1. rewrite exec_app, exec_cons. specialize (IHs l l' w E1).
    destruct (exec_stmt n s l w) as [[[l1 w1] o]|]; destruct (exec n s0 l' w) as [[[l2 w2] o']|]; cbn [then_] in IHs.
    + destruct o'; cbn [then_] in IHs; try (destruct IHs as (S1 & -> & ->); cbn; auto; fail).
      rewrite exec_cons. destruct (exec_stmt n s1 l2 w2) as [[[l3 w3] o3]|]; [|contradiction]. destruct IHs as (S1 & -> & ->). destruct o3; [apply IHss, S1| | | |]; cbn; auto.
    + contradiction.
    + destruct o'; cbn [then_] in IHs; try contradiction. rewrite exec_cons. destruct (exec_stmt n s1 l2 w2) as [[[l3 w3] o3]|]; [contradiction|exact I].
    + exact I.
  - intros k M U O. eqs_all. split; [reflexivity|]. intros _ els els' H l l' w E. cbn. apply H, E.
  - intros c b IHb bs IHbs k M U O. eqs_all. apply andb_prop in U. destruct U as [U1 U3]. apply andb_prop in U1. destruct U1 as [U1 U2].
    apply andb_prop in O. destruct O as [O1 O3]. apply andb_prop in O1. destruct O1 as [O1 O2].
    pose proof (proj1 (proj1 pre_below c k (BM _ _ _ M U1))) as K1. pose proof (fun l w => proj1 pre_good c k l w M U1 O1) as G. pose proof (proj1 pre_empty c k) as PE1.
    split_all. rename s into p, e into c', n0 into k1, s0 into b', n1 into k2, s1 into ps, b0 into bs', n2 into k3. cbn [fst snd] in *.
    pose proof (SMs b k1 (UMs _ _ _ (Nat.le_trans _ _ _ M K1) U2)) as K2. rewrite E0 in K2. cbn [snd] in K2.
    specialize (IHb k1 ltac:(lia) U2 O2). rewrite E0 in IHb. cbn [fst] in IHb. destruct (IHbs k2 ltac:(lia) U3 O3) as [IH1 IH2]. rewrite E1 in IH1, IH2. cbn [fst snd] in IH1, IH2.
    split.
    + eqs. intro Q. apply andb_prop in Q. destruct Q as [Q1 Q2]. rewrite (IH1 Q2), app_nil. apply empty_nil. rewrite PE1. exact Q1.
    + (cbn [quiet_tail]; cbn [quiet_tail]). intros Q els els' HE l l' w E2. specialize (IH1 Q). subst ps. rewrite app_nil. specialize (G l' w).
      assert (QT : quiet_tail bs = true) by (destruct bs as [|c2 b2 bs2]; [reflexivity|autorewrite with hoist in Q; apply andb_prop in Q; exact (proj2 Q)]).
      specialize (IH2 QT els els' HE). (cbn [then_] in IH2; autorewrite with hoist in IH2; cbn [then_] in IH2).
      change (exec_if n (BCons c b bs) els l w) with (test (eval c l w) l (exec n b l) (exec_if n bs els l)). rewrite (ES c m l l' U1 E2). unfold good in G.
      destruct (exec n p l' w) as [[[l1 w1] [| | |v|x]]|]; try contradiction; cbn [then_].
      * destruct G as [S1 G]. rewrite G. change (exec_if n (BCons c' b' bs') els' l1 w1) with (test (eval c' l1 w1) l1 (exec n b' l1) (exec_if n bs' els' l1)).
        assert (S2 : same m l l1) by (eapply same_trans; [exact E2|eapply same_less; [exact M|exact S1]]).
        apply test_sim; [exact S2|intro w2; apply IHb, S2|intro w2; apply IH2, S2].
      * destruct G as [S1 G]. rewrite G. cbn. split; [|auto]. eapply same_trans; [exact E2|eapply same_less; [exact M|exact S1]].
      * rewrite G. exact I.
Qed.
End Facts.

(** ** No calls remain inside of expressions. *)
Section Flat.
Variable L : lang.
Lemma flats_app : forall a b : suite L, flats (app a b) = flats a && flats b.
Proof.
  fix IH 1. intros [|s a] b; [reflexivity|]. change (flats (app (Cons s a) b)) with (flat s && flats (app a b)). rewrite IH. change (flats (Cons s a)) with (flat s && flats a).
  apply andb_assoc.
Qed.
Ltac split_all := repeat match goal with
  | |- context [pre ?e ?k] => let E := fresh "E" in destruct (pre e k) as [[? ?] ?] eqn:E
  | |- context [pres ?e ?k] => let E := fresh "E" in destruct (pres e k) as [[? ?] ?] eqn:E
  | |- context [pre_top ?e ?k] => let E := fresh "E" in destruct (pre_top e k) as [[? ?] ?] eqn:E
  | |- context [pre_stmt ?e ?k] => let E := fresh "E" in destruct (pre_stmt e k) as [[? ?] ?] eqn:E
  | |- context [pre_suite ?e ?k] => let E := fresh "E" in destruct (pre_suite e k) as [? ?] eqn:E
  | |- context [pre_branches ?e ?k] => let E := fresh "E" in destruct (pre_branches e k) as [[? ?] ?] eqn:E
  end.
Lemma flat_top_none : forall e : expr L, calls e = false -> flat_top e = true.
Proof. intros [] H; (cbn [flat_top]; cbn [flat_top]); try (rewrite H; reflexivity). discriminate H. Qed.
Lemma flat_set : forall x (e : expr L), flats (one (Set_ x e)) = flat_top e.
Proof. intros x e. change (flats (one (Set_ x e))) with (flat_top e && true). apply andb_true_r. Qed.
Lemma flat_if : forall (c : expr L) a b, flats (one (if1 c a b)) = negb (calls c) && flats a && flats b.
Proof. intros c a b. change (flats (one (if1 c a b))) with ((negb (calls c) && flats a && true) && flats b && true). rewrite !andb_true_r. reflexivity. Qed.
Lemma pre_flat : (forall (e : expr L) k, flats (fst (fst (pre e k))) = true) /\ (forall (es : exprs L) k, flats (fst (fst (pres es k))) = true).
Proof.
  destruct (pre_rest L) as [PR PRs]. apply expr_both; intros; eqs_all; try reflexivity.
  - specialize (H k). split_all. exact H.
  - specialize (H k). pose proof (PRs es k) as R. split_all. cbn [fst snd] in *. rewrite flats_app, H, flat_set. (cbn [flat_top]; cbn [flat_top]). rewrite R. reflexivity.
  - specialize (H k). pose proof (PR a k) as R1. split_all. specialize (H0 n). pose proof (PR b n) as R2. rewrite E0 in H0, R2. cbn [fst snd] in *. destruct (empty s0); [exact H|].
    cbn [fst]. rewrite flats_app, H.
    match goal with |- _ && flats (Cons _ ?t) = true => change (flat_top e && flats t = true) end.
    rewrite (flat_top_none _ R1), flat_if, flats_app, H0, !flat_set, (flat_top_none _ R2). reflexivity.
  - specialize (H k). pose proof (PR a k) as R1. split_all. specialize (H0 n). pose proof (PR b n) as R2. rewrite E0 in H0, R2. cbn [fst snd] in *. destruct (empty s0); [exact H|].
    cbn [fst]. rewrite flats_app, H.
    match goal with |- _ && flats (Cons _ ?t) = true => change (flat_top e && flats t = true) end.
    rewrite (flat_top_none _ R1), flat_if, flats_app, H0, !flat_set, (flat_top_none _ R2). reflexivity.
  - specialize (H k). pose proof (PR a k) as R1. split_all. specialize (H1 n). pose proof (PR b n) as R2. rewrite E0 in H1, R2. specialize (H0 n0). pose proof (PR c n0) as R3. rewrite E1 in H0, R3.
    cbn [fst snd] in *. destruct (empty (app s s0)); [exact H0|]. cbn [fst]. rewrite flats_app, H0, flat_if, R3, !flats_app, H, H1, !flat_set, (flat_top_none _ R1), (flat_top_none _ R2). reflexivity.
  - specialize (H k). split_all. specialize (H0 n). rewrite E0 in H0. cbn [fst snd] in *. rewrite flats_app, H, H0. reflexivity.
Qed.
Lemma top_flat : forall (e : expr L) k, flats (fst (fst (pre_top e k))) = true /\ flat_top (snd (fst (pre_top e k))) = true.
Proof.
  intros e k. destruct (pre_rest L) as [PR PRs]. destruct pre_flat as [PF PFs]. destruct e; try (split; [apply PF|apply flat_top_none, PR]).
  (cbn [pre_top]; cbn [pre_top]). pose proof (PFs es k) as F. pose proof (PRs es k) as R. split_all. (cbn [fst snd flat_top] in *; cbn [fst snd flat_top] in *). rewrite R. auto.
Qed.
Lemma suite_flat :
  (forall (s : stmt L) k, flats (fst (fst (pre_stmt s k))) = true /\ flat (snd (fst (pre_stmt s k))) = true) /\
  (forall (ss : suite L) k, flats (fst (pre_suite ss k)) = true) /\
  (forall (bs : branches L) k, flats (fst (fst (pre_branches bs k))) = true /\ flatb (snd (fst (pre_branches bs k))) = true).
Proof.
  apply stmt_all; intros; eqs_all; try (split; reflexivity).
  - pose proof (top_flat e k) as F. split_all. exact F.
  - pose proof (top_flat e k) as F. split_all. exact F.
  - pose proof (top_flat e k) as F. split_all. exact F.
  - specialize (H k). split_all. specialize (H0 n). rewrite E0 in H0. cbn [fst snd] in *. split; [exact (proj1 H)|]. change (flatb b && flats s0 = true). rewrite (proj2 H), H0. reflexivity.
  - specialize (H k). split_all. cbn [fst snd] in *. auto.
  - specialize (H k). split_all. specialize (H0 n). rewrite E0 in H0. cbn [fst snd] in *. rewrite flats_app, (proj1 H). change (flat s1 && flats s2 = true). rewrite (proj2 H), H0. reflexivity.
  - pose proof (proj1 pre_flat c k) as F. pose proof (proj1 (pre_rest L) c k) as R. split_all. specialize (H n). rewrite E0 in H. specialize (H0 n0). rewrite E1 in H0. cbn [fst snd] in *.
    split; [rewrite flats_app, F, (proj1 H0); reflexivity|]. change (negb (calls e) && flats s0 && flatb b0 = true). rewrite R, H, (proj2 H0). reflexivity.
Qed.
End Flat.

(** ** When every operation is fixed there is nothing to order. *)
Section All.
Variable L : lang.
Lemma all_settled : (forall e : expr L, settled (fun _ => true) e = true) /\ (forall es : exprs L, settleds (fun _ => true) es = true).
Proof. apply expr_both; intros; eqs; rewrite ?H, ?H0, ?H1; rewrite ?orb_true_r; reflexivity. Qed.
Lemma all_ordered : (forall e : expr L, ordered (fun _ => true) e = true) /\ (forall es : exprs L, ordereds (fun _ => true) es = true).
Proof. apply expr_both; intros; eqs; rewrite ?H, ?H0, ?H1, ?(proj1 all_settled); rewrite ?orb_true_r; reflexivity. Qed.
Lemma return_uses : forall m (e : expr L), below m e = true -> usess m (Cons (Return e) Nil) = true.
Proof. intros m e B. eqs. rewrite B. reflexivity. Qed.
Lemma return_ordered : forall fixed (e : expr L), ordered fixed e = true -> ordered_suite fixed (Cons (Return e) Nil) = true.
Proof. intros fixed e B. eqs. rewrite B. reflexivity. Qed.
Lemma return_exec : forall n (e : expr L) l w, exec n (Cons (Return e) Nil) l w =
  match eval e l w with None => None | Some (w, inl v) => Some (l, w, OReturn v) | Some (w, inr x) => Some (l, w, ORaise x) end.
Proof. intros n e l w. rewrite exec_cons. eqs. destruct (eval e l w) as [[w1 [v|x]]|]; reflexivity. Qed.
End All.

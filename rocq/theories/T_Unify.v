(** Unification: theorems. *)
From Coq Require Import List Arith Bool Lia.
From Verif Require Import S_Unify M_Unify P_Unify P_Unify2.
Import ListNotations.

Section Theorems.
Variable con_arity : nat -> nat.
Variable level : nat -> nat.
Notation wf := (S_Unify.wf con_arity).
Notation unify := (M_Unify.unify level).
Definition problem (ps : list (ty * ty)) : Prop := forall a b, In (a, b) ps -> wf a /\ wf b.
(** The states of the substitution: none, or what unification made of an earlier one. *)
Inductive state : subst -> Prop :=
| st_start : state []
| st_more : forall n s ps s', state s -> problem ps -> unify n s ps = Done s' -> state s'.
Lemma state_good : forall s, state s -> good con_arity s.
Proof. induction 1 as [|n s ps s' _ IH P U]; [constructor|]. apply (unify_sound con_arity level n s ps s' IH P U). Qed.

(** The types unified have become equal, and what was equal before still is. *)
Theorem C95_sound : forall n s ps s', state s -> problem ps -> unify n s ps = Done s' ->
  (forall a b, In (a, b) ps -> app s' a = app s' b) /\ (forall a b, wf a -> wf b -> app s a = app s b -> app s' a = app s' b).
Proof.
  intros n s ps s' S P U. destruct (unify_sound con_arity level n s ps s' (state_good s S) P U) as (_ & (l & ->) & E). split; [exact E|].
  assert (APP : forall l s x, app (l ++ s) x = app l (app s x)) by (clear; induction l as [|[v t] l IH]; intros s x; [reflexivity|]; cbn; rewrite IH; reflexivity). intros a b _ _ H. rewrite !APP, H. reflexivity.
Qed.
(** It ends. *)
Theorem C95_terminates : forall s ps, state s -> problem ps -> exists n r, r <> More /\ forall m, n <= m -> unify m s ps = r.
Proof.
  intros s ps S P. destruct (unify_stops con_arity level (length (flat_map (fun p => vars (app s (fst p)) ++ vars (app s (snd p))) ps)) (total s ps) s ps (flat_map (fun p => vars (app s (fst p)) ++ vars (app s (snd p))) ps) (state_good s S) P (le_n _) (le_n _)) as [n N].
  - intros a b v I J. apply in_flat_map. exists (a, b). split; [exact I|]. apply in_or_app. exact J.
  - exists n, (unify n s ps). split; [exact N|]. intros m L. apply unify_more; assumption.
Qed.
(** The result is as general as every solution that makes no option of an option; with such a solution there is a result.
    Missing: other solutions (see C95_options_refuted, C95_infinite_refuted). *)
Theorem C95_most_general_partial : forall th s ps, state s -> problem ps -> agrees th s -> (forall v t, In (v, t) s -> plain th t) -> (forall a b, In (a, b) ps -> plain th a /\ plain th b) -> unifies th ps ->
  exists n s', unify n s ps = Done s' /\ agrees th s' /\ forall x, gsub th (app s' x) = gsub th x.
Proof.
  intros th s ps S P AG PS PP UN. destruct (C95_terminates s ps S P) as (n & r & N & H). pose proof (unify_complete con_arity level th n s ps (state_good s S) P AG PS PP UN) as C. rewrite (H n (le_n n)) in C. destruct r as [s'| |]; [|destruct C|contradiction].
  exists n, s'. split; [apply H, le_n|]. split; [exact C|]. intro x. apply agree_app, C.
Qed.
(** Types without options: it succeeds exactly if there is a solution, and then all solutions are instances of the result. *)
Theorem C95_no_options : forall ps, problem ps -> (forall a b, In (a, b) ps -> no_opt a /\ no_opt b) ->
  (exists n s', unify n [] ps = Done s' /\ forall th, unifies th ps -> forall x, gsub th (app s' x) = gsub th x) \/
  (exists n, unify n [] ps = Clash /\ forall th, ~ unifies th ps).
Proof.
  intros ps P NO. destruct (C95_terminates [] ps st_start P) as (n & r & N & H). specialize (H n (le_n n)).
  assert (C : forall th, unifies th ps -> match r with Done s' => agrees th s' | Clash => False | More => True end).
  { intros th U. rewrite <- H. apply (unify_complete con_arity level th n [] ps); auto; [constructor|intros v t []|intros v t []|]. intros a b I. destruct (NO a b I). split; apply no_opt_plain; assumption. }
  destruct r as [s'| |]; [left; exists n, s'; split; [exact H|intros th U x; apply agree_app, (C th U)]|right; exists n; split; [exact H|exact C]|contradiction].
Qed.
(** An error means that no solution maps variables to other things than options. *)
Theorem C95_error : forall n ps th, problem ps -> unify n [] ps = Clash -> (forall v, ~ is_opt (th v)) -> ~ unifies th ps.
Proof.
  intros n ps th P H N U. pose proof (unify_complete con_arity level th n [] ps) as C. rewrite H in C. apply C; auto; [constructor|intros v t []|intros v t []|]. intros a b I. destruct (P a b I). split; apply (never_opt_plain con_arity); assumption.
Qed.
(** A substitution leaves none of its variables. *)
Theorem C95_idempotent : forall s x, state s -> wf x -> app s (app s x) = app s x /\ forall v, In v (map fst s) -> ~ In v (vars (app s x)).
Proof.
  intros s x S W. apply state_good in S. split; [apply (app_id con_arity); [exact S|apply wf_app; assumption|intro v; apply (vars_app con_arity), S]|]. intros v I J. apply (vars_app con_arity s x v S J I).
Qed.
(** The equations of the code: a variable is looked up and the result substituted again; arguments one by one, options of options made one. *)
Theorem C95_equations : forall s, state s -> (forall v, app s (Uni v) = match lookup v s with Some t => app s t | None => Uni v end) /\
  forall h ts, wf (Node h ts) -> app s (Node h ts) = mk h (map (app s) ts).
Proof. intros s S. apply state_good in S. split; [intro v; apply (app_uni con_arity), S|intros h ts W; apply (app_node con_arity); assumption]. Qed.
(** Of two variables the one with the larger scope stays. *)
Theorem C95_levels : forall n s a b v w, app s a = Uni v -> app s b = Uni w -> exists s' u, unify (S n) s [(a, b)] = Done s' /\ app s' a = Uni u /\ app s' b = Uni u /\ (u = v \/ u = w) /\ level u = Nat.min (level v) (level w).
Proof.
  intros n s a b v w EA EB. cbn [M_Unify.unify]. rewrite EA, EB. destruct (Nat.eqb_spec v w) as [->|NE]; [exists s, w; repeat split; auto; [destruct n; reflexivity|lia]|]. destruct (Nat.ltb_spec (level v) (level w)) as [L|L].
  - exists ((w, Uni v) :: s), v. split; [destruct n; reflexivity|]. cbn [app]. rewrite EA, EB. cbn. unfold one. rewrite Nat.eqb_refl. apply Nat.eqb_neq in NE. rewrite NE. repeat split; auto. lia.
  - exists ((v, Uni w) :: s), w. split; [destruct n; reflexivity|]. cbn [app]. rewrite EA, EB. cbn. unfold one. rewrite Nat.eqb_refl. apply Nat.eqb_neq in NE. rewrite Nat.eqb_sym in NE. rewrite NE. repeat split; auto. lia.
Qed.
End Theorems.
(** With options results are not the most general: ?a and ?int give a = int, although a = ?int is a solution. *)
Theorem C95_options_refuted : exists ps s' th, problem (fun _ => 0) ps /\ unify (fun _ => 0) 9 [] ps = Done s' /\ unifies th ps /\ ~ (forall x, gsub th (app s' x) = gsub th x).
Proof.
  exists [(Node HOpt [Uni 0], Node HOpt [Node (HCon 1) []])], [(0, Node (HCon 1) [])], (fun _ => Node HOpt [Node (HCon 1) []]). split; [|split; [reflexivity|split]].
  - intros a b [E|[]]. injection E as <- <-. split; repeat (apply wf_node; [reflexivity|intros t [<-|[]]|reflexivity]); [apply wf_uni|]. apply wf_node; [reflexivity|intros t []|reflexivity].
  - intros a b [E|[]]. injection E as <- <-. reflexivity.
  - intro H. discriminate (H (Uni 0)).
Qed.
(** a and ?a are an infinite type, although a = ?int is a solution. *)
Theorem C95_infinite_refuted : exists ps th, problem (fun _ => 0) ps /\ unify (fun _ => 0) 9 [] ps = Clash /\ unifies th ps.
Proof.
  exists [(Uni 0, Node HOpt [Uni 0])], (fun _ => Node HOpt [Node (HCon 1) []]). split; [|split; [reflexivity|]]; intros a b [E|[]]; injection E as <- <-; [|reflexivity]. split; [apply wf_uni|]. apply wf_node; [reflexivity|intros t [<-|[]]; apply wf_uni|reflexivity].
Qed.
Print Assumptions C95_sound. Print Assumptions C95_terminates. Print Assumptions C95_most_general_partial. Print Assumptions C95_no_options. Print Assumptions C95_error. Print Assumptions C95_idempotent. Print Assumptions C95_equations. Print Assumptions C95_levels. Print Assumptions C95_options_refuted. Print Assumptions C95_infinite_refuted.

(** *** A problem with functions and rows: (a, list[b]) -> b and (list[c], a) -> int. *)
Definition ex_ar (n : nat) : nat := if n =? 2 then 1 else 0.
Definition ex_row (t u : ty) : ty := Node (HRow true 0) [t; Node (HRow true 1) [u; Node (HNil true) []]].
Definition ex_fun (t u r : ty) : ty := Node HFun [Node (HFX 0) []; ex_row t u; Node (HNil false) []; r].
Definition ex_ps : list (ty * ty) := [(ex_fun (Uni 0) (Node (HCon 2) [Uni 1]) (Uni 1), ex_fun (Node (HCon 2) [Uni 2]) (Uni 0) (Node (HCon 1) []))].
Example ex_wf : problem ex_ar ex_ps.
Proof. intros a b [E|[]]. injection E as <- <-. split; repeat (first [apply wf_uni|apply wf_node; [reflexivity|cbn; intros t T; repeat (destruct T as [<-|T]; [|]); try destruct T|reflexivity]]). Qed.
Example ex_no : forall a b, In (a, b) ex_ps -> no_opt a /\ no_opt b.
Proof. intros a b [E|[]]. injection E as <- <-. split; repeat (first [apply no_uni|apply no_node; [discriminate|cbn; intros t T; repeat (destruct T as [<-|T]; [|]); try destruct T]]). Qed.
Example ex_done : exists s, unify (fun _ => 0) 30 [] ex_ps = Done s /\ app s (Uni 0) = Node (HCon 2) [Node (HCon 1) []] /\ app s (Uni 2) = Node (HCon 1) [].
Proof. eexists. split; [reflexivity|]. split; reflexivity. Qed.
Example ex_clash : unify (fun _ => 0) 30 [] [(ex_fun (Uni 0) (Uni 1) (Uni 1), ex_fun (Node (HCon 1) []) (Uni 0) (Node HNone []))] = Clash.
Proof. reflexivity. Qed.

(** Subtyping: theorems. *)
From Coq Require Import List Arith Bool Lia.
From Verif Require Import S_Sub M_Sub P_Sub P_Sub2 P_Sub3.
Import ListNotations.

(** What class declarations guarantee (C94): parameters are bounded by types with the right number of arguments; every class is its own ancestor; ancestors of ancestors are ancestors. *)
Definition hierarchy (find_anc : nat -> list ty -> nat -> option (list ty)) (bound : nat -> nat * list ty) (arity : nat -> nat) : Prop :=
  (forall v, wft arity true (Con (fst (bound v)) (snd (bound v)))) /\
  (forall c ts, length ts = arity c -> find_anc c ts c = Some ts) /\
  (forall c ts d us e ws, find_anc c ts d = Some us -> find_anc d us e = Some ws -> find_anc c ts e = Some ws).
(** No other class inherits from list, dict or set, and their other ancestors do not mention their arguments. *)
Definition builtin_only (find_anc : nat -> list ty -> nat -> option (list ty)) (cov : nat -> bool) : Prop :=
  (forall c ts d us, cov d = true -> find_anc c ts d = Some us -> c = d) /\
  (forall c ts us d ws, cov c = true -> c <> d -> length ts = length us -> find_anc c us d = Some ws -> find_anc c ts d = Some ws).

Section Theorems.
Variable find_anc : nat -> list ty -> nat -> option (list ty).
Variable cov : nat -> bool.
Variable bound : nat -> nat * list ty.
Variable arity : nat -> nat.
Hypothesis H : hierarchy find_anc bound arity.
Notation castable := (M_Sub.castable find_anc cov bound).
Notation sub := (S_Sub.sub (fun c ts d us => find_anc c ts d = Some us) (fun c => cov c = true) bound).
(** The compiler answers yes. *)
Definition yes (t u : ty) : Prop := exists n, castable n t u = Some true.

(** A type that is accepted for another one is a subtype of it. *)
Theorem C96_sound : forall pa t u, wft arity pa t -> wft arity pa u -> yes t u -> sub (wft arity pa) t u.
Proof. destruct H as (B & _ & _). intros pa t u WT WU [n N]. exact (cast_sound find_anc cov bound arity B pa n t u WT WU N). Qed.
(** Every type is accepted for itself. *)
Theorem C96_reflexive : forall t, wft arity true t -> yes t t.
Proof. destruct H as (_ & R & _). intros t W. exact (can_refl find_anc cov bound arity R true t W). Qed.
(** The answer does not depend on the depth of calls once there is one. *)
Theorem C96_answer : forall n m t u a b, castable n t u = Some a -> castable m t u = Some b -> a = b.
Proof.
  intros n m t u a b A B. destruct (Nat.le_ge_cases n m) as [L|L].
  - apply (cast_mono find_anc cov bound n m t u a) in A; [congruence|exact L].
  - apply (cast_mono find_anc cov bound m n t u b) in B; [congruence|exact L].
Qed.
(** There is an answer if the bound of each parameter mentions only earlier parameters; without parameters, after no more calls than the types have parts. *)
Theorem C96_terminates : forall t u, (forall v w, has w (Con (fst (bound v)) (snd (bound v))) -> w < v) -> exists n b, castable n t u = Some b.
Proof. intros t u E. eexists. exact (cast_ends2 find_anc cov bound E _ t u (le_n _)). Qed.
Theorem C96_terminates_closed : forall t u, wft arity false t -> wft arity false u -> exists b, castable (size t + size u) t u = Some b.
Proof. intros t u WT WU. exact (cast_ends find_anc cov bound arity _ t u WT WU (le_n _)). Qed.
(** Heirs are accepted, and what is accepted for the bound of a parameter is accepted for it; with parameters and with any class hierarchy. *)
Theorem C96_heirs : forall c ts d us, wft arity true (Con c ts) -> wft arity true (Con d us) -> find_anc c ts d = Some us -> yes (Con c ts) (Con d us).
Proof.
  destruct H as (_ & R & _). intros c ts d us W1 W2 F. pose proof (can_refl find_anc cov bound arity R true _ W1) as RF. inversion W1; inversion W2; subst. destruct (Nat.eq_dec c d) as [->|N]; [rewrite R in F by assumption; injection F as <-; exact RF|].
  apply (can_con find_anc cov bound arity); auto. right. split; [intros [E _]; contradiction|exact F].
Qed.
Theorem C96_bound : forall v u, yes (Con (fst (bound v)) (snd (bound v))) u -> yes (Par v) u.
Proof.
  intros v u [n N]. exists (S n). rewrite cast_step. destruct u; cbn [P_Sub.step]; try exact N. destruct n as [|n]; [discriminate N|]. rewrite cast_step in N. discriminate N.
Qed.
(** Compound types are accepted exactly if their parts are, with parameters and with any class hierarchy. *)
Theorem C96_parts :
  (forall c ts us, cov c = true -> length ts = arity c -> length us = arity c -> (yes (Con c ts) (Con c us) <-> Forall2 yes ts us)) /\
  (forall e1 p1 k1 t1 e2 p2 k2 t2, yes (Fun e1 p1 k1 t1) (Fun e2 p2 k2 t2) <-> yes e1 e2 /\ yes p2 p1 /\ yes k2 k1 /\ yes t1 t2) /\
  (forall p1 k1 p2 k2, yes (Tup p1 k1) (Tup p2 k2) <-> yes p1 p2 /\ yes k1 k2) /\
  (forall t u, yes (Opt t) (Opt u) <-> yes t u) /\
  (forall k l t1 r1 k' l' t2 r2, yes (Row k l t1 r1) (Row k' l' t2 r2) <-> k = k' /\ l = l' /\ yes t1 t2 /\ yes r1 r2) /\
  (forall k r1 k' r2, yes (Star k r1) (Star k' r2) <-> k = k' /\ yes r1 r2) /\
  (forall t, yes Non (Opt t)) /\
  (forall t u, (forall v, t <> Par v) -> yes t u -> (forall t', t <> Opt t') -> yes t (Opt u)).
Proof.
  split; [|split; [apply can_fun|split; [apply can_tup|split; [apply can_opt|split; [apply can_row|split; [apply can_star|split]]]]]].
  - intros c ts us CV L1 L2. pose proof (can_con find_anc cov bound arity c ts c us L1 L2) as K. split.
    + intro Y. apply (proj1 K) in Y. destruct Y as [(_ & _ & F)|(N & _)]; [exact F|exfalso; apply N; auto].
    + intro F. apply (proj2 K). left. auto.
  - intro t. exists 1. reflexivity.
  - intros t u NP [n Y] NO. exists (S n). rewrite cast_step. destruct t; cbn [P_Sub.step]; try exact Y; try reflexivity; [exfalso; eapply NP; reflexivity|exfalso; eapply NO; reflexivity].
Qed.
(** Casts can be put together. Missing: type parameters (see C96_option_refuted), classes that inherit from list, dict or set (see C96_transitive_refuted). *)
Theorem C96_transitive_partial : builtin_only find_anc cov -> forall t u w, wft arity false t -> wft arity false u -> wft arity false w -> yes t u -> yes u w -> yes t w.
Proof. destruct H as (_ & R & T). intros (F & P) t u w WT WU WW A B. exact (can_trans find_anc cov bound arity R T F P _ t u w (le_n _) WT WU WW A B). Qed.
(** The answer is yes for subtypes and no for all others. Missing: the same. *)
Theorem C96_exact_partial : builtin_only find_anc cov -> forall t u, wft arity false t -> wft arity false u ->
  (castable (size t + size u) t u = Some true /\ sub (wft arity false) t u) \/ (castable (size t + size u) t u = Some false /\ ~ sub (wft arity false) t u).
Proof.
  intros (F & P) t u WT WU. destruct H as (_ & R & T). destruct (C96_terminates_closed t u WT WU) as [[|] E]; [left|right]; (split; [exact E|]).
  - apply C96_sound; auto. eexists. exact E.
  - intro S. apply (sub_can find_anc cov bound arity R T F P) in S; auto. destruct S as [n N]. pose proof (C96_answer _ _ _ _ _ _ E N). discriminate.
Qed.
End Theorems.
Print Assumptions C96_sound.
Print Assumptions C96_reflexive.
Print Assumptions C96_answer.
Print Assumptions C96_terminates.
Print Assumptions C96_terminates_closed.
Print Assumptions C96_heirs.
Print Assumptions C96_bound.
Print Assumptions C96_parts.
Print Assumptions C96_transitive_partial.
Print Assumptions C96_exact_partial.

(** Classes: 0 value, 1 int(value), 2 list[A](value), and 3 L(list[int]) if [user]. *)
Definition ar (c : nat) : nat := match c with 2 => 1 | _ => 0 end.
Definition anc (user : bool) (c : nat) (ts : list ty) (d : nat) : option (list ty) :=
  if c =? d then Some ts
  else match c, d with
  | 1, 0 | 2, 0 => Some []
  | 3, 0 => if user then Some [] else None
  | 3, 2 => if user then Some [Con 1 []] else None
  | _, _ => None
  end.
Definition cv (c : nat) : bool := c =? 2.
(** Every parameter is bounded by value. *)
Definition bd (_ : nat) : nat * list ty := (0, []).

Lemma ex_hierarchy : forall user, hierarchy (anc user) bd ar.
Proof.
  intro user. split; [intro v; apply w_con; [reflexivity|intros t []]|]. split; [intros c ts _; unfold anc; rewrite Nat.eqb_refl; reflexivity|].
  intros c ts d us e ws A B. unfold anc in *. destruct (Nat.eqb_spec c d) as [->|N1]; [injection A as <-; exact B|].
  destruct (Nat.eqb_spec d e) as [->|N2]; [injection B as <-; destruct (Nat.eqb_spec c e); [contradiction|exact A]|].
  destruct c as [|[|[|[|c]]]], d as [|[|[|d]]]; try discriminate A; destruct e as [|[|[|e]]]; try discriminate B; try (exfalso; apply N2; reflexivity); destruct user; try discriminate A; exact B.
Qed.
Example C96_hypotheses : hierarchy (anc false) bd ar /\ builtin_only (anc false) cv.
Proof.
  split; [apply ex_hierarchy|]. split.
  - intros c ts d us C A. apply Nat.eqb_eq in C. subst d. unfold anc in A. destruct (Nat.eqb_spec c 2); [assumption|]. destruct c as [|[|[|[|c]]]]; discriminate A.
  - intros c ts us d ws C N _ A. apply Nat.eqb_eq in C. subst c. unfold anc in *. destruct (Nat.eqb_spec 2 d); [contradiction|exact A].
Qed.
(** Parameters bounded by value mention no other ones. *)
Example C96_earlier : forall v w, has w (Con (fst (bd v)) (snd (bd v))) -> w < v.
Proof. intros v w X. inversion X as [|c ts t I K| | | | | | | | | |]. destruct I. Qed.
(** proc(list[value]) -> int is not accepted where a pure function is needed; pure(list[value]) -> list[int] is accepted for proc(list[int]) -> ?list[value]. *)
Example C96_example :
  castable (anc false) cv bd 30 (Fun (Eff Proc) (Row false 0 (Con 2 [Con 0 []]) (Nil false)) (Nil true) (Con 1 [])) (Fun (Eff Pure) (Row false 0 (Con 2 [Con 0 []]) (Nil false)) (Nil true) (Con 1 [])) = Some false /\
  castable (anc false) cv bd 30 (Fun (Eff Pure) (Row false 0 (Con 2 [Con 0 []]) (Nil false)) (Nil true) (Con 2 [Con 1 []])) (Fun (Eff Proc) (Row false 0 (Con 2 [Con 1 []]) (Nil false)) (Nil true) (Opt (Con 2 [Con 0 []]))) = Some true.
Proof. split; reflexivity. Qed.

(** L(list[int]) is accepted for list[int], and this for list[value], but L is not accepted for list[value], whatever the number of calls. *)
Theorem C96_transitive_refuted :
  hierarchy (anc true) bd ar /\ wft ar false (Con 3 []) /\ wft ar false (Con 2 [Con 1 []]) /\ wft ar false (Con 2 [Con 0 []]) /\
  yes (anc true) cv bd (Con 3 []) (Con 2 [Con 1 []]) /\ yes (anc true) cv bd (Con 2 [Con 1 []]) (Con 2 [Con 0 []]) /\ ~ yes (anc true) cv bd (Con 3 []) (Con 2 [Con 0 []]).
Proof.
  split; [apply ex_hierarchy|].
  assert (W : forall c, c < 2 \/ c = 3 -> wft ar false (Con c [])) by (intros c C; apply w_con; [destruct c as [|[|[|[|c]]]]; try reflexivity; lia|intros t []]).
  assert (L : forall c, c < 2 -> wft ar false (Con 2 [Con c []])) by (intros c C; apply w_con; [reflexivity|intros t [<-|[]]; apply W; left; exact C]).
  split; [apply W; auto|]. split; [apply L; lia|]. split; [apply L; lia|]. split; [exists 5; reflexivity|]. split; [exists 5; reflexivity|]. intros [[|n] N]; discriminate N.
Qed.
(** A value whose type is a parameter is not accepted for the option of this parameter, although it is a subtype. *)
Theorem C96_option_refuted : hierarchy (anc false) bd ar /\ wft ar true (Par 7) /\ wft ar true (Opt (Par 7)) /\
  sub (fun c ts d us => anc false c ts d = Some us) (fun c => cv c = true) bd (wft ar true) (Par 7) (Opt (Par 7)) /\ ~ yes (anc false) cv bd (Par 7) (Opt (Par 7)).
Proof.
  assert (W : wft ar true (Par 7)) by (apply w_par; reflexivity).
  split; [apply ex_hierarchy|]. split; [exact W|]. split; [apply w_opt; [exact W|intros u E; discriminate E]|]. split; [apply sub_some|].
  intros [[|[|[|n]]] N]; discriminate N.
Qed.
Print Assumptions C96_transitive_refuted.
Print Assumptions C96_option_refuted.

(** C90: the parts of a statement are evaluated from left to right, and only those that are needed,
    although the compiler moves calls with effects out of the expressions. *)
From Coq Require Import List Bool Arith Lia.
From Verif Require Import S_Hoist M_Hoist P_Hoist.
Import ListNotations.

(** Full claim: a suite has the same effects, result and variables after the pass as before.  It is
    proved for suites in which (1) what stands before a call in the same statement cannot be changed by
    it and raises no exception, and (2) the conditions of elif parts contain no calls with effects.
    [m] bounds the variables of the program; new ones are numbered from [k]. *)
Theorem C90_same_meaning_partial : forall (L : lang) (fixed : op L -> bool), really_fixed fixed ->
  forall (ss : suite L) m k, m <= k -> usess m ss = true -> ordered_suite fixed ss = true ->
  forall n l w,
  match exec n ss l w with
  | None => exec n (fst (pre_suite ss k)) l w = None
  | Some (l1, w1, o) => exists l2, exec n (fst (pre_suite ss k)) l w = Some (l2, w1, o) /\ forall x, x < m -> l2 x = l1 x
  end.
Proof.
  intros L fixed RF ss m k M U O n l w. pose proof (proj1 (proj2 (stmt_sim L fixed RF n m)) ss k M U O l l w (fun x _ => eq_refl)) as H. unfold sim in H.
  destruct (exec n ss l w) as [[[l1 w1] o]|], (exec n (fst (pre_suite ss k)) l w) as [[[l2 w2] o']|]; try contradiction; [|reflexivity].
  destruct H as (S1 & <- & <-). exists l2. split; [reflexivity|]. intros x X. symmetry. apply S1, X.
Qed.
Print Assumptions C90_same_meaning_partial.
(** In particular: and, or and if-else make exactly the calls they need, whatever they are made of, as
    long as no operation on the way depends on what the calls change. *)
Theorem C90_short_circuit : forall (L : lang), (forall o vs, exists v, forall w, apply L o vs w = inl v) ->
  forall (e : expr L) m, below m e = true ->
  forall n l w,
  match eval e l w with
  | None => exec n (fst (pre_suite (Cons (Return e) Nil) m)) l w = None
  | Some (w1, inl v) => exists l2, exec n (fst (pre_suite (Cons (Return e) Nil) m)) l w = Some (l2, w1, OReturn v)
  | Some (w1, inr x) => exists l2, exec n (fst (pre_suite (Cons (Return e) Nil) m)) l w = Some (l2, w1, ORaise x)
  end.
Proof.
  intros L H e m B n l w.
  pose proof (C90_same_meaning_partial L (fun _ => true) (fun o _ vs => H o vs) (Cons (Return e) Nil) m m (Nat.le_refl m) (return_uses L m e B)
    (return_ordered L _ e (proj1 (all_ordered L) e)) n l w) as T.
  rewrite return_exec in T. destruct (eval e l w) as [[w1 [v|x]]|]; [| |exact T]; destruct T as (l2 & T & _); exists l2; exact T.
Qed.
Print Assumptions C90_short_circuit.
(** After the pass no call with effects is left inside of an expression: each is the whole right-hand
    side of a statement, as the conversion to continuations needs it. *)
Theorem C90_calls_are_statements : forall (L : lang) (ss : suite L) k, flats (fst (pre_suite ss k)) = true.
Proof. intros L ss k. apply suite_flat. Qed.
Print Assumptions C90_calls_are_statements.

(** ** A small language: the world is a counter; [false] is the operation that reads it, [true] a
    constant 1; calls raise the counter by their function's number and give the arguments' sum. *)
Definition toy : lang := Lang nat nat unit (bool + unit) nat (fun v => negb (Nat.eqb v 0))
  (fun o vs w => match o with inl true => inl 1 | inl false => inl w | inr _ => match vs with [0] => inr tt | _ => inl (list_sum vs) end end)
  (fun f vs w => Some (w + f, inl (list_sum vs))).
Definition read : expr toy := @Op toy (inl false) ENil.
Definition one_ : expr toy := @Op toy (inl true) ENil.
Definition bump (f : nat) (es : exprs toy) : expr toy := @Fn toy f es.
Definition arg (a b : expr toy) : exprs toy := ECons a (ECons b ENil).

(** f(self.x, self.inc()): the attribute is read after the call, so f gets 6 and not 5. *)
Theorem C90_argument_order_refuted : exists (L : lang) (e : expr L) m l w v1 v2 w1 l1,
  below m e = true /\ eval e l w = Some (w1, inl v1) /\
  exec 0 (fst (pre_suite (Cons (Return e) Nil) m)) l w = Some (l1, w1, OReturn v2) /\ v1 <> v2.
Proof.
  exists toy, (bump 0 (arg read (bump 1 ENil))), 0, (fun _ => 0), 5. repeat eexists; try (vm_compute; reflexivity). vm_compute. discriminate.
Qed.
Print Assumptions C90_argument_order_refuted.
(** if a: ... elif self.inc(): ... : the call of the second condition is made although the first one
    holds. *)
Theorem C90_elif_refuted : exists (L : lang) (c1 c2 : expr L) (b1 b2 els : suite L) m l w l1 l2 w1 w2,
  calls c1 = false /\
  exec 0 (Cons (If (BCons c1 b1 (BCons c2 b2 BNil)) els) Nil) l w = Some (l1, w1, ONext) /\
  exec 0 (fst (pre_suite (Cons (If (BCons c1 b1 (BCons c2 b2 BNil)) els) Nil) m)) l w = Some (l2, w2, ONext) /\
  w1 = w /\ w2 <> w.
Proof.
  exists toy, one_, (bump 1 ENil), Nil, Nil, Nil, 0, (fun _ => 0), 5. repeat eexists; try (vm_compute; reflexivity). vm_compute. discriminate.
Qed.
Print Assumptions C90_elif_refuted.
(** [a[0], self.inc()] where the first part raises an exception: the call is made before. *)
Theorem C90_exception_order_refuted : exists (L : lang) (e : expr L) m l w w1 w2 x l1,
  below m e = true /\ eval e l w = Some (w1, inr x) /\
  exec 0 (fst (pre_suite (Cons (Return e) Nil) m)) l w = Some (l1, w2, ORaise x) /\ w1 <> w2.
Proof.
  exists toy, (@Op toy (inl true) (arg (@Op toy (inr tt) (ECons (Var 0) ENil)) (bump 1 ENil))), 1, (fun _ => 0), 5. repeat eexists; try (vm_compute; reflexivity). vm_compute. discriminate.
Qed.
Print Assumptions C90_exception_order_refuted.

(** The hypotheses are met by: while True: x = f(1, g(h() and self.x, 1)); if k(): break else: y = self.x or x . *)
Definition fixed_ : op toy -> bool := fun o => match o with inl true => true | _ => false end.
Definition case : suite toy :=
  Cons (Loop
    (Cons (Set_ 0 (bump 2 (arg one_ (bump 3 (arg (And (bump 4 ENil) read) one_)))))
    (Cons (If (BCons (bump 7 (ECons one_ ENil)) (Cons Break Nil) (BCons read Nil BNil)) (Cons (Set_ 1 (Or read (bump 1 ENil))) Nil)) Nil))) (Cons (Return (Var 0)) Nil).
Example C90_case_fixed : really_fixed fixed_.
Proof. intros [[|]|] H vs; try discriminate H. exists 1. reflexivity. Qed.
Example C90_case : usess 2 case = true /\ ordered_suite fixed_ case = true. Proof. split; reflexivity. Qed.
Example C90_case_runs : match exec 3 case (fun _ => 0) 0 with Some (_, w, OReturn v) => (w, v) = (16, 2) | _ => False end. Proof. vm_compute. reflexivity. Qed.
Example C90_case_short : forall o vs, (exists v, forall w, apply (Lang nat nat unit nat nat (fun _ => true) (fun o _ _ => inl o) (fun f _ w => Some (w + f, inl f))) o vs w = inl v).
Proof. intros o vs. exists o. reflexivity. Qed.

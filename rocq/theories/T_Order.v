(** Property theorems C06 and C49: comparison of lists and tuples. *)
From Verif Require Import Base M_Order S_Order P_Order.

Theorem C06_list_comparison : forall (A : Type) (eq ne lt : A -> A -> bool) (R : A -> A -> Prop),
  total_witness eq ne lt R -> forall a b : list A,
  (list_eq ne a b = true <-> a = b) /\ list_ne ne a b = negb (list_eq ne a b) /\
  (exists r, list_lt eq lt a b = Ok r /\ (r = true <-> lex R a b)) /\
  (exists r, list_le eq lt a b = Ok r /\ (r = true <-> lex R a b \/ a = b)) /\
  (exists r, list_gt eq lt a b = Ok r /\ (r = true <-> lex R b a)) /\
  (exists r, list_ge eq lt a b = Ok r /\ (r = true <-> lex R b a \/ b = a)).
Proof.
  intros A eq ne lt R W a b. repeat split; try apply (list_eq_spec eq ne lt R W).
  - apply (list_lt_spec eq ne lt R W). - apply (list_le_spec eq ne lt R W).
  - apply (list_lt_spec eq ne lt R W). - apply (list_le_spec eq ne lt R W).
Qed.
Print Assumptions C06_list_comparison.

(** The order above is a strict total order. *)
Theorem C06_lex_total_order : forall (A : Type) (eq ne lt : A -> A -> bool) (R : A -> A -> Prop),
  total_witness eq ne lt R ->
  (forall a, ~ lex R a a) /\ (forall a b c, lex R a b -> lex R b c -> lex R a c) /\
  (forall a b, lex R a b \/ a = b \/ lex R b a).
Proof.
  intros A eq ne lt R W. split; [|split].
  - apply (lex_irr eq ne lt R W). - apply (lex_trans eq ne lt R W). - apply (lex_total eq ne lt R W).
Qed.
Print Assumptions C06_lex_total_order.

Example C06_case : total_witness Z.eqb (fun x y => negb (Z.eqb x y)) Z.ltb Z.lt /\
  list_lt Z.eqb Z.ltb [1; 2] [1; 2; 0] = Ok true /\ list_lt Z.eqb Z.ltb [1; 3] [1; 2; 0] = Ok false.
Proof. split; [constructor; intros; lia|]. split; reflexivity. Qed.

Theorem C49_tuple_comparison : forall (W : Type) (wits : list (owit W)) (Rs : nat -> W -> W -> Prop) (a b : list W),
  length a = length wits -> length b = length wits ->
  (forall i w, nth_error wits i = Some w -> total_witness (w_eq w) (w_ne w) (w_lt w) (Rs i)) ->
  (exists r, tuple_eq wits a b = Ok r /\ (r = true <-> a = b)) /\
  (exists r, tuple_ne wits a b = Ok r /\ (r = true <-> a <> b)) /\
  (exists r, tuple_lt wits a b = Ok r /\ (r = true <-> tuple_less Rs a b)) /\
  (exists r, tuple_le wits a b = Ok r /\ (r = true <-> tuple_less Rs a b \/ a = b)) /\
  (exists r, tuple_gt wits a b = Ok r /\ (r = true <-> tuple_less Rs b a)) /\
  (exists r, tuple_ge wits a b = Ok r /\ (r = true <-> tuple_less Rs b a \/ a = b)).
Proof. exact @tuple_comparison. Qed.
Print Assumptions C49_tuple_comparison.

Theorem C49_tuple_total_order : forall (W : Type) (wits : list (owit W)) (Rs : nat -> W -> W -> Prop) (a b c : list W),
  length a = length wits -> length b = length wits -> length c = length wits ->
  (forall i w, nth_error wits i = Some w -> total_witness (w_eq w) (w_ne w) (w_lt w) (Rs i)) ->
  ~ tuple_less Rs a a /\ (tuple_less Rs a b -> tuple_less Rs b c -> tuple_less Rs a c) /\
  (tuple_less Rs a b \/ a = b \/ tuple_less Rs b a).
Proof. exact @tuple_total. Qed.
Print Assumptions C49_tuple_total_order.

Example C49_case :
  let w := mkWit Z.eqb (fun x y => negb (Z.eqb x y)) Z.ltb in
  (forall i v, nth_error [w; w] i = Some v -> total_witness (w_eq v) (w_ne v) (w_lt v) Z.lt) /\
  tuple_lt [w; w] [1; 5] [2; 0] = Ok true.
Proof.
  split; [|reflexivity]. intros [|[|[|i]]] v E; cbn in E; try discriminate; injection E as <-;
    constructor; cbn; intros; lia.
Qed.

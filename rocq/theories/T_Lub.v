(** Common supertypes and subtypes: theorems. *)
From Coq Require Import List Arith Bool Lia.
From Verif Require Import S_Sub M_Sub P_Sub S_Lub M_Lub P_Lub.
Import ListNotations.

Section Theorems.
Variable ancs : nat -> list nat.
Variable bound : nat -> nat * list ty.
Hypothesis bound_plain : forall v, snd (bound v) = [].
Notation lub := (M_Lub.lub ancs bound).
Notation glb := (M_Lub.glb ancs bound).
Notation below := (S_Lub.below ancs bound).

(** What is chosen for two types is a supertype of both, and again such a type.
    Missing: None in parameters of functions (see C97_function_refuted), keyword components, arguments of classes. *)
Theorem C97_upper_partial : forall n t u g, simp true t -> simp true u -> lub n t u = Some g -> simp true g /\ below t g /\ below u g.
Proof. intros n. exact (proj1 (bounds ancs bound bound_plain n)). Qed.
(** What is chosen below two types is a subtype of both. Missing: None outside of parameters (see C97_none_refuted), keyword components, arguments of classes. *)
Theorem C97_lower_partial : forall n t u g, simp false t -> simp false u -> glb n t u = Some g -> simp false g /\ below g t /\ below g u.
Proof. intros n. exact (proj1 (proj2 (bounds ancs bound bound_plain n))). Qed.
(** The same for any number of types. *)
Theorem C97_upper_all_partial : forall n ts g, (forall t, In t ts -> simp true t) -> fold1 (lub n) ts = Some g -> simp true g /\ forall t, In t ts -> below t g.
Proof.
  intros n [|t ts] g; [discriminate|]. cbn [fold1]. revert t. induction ts as [|u ts IH]; intros t S H.
  - injection H as <-. split; [apply S; left; reflexivity|]. intros x [<-|[]]. apply sub_refl.
  - cbn [foldm] in H. apply bind_some in H. destruct H as (v & E & H). destruct (C97_upper_partial n t u v) as (A & B & C); [apply S; left; reflexivity|apply S; right; left; reflexivity|exact E|].
    destruct (IH v) as (D & F); [intros x [<-|I]; [exact A|apply S; right; right; exact I]|exact H|]. split; [exact D|].
    assert (V : below v g) by (apply F; left; reflexivity). intros x [<-|[<-|I]]; [| |apply F; right; exact I]; eapply below_trans; [exact A|exact B|exact V|exact A|exact C|exact V].
Qed.
Theorem C97_lower_all_partial : forall n ts g, (forall t, In t ts -> simp false t) -> fold1 (glb n) ts = Some g -> simp false g /\ forall t, In t ts -> below g t.
Proof.
  intros n [|t ts] g; [discriminate|]. cbn [fold1]. revert t. induction ts as [|u ts IH]; intros t S H.
  - injection H as <-. split; [apply S; left; reflexivity|]. intros x [<-|[]]. apply sub_refl.
  - cbn [foldm] in H. apply bind_some in H. destruct H as (v & E & H). destruct (C97_lower_partial n t u v) as (A & B & C); [apply S; left; reflexivity|apply S; right; left; reflexivity|exact E|].
    destruct (IH v) as (D & F); [intros x [<-|I]; [exact A|apply S; right; right; exact I]|exact H|]. split; [exact D|].
    assert (V : below g v) by (apply F; left; reflexivity). intros x [<-|[<-|I]]; [| |apply F; right; exact I]; eapply below_trans; [exact A|exact V|exact B|exact A|exact V|exact C].
Qed.
(** Twice the same type gives this type. *)
Theorem C97_same : forall pol t, simp pol t -> lub (2 * size t) t t = Some t /\ glb (2 * size t) t t = Some t.
Proof. intros pol t S. exact (proj1 (same ancs bound (2 * size t)) pol t S (le_n _)). Qed.
(** A class and an ancestor: the ancestor above, the heir below, in both orders; and there is an answer whenever there is a common ancestor. *)
Theorem C97_classes : forall n c d, c <> d -> In d (ancs c) -> ~ In c (ancs d) ->
  lub (S n) (Con c []) (Con d []) = Some (Con d []) /\ lub (S n) (Con d []) (Con c []) = Some (Con d []) /\
  glb (S n) (Con c []) (Con d []) = Some (Con c []) /\ glb (S n) (Con d []) (Con c []) = Some (Con c []).
Proof.
  intros n c d N I J. cbn [M_Lub.lub M_Lub.glb]. assert (E : inb d (ancs c) = true) by (apply inb_in; exact I). assert (F : inb c (ancs d) = false) by (destruct (inb c (ancs d)) eqn:X; [apply inb_in in X; contradiction|reflexivity]).
  rewrite E, F. destruct (Nat.eqb_spec c d); [contradiction|]. destruct (Nat.eqb_spec d c); [congruence|]. auto.
Qed.
Theorem C97_common : forall n c d e, In e (c :: ancs c) -> In e (d :: ancs d) -> exists g, lub (S n) (Con c []) (Con d []) = Some g.
Proof.
  intros n c d e I J. cbn [M_Lub.lub]. destruct (c =? d); [eexists; reflexivity|]. destruct (inb d (ancs c)); [eexists; reflexivity|]. destruct (inb c (ancs d)); [eexists; reflexivity|].
  assert (K : In e (common ancs c d)) by (apply filter_In; split; [exact I|apply inb_in; exact J]). destruct (common ancs c d); [destruct K|eexists; reflexivity].
Qed.
(** With at most one direct ancestor per class, what is chosen above two classes is the nearest common ancestor: all others are its ancestors. *)
Theorem C97_nearest : (forall c, ancs c = [] \/ exists p, ancs c = p :: ancs p) ->
  forall n c d g, lub (S n) (Con c []) (Con d []) = Some g ->
  exists e, g = Con e [] /\ In e (c :: ancs c) /\ In e (d :: ancs d) /\ forall f, In f (c :: ancs c) -> In f (d :: ancs d) -> In f (e :: ancs e).
Proof.
  intros SI n c d g H. cbn [M_Lub.lub] in H.
  destruct (Nat.eqb_spec c d) as [->|N]; [injection H as <-; exists d; repeat split; auto; left; reflexivity|].
  destruct (inb d (ancs c)) eqn:E1; [injection H as <-; apply inb_in in E1; exists d; split; [reflexivity|split; [right; exact E1|split; [left; reflexivity|auto]]]|].
  destruct (inb c (ancs d)) eqn:E2; [injection H as <-; apply inb_in in E2; exists c; split; [reflexivity|split; [left; reflexivity|split; [right; exact E2|auto]]]|].
  assert (K : forall l x, l = x :: ancs x -> forall e es, filter (fun e => inb e (d :: ancs d)) l = e :: es -> In e l /\ inb e (d :: ancs d) = true /\ forall f, In f l -> inb f (d :: ancs d) = true -> In f (e :: ancs e)).
  { induction l as [|y l IH]; intros x L e es F; [discriminate L|]. injection L as -> L. cbn [filter] in F. destruct (inb x (d :: ancs d)) eqn:X.
    - injection F as <- _. split; [left; reflexivity|]. split; [exact X|]. intros f I _. rewrite L in I. exact I.
    - destruct (SI x) as [Z|[p Z]]; [rewrite L, Z in F; discriminate F|]. destruct (IH p (eq_trans L Z) e es F) as (A & B & C). split; [right; exact A|]. split; [exact B|]. intros f [<-|I] J; [congruence|apply C; assumption]. }
  destruct (common ancs c d) as [|e es] eqn:E; [discriminate H|]. injection H as <-. destruct (K _ c eq_refl e es E) as (A & B & C). exists e. split; [reflexivity|]. split; [exact A|]. split; [apply inb_in; exact B|]. intros f I J. apply C; [exact I|apply inb_in; exact J].
Qed.
(** None makes options, an option stays one. *)
Theorem C97_none : forall n t, (forall u, t <> Opt u) -> t <> Non -> (forall v, t <> Par v) -> lub (S n) t Non = Some (Opt t) /\ lub (S n) Non t = Some (Opt t) /\ lub (S n) (Opt t) Non = Some (Opt t) /\ lub (S n) Non (Opt t) = Some (Opt t).
Proof. intros n t O N P. destruct t; try (repeat split; reflexivity); exfalso; [eapply P|eapply O|apply N]; reflexivity. Qed.
(** Effects: the least effect above and the greatest below, if there is one. *)
Theorem C97_effects : forall n a b c,
  (exists g, lub (S n) (Eff a) (Eff b) = Some (Eff g) /\ fx_le a g = true /\ fx_le b g = true /\ (fx_le a c = true -> fx_le b c = true -> fx_le g c = true)) /\
  (fx_le c a = true -> fx_le c b = true -> exists g, glb (S n) (Eff a) (Eff b) = Some (Eff g) /\ fx_le g a = true /\ fx_le g b = true /\ fx_le c g = true).
Proof. intros n a b c. split; [exists (lufx a b); destruct a, b, c; repeat split; discriminate|]. destruct a, b, c; intros A B; try discriminate A; try discriminate B; eexists; repeat split; reflexivity. Qed.
End Theorems.
Print Assumptions C97_upper_partial.
Print Assumptions C97_lower_partial.
Print Assumptions C97_upper_all_partial.
Print Assumptions C97_lower_all_partial.
Print Assumptions C97_same.
Print Assumptions C97_classes.
Print Assumptions C97_common.
Print Assumptions C97_nearest.
Print Assumptions C97_none.
Print Assumptions C97_effects.

(** Classes: 0 value, 1 int(value), 2 float(value); parameters are bounded by value. *)
Definition lanc (c : nat) : list nat := match c with 1 | 2 => [0] | _ => [] end.
Definition lbd (_ : nat) : nat * list ty := (0, []).
Definition lfind (c : nat) (ts : list ty) (d : nat) : option (list ty) := if inb d (c :: lanc c) then Some [] else None.
Definition fn (e : fx) (t r : ty) : ty := Fun (Eff e) (Row false 0 t (Nil false)) (Nil true) r.
(** pure(value) -> int and action(int) -> None have proc(int) -> ?int above both. *)
Example C97_example :
  simp true (fn Pure (Con 0 []) (Con 1 [])) /\ simp true (fn Action (Con 1 []) Non) /\
  M_Lub.lub lanc lbd 20 (fn Pure (Con 0 []) (Con 1 [])) (fn Action (Con 1 []) Non) = Some (fn Proc (Con 1 []) (Opt (Con 1 []))) /\
  fold1 (M_Lub.lub lanc lbd 20) [Con 1 []; Non; Con 2 []] = Some (Opt (Con 0 [])) /\
  fold1 (M_Lub.glb lanc lbd 20) [Opt (Con 0 []); Con 1 []] = Some (Con 1 []).
Proof. split; [|split; [|repeat split; reflexivity]]; unfold fn; repeat constructor. Qed.
Example C97_single : forall c, lanc c = [] \/ exists p, lanc c = p :: lanc p.
Proof. intros [|[|[|c]]]; auto; right; exists 0; reflexivity. Qed.
(** None is chosen below None and int, although it is not accepted for int. *)
Theorem C97_none_refuted : M_Lub.glb lanc lbd 20 Non (Con 1 []) = Some Non /\ ~ (exists n, castable lfind (fun _ => false) lbd n Non (Con 1 []) = Some true).
Proof. split; [reflexivity|]. intros [[|n] N]; discriminate N. Qed.
(** So (None) -> int is chosen above (None) -> int and (int) -> int, although the second is not accepted for it. *)
Theorem C97_function_refuted :
  M_Lub.lub lanc lbd 20 (fn Pure Non (Con 1 [])) (fn Pure (Con 1 []) (Con 1 [])) = Some (fn Pure Non (Con 1 [])) /\
  ~ (exists n, castable lfind (fun _ => false) lbd n (fn Pure (Con 1 []) (Con 1 [])) (fn Pure Non (Con 1 [])) = Some true).
Proof. split; [reflexivity|]. intros [[|[|[|n]]] N]; discriminate N. Qed.
Print Assumptions C97_none_refuted.
Print Assumptions C97_function_refuted.

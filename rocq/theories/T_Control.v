(** C85: removing structured control flow keeps the meaning of functions. *)
From Coq Require Import List Bool Arith Lia.
From Verif Require Import S_Control M_Control P_Control.
Import ListNotations.

(** For every function body (in which every break and continue stands in a loop, and none leaves
    the else part of a while loop), every number of rounds the loops are given, every state and
    every stack of handlers of the callers: unless an exception that is a StopIteration leaves the
    body of a for loop, the compiled body ends as the source does, with the same value or
    exception, the same effects in the same order and the handlers of the callers as they were;
    and it does not end if the source does not.  This holds whatever a handler of the program
    makes of the exceptions the compiler uses itself ([ctrl_instance]). *)
Theorem C85_control_flow_partial :
  forall (L : lang) (isval : expr L -> bool) (pvar : pat L -> bool) (ctrl_instance : flow -> cls L -> bool),
  (forall e s, isval e = true -> exists v, eval L e s = Some (s, inl v)) ->
  forall n body s tmps id y h c,
  closed body = true -> tame body = true ->
  (forall i z, In (i, z) ((id, y) :: h) -> i < c) ->
  (forall s', call true n body s <> Some (s', Stray)) ->
  let compiled := run L ctrl_instance n (norm_def L isval pvar body) (Tst L s tmps ((id, y) :: h) c) in
  match call false n body s with
  | None => compiled = None
  | Some (s', Returns v) => exists tmps' c', compiled = Some (Tst L s' tmps' ((id, y) :: h) c', TReturned v)
  | Some (s', Raises x) => exists tmps' c', compiled = Some (Tst L s' tmps' ((id, Some (User x)) :: h) c', TRaised)
  | _ => False
  end.
Proof.
  intros L isval pvar ci IP n body s tmps id y h c C T B NS compiled. subst compiled.
  assert (N : nostray L (exec true n body s)).
  { intros s' E. apply (NS s'). unfold call. rewrite E. reflexivity. }
  destruct (strict_agree L n) as (_ & A & _). specialize (A body s N).
  assert (BB : below L c ((id, y) :: h)). { apply Forall_forall. intros [i z] I. exact (B i z I). }
  pose proof (def_right L isval pvar ci IP n body s tmps ((id, y) :: h) c T C ltac:(discriminate) BB N) as H.
  destruct (closed_sound L true n) as (_ & CS & _). specialize (CS body C s).
  unfold call. rewrite A. destruct (exec true n body s) as [[s' o]|]; [|exact H].
  destruct (CS _ _ eq_refl) as [NB NC]. destruct H as (τ' & c' & H).
  destruct o; try congruence; try (exists τ', c'; exact H).
Qed.
Print Assumptions C85_control_flow_partial.

(** Without for loops there is no such exception. *)
Theorem C85_no_for_no_stray : forall (L : lang) n (body : suite L) s, nofor body = true -> forall s', call true n body s <> Some (s', Stray).
Proof.
  intros L n body s F s' E. destruct (nofor_right L n) as (_ & P & _). specialize (P body F s).
  unfold call in E. destruct (exec true n body s) as [[s1 o]|]; [|discriminate E]. destruct o; try discriminate E. exact (P _ eq_refl).
Qed.
Print Assumptions C85_no_for_no_stray.

(** In a function without finally parts, break and continue stay in loops: the output is C. *)
Theorem C85_breaks_in_loops_partial : forall (L : lang) isval pvar body,
  closed body = true -> nofinal body = true -> placed L false (norm_def L isval pvar body) = true.
Proof.
  intros L isval pvar body C F. destruct (placed_right L isval pvar) as (_ & P & _).
  specialize (P body F [] 0 ltac:(intros Q; congruence)). unfold norm_def. change (looped []) with false in P.
  destruct (fallsthru L _); [|exact P]. rewrite placed_app, P. reflexivity.
Qed.
Print Assumptions C85_breaks_in_loops_partial.

(** ** A language to show that the hypotheses are met, and the cases the theorem leaves out.
    The state is what has been written so far; expressions are any functions. *)
Definition toy : lang :=
  Lang (list nat) nat nat (list nat -> option (list nat * (nat + nat))) unit nat 0
    (fun e s => e s) (fun v => negb (v =? 0)) (fun v => v)
    (fun it s => if length s <? it then Some (s, inl 7) else Some (s, inr 0))
    (fun _ v s => Some (v :: s, None)) (fun _ x s => 100 + x :: s) (fun x c => x =? c) 0.
Definition const_ (v : nat) : expr toy := fun s => Some (s, inl v).
Definition log (v : nat) : expr toy := fun s => Some (v :: s, inl v).
Definition shorter (k : nat) : expr toy := fun s => Some (s, inl (if length s <? k then 1 else 0)).
Definition start (s : list nat) : tst toy := Tst toy s (fun _ => TNothing toy) [(0, None)] 1.
Notation compiled n body s := (run toy (fun _ _ => true) n (norm_def toy (fun _ => false) (fun _ => true) body) (start s)).
Notation "[[ ]]" := (Nil (L := toy)).
Notation "[[ a ; .. ; b ]]" := (Cons (L := toy) a .. (Cons (L := toy) b Nil) ..).

(** for x in it: try: log 1; if ...: continue; return 5 finally: log 2 *)
Definition example : suite toy :=
  [[ For (tt : pat toy) (const_ 5)
       [[ Try [[ Atom (log 1); If (shorter 4) [[ Continue ]] [[ ]]; Return (Some (log 5)) ]] HNil [[ ]] [[ Atom (log 2) ]] ]] [[ ]] ]].
Example C85_case : closed example = true /\ tame example = true /\ (forall s', call true 9 example [] <> Some (s', Stray)) /\
  call false 9 example [] = Some ([2; 5; 1; 7; 2; 1; 7], Returns (5 : val toy)) /\
  exists τ c, compiled 9 example [] = Some (Tst toy [2; 5; 1; 7; 2; 1; 7] τ [(0, None)] c, TReturned (5 : val toy)).
Proof.
  split; [reflexivity|]. split; [reflexivity|]. split; [intros s'; vm_compute; discriminate|]. split; [reflexivity|].
  do 2 eexists. vm_compute. reflexivity.
Qed.

(** break (and continue) in the else part of a while loop leaves the wrong loop. *)
Definition while_else : suite toy :=
  [[ While (shorter 1) [[ While (const_ 0) [[ ]] [[ Break ]]; Atom (log 1) ]] [[ ]] ]].
Theorem C85_while_else_refuted : closed while_else = true /\
  forall n, call false (S (S n)) while_else [] = Some ([], Returns (0 : val toy)) /\
  exists τ c, compiled (S (S n)) while_else [] = Some (Tst toy [1] τ [(0, None)] c, TReturned (0 : val toy)).
Proof. split; [reflexivity|]. intros n. split; [reflexivity|]. do 2 eexists. cbn. reflexivity. Qed.
Print Assumptions C85_while_else_refuted.
(** An exception that is a StopIteration and is raised in the body of a for loop is lost. *)
Definition stop_in_for : suite toy := [[ For (tt : pat toy) (const_ 5) [[ Raise (const_ 0) ]] [[ ]]; Return (Some (const_ 3)) ]].
Theorem C85_stop_iteration_refuted : closed stop_in_for = true /\ tame stop_in_for = true /\
  forall n, call false (S n) stop_in_for [] = Some ([7], Raises (0 : exc toy)) /\
  exists τ c, compiled (S n) stop_in_for [] = Some (Tst toy [7] τ [(0, None)] c, TReturned (3 : val toy)).
Proof. split; [reflexivity|]. split; [reflexivity|]. intros n. split; [reflexivity|]. do 2 eexists. cbn. reflexivity. Qed.
Print Assumptions C85_stop_iteration_refuted.
(** A loop with two breaks, in a try with a finally part, outside of any other loop: the output
    has a break outside of a loop, which no C compiler takes. *)
Definition two_breaks : suite toy :=
  [[ Try [[ While (shorter 3) [[ If (shorter 2) [[ Break ]] [[ ]]; If (shorter 1) [[ Break ]] [[ ]] ]] [[ ]] ]] HNil [[ ]] [[ Atom (log 2) ]] ]].
Theorem C85_break_outside_loop_refuted : closed two_breaks = true /\ tame two_breaks = true /\
  placed toy false (norm_def toy (fun _ => false) (fun _ => true) two_breaks) = false.
Proof. repeat split. Qed.
Print Assumptions C85_break_outside_loop_refuted.
Example C85_placed_case : closed while_else = true /\ nofinal while_else = true /\ nofor while_else = true. Proof. repeat split. Qed.

(** C89: procedures behave as written although the compiler cuts them into continuations. *)
From Coq Require Import List Bool Arith Lia.
From Verif Require Import S_Cps M_Cps P_Cps P_CpsSim.
Import ListNotations.

(** The machine ends a message with a value exactly if the procedure, run from top to bottom, ends
    with it, and with the same effects. *)
Theorem C89_same_result : forall (L : lang) (body : proc L -> suite L), (forall p, closed (body p) = true) ->
  forall p l w w' v,
  (exists n m, steps L body n m (start L body p l w) = Some (Done L v w')) <-> ends body p l w w' (inl v).
Proof.
  intros L body C p l w w' v. split.
  - intros (n & m & H). set (N := max n m). apply (steps_mono L body n N) in H; [|unfold N; lia].
    pose proof (run_good L body C N N p l w) as R. exists N, N. destruct (run_proc body N N p l w) as [[w1 [v1|x]]|].
    + destruct R as (m' & R). destruct (Nat.le_ge_cases m m') as [K|K].
      * replace m' with (m + (m' - m)) in R by lia. rewrite steps_app, H in R. destruct (m' - m); cbn in R; [injection R as R1 R2; subst; reflexivity|discriminate R].
      * replace m with (m' + (m - m')) in H by lia. rewrite steps_app, R in H. destruct (m - m'); cbn in H; [injection H as R1 R2; subst; reflexivity|discriminate H].
    + exfalso. destruct R as (m' & R). destruct (Nat.le_ge_cases m m') as [K|K].
      * replace m' with (m + (m' - m)) in R by lia. rewrite steps_app, H in R. destruct (m' - m); cbn in R; discriminate R.
      * replace m with (m' + (m - m')) in H by lia. rewrite steps_app, R in H. destruct (m - m'); cbn in H; discriminate H.
    + exfalso. destruct (R m _ ltac:(unfold N; lia) H) as (F & _). discriminate F.
  - intros (d & n & H). pose proof (run_good L body C d n p l w) as R. rewrite H in R. exists n. exact R.
Qed.
Print Assumptions C89_same_result.
(** The same for an exception that is not caught. *)
Theorem C89_same_exception : forall (L : lang) (body : proc L -> suite L), (forall p, closed (body p) = true) ->
  forall p l w w' x,
  (exists n m, steps L body n m (start L body p l w) = Some (Uncaught L x w')) <-> ends body p l w w' (inr x).
Proof.
  intros L body C p l w w' x. split.
  - intros (n & m & H). set (N := max n m). apply (steps_mono L body n N) in H; [|unfold N; lia].
    pose proof (run_good L body C N N p l w) as R. exists N, N. destruct (run_proc body N N p l w) as [[w1 [v1|x1]]|].
    + exfalso. destruct R as (m' & R). destruct (Nat.le_ge_cases m m') as [K|K].
      * replace m' with (m + (m' - m)) in R by lia. rewrite steps_app, H in R. destruct (m' - m); cbn in R; discriminate R.
      * replace m with (m' + (m - m')) in H by lia. rewrite steps_app, R in H. destruct (m - m'); cbn in H; discriminate H.
    + destruct R as (m' & R). destruct (Nat.le_ge_cases m m') as [K|K].
      * replace m' with (m + (m' - m)) in R by lia. rewrite steps_app, H in R. destruct (m' - m); cbn in R; [injection R as R1 R2; subst; reflexivity|discriminate R].
      * replace m with (m' + (m - m')) in H by lia. rewrite steps_app, R in H. destruct (m - m'); cbn in H; [injection H as R1 R2; subst; reflexivity|discriminate H].
    + exfalso. destruct (R m _ ltac:(unfold N; lia) H) as (F & _). discriminate F.
  - intros (d & n & H). pose proof (run_good L body C d n p l w) as R. rewrite H in R. exists n. exact R.
Qed.
Print Assumptions C89_same_exception.
(** The machine stands still at the end only, or in a C statement or a call out of the program that
    does not come to its end: it finds every function and every catcher it looks for. *)
Theorem C89_no_crash : forall (L : lang) (body : proc L -> suite L), (forall p, closed (body p) = true) ->
  forall p l w n m c, steps L body n m (start L body p l w) = Some c -> step L body n c = None ->
  final L c = true \/ blocked L n c.
Proof.
  intros L body C p l w n m c H S. set (N := max n m). assert (K : n <= N) by (unfold N; lia).
  destruct (step L body N c) as [c'|] eqn:Q; [right; exact (stops_earlier L body n N c c' S Q)|].
  apply (steps_mono L body n N) in H; [|exact K]. pose proof (run_good L body C N N p l w) as R.
  assert (Fin : forall m' e, final L e = true -> steps L body N m' (start L body p l w) = Some e -> final L c = true).
  { intros m' e F E. destruct (Nat.le_ge_cases m m') as [M|M].
    - replace m' with (m + (m' - m)) in E by lia. rewrite steps_app, H in E. destruct (m' - m); cbn [steps] in E; [injection E as E; subst e; exact F|].
      rewrite Q in E. discriminate E.
    - replace m with (m' + (m - m')) in H by lia. rewrite steps_app, E in H. destruct (m - m'); cbn [steps] in H; [injection H as H; subst e; exact F|].
      rewrite (final_step L body N e F) in H. discriminate H. }
  destruct (run_proc body N N p l w) as [[w1 [v1|x1]]|].
  - left. destruct R as (m' & R). eapply Fin; [|exact R]; reflexivity.
  - left. destruct R as (m' & R). eapply Fin; [|exact R]; reflexivity.
  - right. destruct (R m c ltac:(unfold N; lia) H) as (_ & B). apply (blocked_mono L n N c K). apply B. exact Q.
Qed.
Print Assumptions C89_no_crash.
(** A procedure that does not end does not end on the machine. *)
Theorem C89_same_divergence : forall (L : lang) (body : proc L -> suite L), (forall p, closed (body p) = true) ->
  forall p l w,
  (forall w' r, ~ ends body p l w w' r) <->
  (forall n m c, steps L body n m (start L body p l w) = Some c -> final L c = false).
Proof.
  intros L body C p l w. split.
  - intros H n m c S. destruct c as [t E r l0 G|k v G|x G|v w'|x w']; try reflexivity; exfalso.
    + apply (H w' (inl v)). apply (C89_same_result L body C). exists n, m. exact S.
    + apply (H w' (inr x)). apply (C89_same_exception L body C). exists n, m. exact S.
  - intros H w' [v|x] E.
    + apply (C89_same_result L body C) in E. destruct E as (n & m & E). specialize (H n m _ E). discriminate H.
    + apply (C89_same_exception L body C) in E. destruct E as (n & m & E). specialize (H n m _ E). discriminate H.
Qed.
Print Assumptions C89_same_divergence.

(** ** A program: procedure 0 counts in a loop inside a try statement, calling procedure 1, which
    writes down its argument and raises an exception at 3; the handler looks at the counter. *)
Record texp := Texp { tr : list name; tf : list nat -> list nat -> list nat * (nat + nat) }.
Definition toy : lang :=
  Lang nat nat (list nat) texp (nat * list name) nat 0 1 0 (fun v => negb (v =? 0)) eq_refl eq_refl (fun x => x) (fun v => v)
       tr tf snd (fun c vs w => match fst c with
                                | 0 => inr (Some (w, inl 5))
                                | S p => inl (p, fun x => nth x vs 0)
                                end).
Definition pure_ (xs : list name) (g : list nat -> nat) : expr toy := Texp xs (fun vs w => (w, inl (g vs))).
Definition log_ (x : name) : expr toy := Texp [x] (fun vs w => (w ++ vs, inl 0)).
Definition arg (i : nat) (vs : list nat) : nat := nth i vs 0.
Notation "[[ ]]" := Nil.
Notation "[[ a ; .. ; b ]]" := (Cons a .. (Cons b Nil) ..).
Definition main : suite toy :=
  [[ Set_ 1 (pure_ [] (fun _ => 0));
     Try [[ While (pure_ [1] (fun vs => if arg 0 vs <? 9 then 1 else 0))
              [[ Set_ 1 (pure_ [1] (fun vs => S (arg 0 vs)));
                 Call None ((2, [1]) : call toy);
                 If (pure_ [0] (arg 0)) [[ Break ]] [[ ]] ]] ]]
         [[ ReturnCall ((0, []) : call toy) ]] 2
         [[ Do (log_ 1); Return (Some (pure_ [1; 2] (fun vs => arg 0 vs + arg 1 vs))) ]] ]].
Definition noisy : suite toy :=
  [[ Do (log_ 0); If (pure_ [0] (fun vs => if arg 0 vs =? 3 then 1 else 0)) [[ Raise (pure_ [] (fun _ => 7)) ]] [[ ]] ]].
Definition program (p : proc toy) : suite toy := match (p : nat) with O => main | _ => noisy end.
Example C89_closed : forall p, closed (program p) = true. Proof. intros [|p]; reflexivity. Qed.
(** The exception comes in the third round: 3 + 7, and the handler has written 3 once more. *)
Example C89_case1 : ends program (0 : proc toy) (fun _ => 0) [] [1; 2; 3; 3] (inl (10 : val toy)). Proof. exists 2, 20. vm_compute. reflexivity. Qed.
(** With a parameter that breaks the loop in the first round, the value is that of the last call. *)
Example C89_case2 : ends program (0 : proc toy) (fun x => match x with 0 => 1 | _ => 0 end) [] [1] (inl (5 : val toy)). Proof. exists 2, 20. vm_compute. reflexivity. Qed.
Example C89_case3 : vols toy main = [1] /\ steps toy program 20 200 (start toy program 0 (fun _ => 0) []) = None. Proof. split; vm_compute; reflexivity. Qed.

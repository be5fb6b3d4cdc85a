(** Computing executions of the wake-up model. *)
From Verif Require Import Base M_Wake.
Local Open Scope nat_scope.

Definition ph_eqb (p q : phase) : bool :=
  match p, q with
  | PNew, PNew | PPoll, PPoll | PPre, PPre | PCb, PCb | PTop, PTop | PShared, PShared | PGot, PGot | PRun, PRun | PEnd, PEnd => true
  | _, _ => false
  end.
Lemma ph_eqb_ok p q : ph_eqb p q = true -> p = q.
Proof. destruct p, q; cbn; congruence. Qed.

Section F.
Variable n shared : nat.
Definition nojobs (s : wst) (t : nat) : bool := match wjobs s t with [] => true | _ => false end.
Definition ready (s : wst) (t : nat) (p : phase) : bool := ph_eqb (wph s t) p && nojobs s t.
Lemma ready_ok s t p : ready s t p = true -> wph s t = p /\ wjobs s t = [].
Proof.
  intros H. apply andb_prop in H. destruct H as [H1 H2]. split; [now apply ph_eqb_ok|].
  unfold nojobs in H2. destruct (wjobs s t); congruence.
Qed.

Definition wstepf (s : wst) (l : wlabel) : option wst :=
  match l with
  | WStart t => if ready s t PNew && (t <=? n) then Some (move t PPoll (set_stat (wupd (wstat s) t WIdle) s)) else None
  | WPoll t => if ready s t PPoll && wpend s t then Some (move t PCb (set_pend (wupd (wpend s) t false) s)) else None
  | WIo t => if ready s t PPoll then Some (move t PCb s) else None
  | WTimer t => if ready s t PPoll then Some (move t PPre s) else None
  | WBack t => if ready s t PPre && (t <=? n) then Some (move t PPoll s) else None
  | WAsync t q a =>
      if (ready s t PCb || ready s t PPre) && valid n shared q
      then Some (set_q (wupd (wq s) q (wq s q ++ [a])) (set_jobs (wupd (wjobs s) t (enq_jobs n t q ++ [WHead q])) s)) else None
  | WCheck t => if ready s t PCb && (t <=? n) then Some (move t PTop s) else None
  | WTake t q _ =>
      if ready s t PTop && (q =? t) then
        match wq s t with
        | _ :: r => Some (move t PGot (set_q (wupd (wq s) t r) (set_jobs (wupd (wjobs s) t [WHead shared]) s)))
        | [] => None
        end
      else if ready s t PShared && (q =? shared) then
        match wq s shared with
        | _ :: r => Some (move t PGot (set_q (wupd (wq s) shared r) (set_jobs (wupd (wjobs s) t [WHead shared]) s)))
        | [] => None
        end
      else None
  | WNone t =>
      if ready s t PTop then match wq s t with [] => Some (move t (if t =? 0 then PPoll else PShared) s) | _ => None end
      else if ready s t PShared then match wq s shared with [] => Some (move t PPoll s) | _ => None end
      else None
  | WWork t => if ready s t PGot then Some (move t PRun (set_stat (wupd (wstat s) t WWorking) s)) else None
  | WReady t q a =>
      if ready s t PRun && valid n shared q
      then Some (set_q (wupd (wq s) q (wq s q ++ [a])) (set_jobs (wupd (wjobs s) t (enq_jobs n t q)) s)) else None
  | WDone t => if ready s t PRun then Some (move t PEnd (set_stat (wupd (wstat s) t WIdle) s)) else None
  | WAgain t => if ready s t PEnd then Some (move t PTop s) else None
  | WYield t => if ready s t PEnd then Some (move t PPoll (set_pend (wupd (wpend s) t true) s)) else None
  | WJob t => match wjobs s t with j :: rest => Some (job_step n shared t j rest s) | [] => None end
  end.

Ltac use H := let A := fresh in apply andb_prop in H; destruct H as [H A].
Lemma wstepf_ok s l s' : wstepf s l = Some s' -> exists l', wstep n shared s l' s'.
Proof.
  destruct l; cbn [wstepf]; intros E;
    repeat match type of E with
    | (if ?b then _ else _) = _ => let B := fresh "B" in destruct b eqn:B; try discriminate E
    | match ?x with _ => _ end = _ => let B := fresh "B" in destruct x eqn:B; try discriminate E
    end; try (injection E as <-);
    repeat match goal with
    | H : _ && _ = true |- _ => apply andb_prop in H; destruct H
    | H : _ || _ = true |- _ => apply orb_prop in H; destruct H
    | H : ready _ _ _ = true |- _ => apply ready_ok in H; destruct H
    | H : (_ <=? _) = true |- _ => apply Nat.leb_le in H
    | H : (_ =? _) = true |- _ => apply Nat.eqb_eq in H; subst
    end; eexists.
  all: first [now econstructor; eauto | idtac].
Qed.

Fixpoint wrunf (s : wst) (ls : list wlabel) : option wst :=
  match ls with
  | [] => Some s
  | l :: r => match wstepf s l with Some s' => wrunf s' r | None => None end
  end.
Lemma wrunf_ok ls : forall s s', wrunf s ls = Some s' -> exists ls', wrun n shared s ls' s'.
Proof.
  induction ls as [|l ls IH]; cbn [wrunf]; intros s s' E.
  - injection E as <-. exists []. constructor.
  - destruct (wstepf s l) as [s1|] eqn:E1; [|discriminate]. apply wstepf_ok in E1. destruct E1 as [l' St].
    destruct (IH _ _ E) as [ls' R]. exists (l' :: ls'). econstructor; eauto.
Qed.
End F.

(** Two workers.  Both start and go to sleep.  Then a callback in the main thread makes two actors ready, one after
    the other; both times worker 1 is woken.  Worker 1 takes the first actor, and then, to have
    the second one executed, wakes itself: its state is still WT_Idle.  It executes the first actor. *)
Definition sleepers : list wlabel :=
  [WStart 0; WStart 1; WPoll 1; WCheck 1; WNone 1; WNone 1; WStart 2; WPoll 2; WCheck 2; WNone 2; WNone 2;
   WPoll 0; WAsync 0 4 10; WJob 0; WJob 0; WJob 0; WJob 0; WAsync 0 4 11; WJob 0; WJob 0; WJob 0; WJob 0; WCheck 0; WNone 0;
   WPoll 1; WCheck 1; WNone 1; WTake 1 4 10; WJob 1; WJob 1; WWork 1].

(** Computing executions of the runtime model, and two concrete bad ones. *)
From Verif Require Import Base S_Rts M_Rts.
Local Open Scope nat_scope.

Section Exec.
Context {U V : Type}.
Variable veq : V -> V -> bool.
Hypothesis veq_ok : forall x y, veq x y = true -> x = y.
Variable vfalse vdone : V.
Variable shared : nat.
Notation state := (state U V).
Notation label := (label U V).

Definition allowedb (c : cont U) (v : V) (x : act U V) (s : state) : bool :=
  match c, x with
  | CDone, ARet (RDone w) => veq w v
  | CFail, ARet (RFail w) => veq w v
  | CUser _, ARet (RWait _ y) => y <? next s
  | CUser _, _ => true
  | _, _ => false
  end.
Lemma allowedb_ok c v x s : allowedb c v x s = true -> allowed c v x s.
Proof.
  destruct c; cbn; destruct x as [| | | | |[]]; try discriminate; auto; intros H.
  - apply veq_ok in H. now subst. - apply veq_ok in H. now subst. - now apply Nat.ltb_lt.
Qed.

Definition stepf (s : state) (l : label) : option state :=
  match l with
  | LDeq t q =>
      match todo s t, rq s q with
      | [], a :: r => if serves shared t q then Some (set_rq (upd (rq s) q r) (set_todo (upd (todo s) t [IBegin a]) s)) else None
      | _, _ => None
      end
  | LRun t x =>
      match todo s t with
      | [IRun a m c v] => if allowedb c v x s then run_act vfalse vdone t a m x s else None
      | _ => None
      end
  | LStep t => match todo s t with i :: rest => exec t i rest s | [] => None end
  | LExt t B c =>
      match todo s t with
      | [] => Some (logev (EExt B (next s) (clock s) c)
                (set_todo (upd (todo s) t [IEnq (next s)]) (new_msg vdone B c (clock s) s)))
      | _ => None
      end
  | LFire t =>
      match todo s t, deq_timed (mbase s) (clock s) (timerQ s) with
      | [], Some (m, r) => Some (logev (EFire m (clock s)) (set_timerQ r (set_todo (upd (todo s) t [IEnq m]) s)))
      | _, _ => None
      end
  | LTick d => if (0 <=? d)%Z then Some (set_clock (clock s + d)%Z s) else None
  end.

Lemma stepf_ok s l s' : stepf s l = Some s' -> step vfalse vdone shared s l s'.
Proof.
  destruct l as [t q|t x|t|t B c|t|d]; cbn [stepf].
  - destruct (todo s t) eqn:E; [|discriminate]. destruct (rq s q) eqn:E2; [discriminate|].
    destruct (serves shared t q) eqn:E3; [|discriminate]. intros H. injection H as <-. now constructor.
  - destruct (todo s t) as [|[| a m c v | | | | | | | | | |] [|]] eqn:E; try discriminate.
    destruct (allowedb c v x s) eqn:E2; [|discriminate]. intros H. econstructor; eauto. now apply allowedb_ok.
  - destruct (todo s t) eqn:E; [discriminate|]. intros H. econstructor; eauto.
  - destruct (todo s t) eqn:E; [|discriminate]. intros H. injection H as <-. now constructor.
  - destruct (todo s t) eqn:E; [|discriminate]. destruct (deq_timed _ _ _) as [[m r]|] eqn:E2; [|discriminate].
    intros H. injection H as <-. now constructor.
  - destruct (Z.leb_spec 0 d); [|discriminate]. intros H1. injection H1 as <-. now constructor.
Qed.

Fixpoint runf (s : state) (ls : list label) : option state :=
  match ls with
  | [] => Some s
  | l :: r => if crashed s then None else match stepf s l with Some s' => runf s' r | None => None end
  end.
Lemma runf_ok ls : forall s s', runf s ls = Some s' -> run vfalse vdone shared s ls s'.
Proof.
  induction ls as [|l ls IH]; cbn [runf]; intros s s' H.
  - injection H as <-. constructor.
  - destruct (crashed s) eqn:E; [discriminate|]. destruct (stepf s l) as [s1|] eqn:E1; [|discriminate].
    econstructor; eauto. now apply stepf_ok.
Qed.
End Exec.

(** Values and program continuations are numbers; 2 workers, the shared queue is 256. *)
Definition lab := label nat nat.
Definition steps (t n : nat) : list lab := repeat (LStep t) n.
Definition go (ls : list lab) : option (state nat nat) := runf Nat.eqb 0 1 256 (init 0 0%Z (fun _ => 256)) ls.

Lemma go_ok ls s : go ls = Some s -> run 0 1 256 (init 0 0%Z (fun _ => 256)) ls s.
Proof. apply runf_ok. intros x y H. now apply Nat.eqb_eq. Qed.

(** Actor 0 calls actor 1 (message 1), later awaits that message after calling actor 2
    (message 3).  Worker 1 registers the await; before it sends message 3, message 1
    finishes in worker 2, which resumes actor 0 and lets it call actor 2 again (message 4). *)
Definition prelude : list lab :=
  [LExt 0 0 (CUser 0); LStep 0; LStep 0; LDeq 1 256; LStep 1;
   LRun 1 (AAsync 1 (CUser 1)); LRun 1 (ARet (RDone 5))] ++ steps 1 6 ++
  [LDeq 2 256; LStep 2;
   LExt 0 0 (CUser 2); LStep 0; LStep 0; LDeq 1 256; LStep 1].
Definition finish_1 : list lab := [LRun 2 (ARet (RDone 7))] ++ steps 2 6 ++ [LDeq 2 256; LStep 2].

Definition bad_order : list lab :=
  prelude ++
  [LRun 1 (AAsync 2 (CUser 3)); LRun 1 (ARet (RWait (CUser 4) 1)); LStep 1; LStep 1] ++
  finish_1 ++
  [LRun 2 (AAsync 2 (CUser 5)); LRun 2 (ARet (RDone 8))] ++ steps 2 6 ++
  [LDeq 2 256; LStep 2].

(** As above, but worker 1 is about to take the outgoing messages of actor 0, and takes those
    of its second execution. *)
Definition bad_visible : list lab :=
  prelude ++
  [LRun 1 (ARet (RWait (CUser 4) 1)); LStep 1] ++
  finish_1 ++
  [LRun 2 (AAsync 2 (CUser 5)); LStep 1; LStep 1].

(** Actor 0 makes two delayed calls of itself that are due at the same time; the second one reaches
    the timer first. *)
Definition bad_timer : list lab :=
  prelude ++
  [LRun 1 (AAfter 5 (CUser 6)); LRun 1 (ARet (RWait (CUser 4) 1)); LStep 1; LStep 1] ++
  finish_1 ++
  [LExt 0 0 (CUser 8); LStep 0;
   LRun 2 (AAfter 5 (CUser 7)); LRun 2 (ARet (RDone 8))] ++ steps 2 6 ++
  [LStep 1; LTick 5; LFire 0; LStep 0].

(** One worker.  Actor 0 calls actor 1 twice, calls itself in 10 microseconds, awaits the first call
    and then fails. *)
Definition good : list lab :=
  [LExt 0 0 (CUser 0); LStep 0; LStep 0; LDeq 1 256; LStep 1;
   LRun 1 (AAsync 1 (CUser 1)); LRun 1 (AAsync 1 (CUser 2)); LRun 1 (AAfter 10 (CUser 3)); LRun 1 (ARet (RWait (CUser 4) 1))] ++ steps 1 6 ++
  [LDeq 1 256; LStep 1; LRun 1 (ARet (RDone 7))] ++ steps 1 7 ++
  [LDeq 1 256; LStep 1; LRun 1 (ARet (RFail 9))] ++ steps 1 4 ++
  [LDeq 1 256; LStep 1; LRun 1 (ARet (RDone 8))] ++ steps 1 4 ++
  [LTick 10; LFire 0; LStep 0; LStep 0; LDeq 1 256; LStep 1; LRun 1 (ARet (RDone 6))] ++ steps 1 4.

(** Actor 0 fails in a try block; its handler takes the exception and finishes the message.
    Meanwhile a second message waits in its mailbox. *)
Definition trying : list lab :=
  [LExt 0 0 (CUser 0); LStep 0; LStep 0; LExt 0 0 (CUser 6); LStep 0; LDeq 1 256; LStep 1;
   LRun 1 (APush (CUser 5)); LRun 1 (ARet (RFail 9)); LStep 1; LDeq 1 256; LStep 1; LRun 1 APop; LRun 1 (ARet (RDone 3))] ++ steps 1 5.

(** As [good], up to the point where actor 0 awaits message 1. *)
Definition waiting : list lab :=
  [LExt 0 0 (CUser 0); LStep 0; LStep 0; LDeq 1 256; LStep 1;
   LRun 1 (AAsync 1 (CUser 1)); LRun 1 (ARet (RWait (CUser 4) 1))] ++ steps 1 4.

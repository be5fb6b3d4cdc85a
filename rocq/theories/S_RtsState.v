(** What can be observed of a state of the runtime. *)
From Verif Require Import Base S_Rts M_Rts.
Local Open Scope nat_scope.

Section SpecState.
Context {U V : Type}.
Notation state := (state U V).
Notation event := (event U V).

(** Thread [t] is inside code of actor [a]. *)
Definition executing (s : state) (t : tid) (a : aid) : Prop :=
  exists m c v, In (IRun a m c v) (todo s t).

(** Actor [a] is in ready queue [q]. *)
Definition ready_in (s : state) (a : aid) (q : nat) : Prop := In a (rq s q).

(** The places a message can be in: with the actor that sent it, in the hands of a
    thread that is delivering it, in the timer queue, in a mailbox, or done with. *)
Inductive spot := AtSender (a : aid) | AtThread (t : tid) | AtTimer | AtMailbox (a : aid) | Gone.
Definition is_at (s : state) (m : mid) (p : spot) : Prop :=
  match p with
  | AtSender a => In m (out s a)
  | AtThread t => (exists a, In (ISend a m) (todo s t)) \/ In (IEnq m) (todo s t)
  | AtTimer => In m (timerQ s)
  | AtMailbox a => In m (mbox s a)
  | Gone => (exists o, In (EFinish m o) (log s)) /\ forall a, ~ In m (mbox s a)
  end.

(** How often message [m] was started: executions that are not the continuation of
    an earlier one. *)
Fixpoint starts (vfalse : V) (m : mid) (h : list event) : nat :=
  match h with
  | [] => 0
  | EBegin a m' _ _ :: h' =>
      (if m' =? m then match expect vfalse a h' with XNext => 1 | _ => 0 end else 0) + starts vfalse m h'
  | _ :: h' => starts vfalse m h'
  end.
Fixpoint finishes (m : mid) (h : list event) : nat :=
  match h with
  | [] => 0
  | EFinish m' _ :: h' => (if m' =? m then 1 else 0) + finishes m h'
  | _ :: h' => finishes m h'
  end.

(** Actor [a] waits for the outcome of [x], which is not there yet. *)
Definition blocked_on (vfalse : V) (h : list event) (a : aid) (m x : mid) : Prop :=
  running a h = None /\ (exists c, expect vfalse a h = XWait m c x) /\ forall o, ~ In (EFinish x o) h.

(** Nothing happens any more unless time passes or something comes from outside. *)
Definition quiescent (s : state) : Prop := (forall t, todo s t = []) /\ (forall q, rq s q = []).

(** Someone will see to it that actor [a] gets executed: it is in a ready queue, or a
    thread that has work to do will put it there. *)
Definition will_run (s : state) (a : aid) : Prop :=
  (exists q, ready_in s a q) \/
  (exists t i, In i (todo s t) /\
     (i = IReady a \/ i = IBegin a \/ (exists x o, i = IWake x o a) \/ (exists m x, i = IResume a m x \/ i = IAdd a m x))).

(** [m1] was due before [m2], or at the same time and was handed to the timer first. *)
Definition due_before (h : list event) (m1 m2 : mid) : Prop :=
  (ltime m1 h < ltime m2 h)%Z \/ (ltime m1 h = ltime m2 h /\ precedes (ETimed m1) (ETimed m2) h).

(** Timed messages fire in the order they are due: when [m2] fires, every message that
    was handed to the timer and is due before it has already fired. *)
Definition fires_in_order (h : list event) : Prop :=
  forall m1 m2 now newer older, h = newer ++ EFire m2 now :: older ->
    In (ETimed m1) older -> due_before older m1 m2 -> exists now', In (EFire m1 now') older.
End SpecState.

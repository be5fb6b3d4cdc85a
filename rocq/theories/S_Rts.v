(** Vocabulary and specification of the actor runtime, as a history of events.

    Nothing here depends on how the runtime works.  Actors, messages and threads
    are numbered.  A history is a list of events, *newest first*. *)
From Verif Require Import Base.
Local Open Scope nat_scope.

Definition aid := nat.
Definition mid := nat.
Definition tid := nat.

Section Spec.
(** [U]: continuations of the program; [V]: values (results and exceptions). *)
Context {U V : Type}.

(** A continuation is program code, or one of the two built-in ones that end a
    message with a result or an exception. *)
Inductive cont := CDone | CFail | CUser (u : U).

(** What a continuation returns to the runtime: the message is done with a
    result, continue with [c] applied to [v], an exception was raised, or wait for
    message [x] and then continue with [c]. *)
Inductive ret := RDone (v : V) | RCont (c : cont) (v : V) | RFail (e : V) | RWait (c : cont) (x : mid).

(** How a message ended. *)
Inductive outcome := OVal (v : V) | OExc (e : V).

Inductive event :=
| EAsync (A B : aid) (m : mid) (c : cont)       (* A calls a method of B: message m running c *)
| EAfter (A : aid) (m : mid) (d : Z) (c : cont) (* A schedules c on itself, d microseconds later *)
| EExt (B : aid) (m : mid) (now : Z) (c : cont) (* an event loop calls a method of B at time now *)
| EBegin (a : aid) (m : mid) (c : cont) (v : V) (* a starts executing c v, on behalf of message m *)
| EReturn (a : aid) (m : mid) (r : ret)         (* ... and that execution returned r *)
| EPush (a : aid) (c : cont)                    (* a enters a try block with handler c *)
| EPop (a : aid) (x : option V)                 (* a leaves it, obtaining the exception x if any *)
| EArrive (B : aid) (m : mid) (now : Z)         (* m becomes visible to B, at time now *)
| ETimed (m : mid)                              (* m is handed to the timer *)
| EFire (m : mid) (now : Z)                     (* the timer lets m go, at time now *)
| EFinish (m : mid) (o : outcome).              (* m ended with o; from now on awaiting m yields o *)

(** [precedes e1 e2 h]: some occurrence of e1 is older than some occurrence of e2. *)
Definition precedes (e1 e2 : event) (h : list event) : Prop :=
  exists newer between older, h = newer ++ e2 :: between ++ e1 :: older.

(** ** Who sent a message, and what it initially runs *)
Definition sent_by (A : aid) (m : mid) (e : event) : Prop :=
  (exists B c, e = EAsync A B m c) \/ (exists d c, e = EAfter A m d c).
Definition created (m : mid) (B : aid) (c : cont) (h : list event) : Prop :=
  (exists A, In (EAsync A B m c) h) \/ (exists d, In (EAfter B m d c) h) \/ (exists now, In (EExt B m now c) h).

(** ** Exception handlers: the stack of open try blocks of actor [a], innermost
    first, each with the exception it caught, if any.  [RFail] hands the exception
    to the innermost handler. *)
Fixpoint handlers (a : aid) (h : list event) : list (cont * option V) :=
  match h with
  | [] => []
  | EPush a' c :: h' => if a' =? a then (c, None) :: handlers a h' else handlers a h'
  | EPop a' _ :: h' => if a' =? a then tl (handlers a h') else handlers a h'
  | EReturn a' _ (RFail e) :: h' =>
      if a' =? a then match handlers a h' with
                      | [] => []
                      | (c, _) :: r => (c, Some e) :: r
                      end
      else handlers a h'
  | _ :: h' => handlers a h'
  end.

(** ** What an actor must do next *)
Variable vfalse : V. (* the value that tells a try block to take its except branch *)
Variable vdone : V.  (* the argument of a method's initial continuation *)

Inductive expectation :=
| XNext                                   (* take the next message *)
| XCall (m : mid) (c : cont) (v : V)      (* go on with message m: c v *)
| XWait (m : mid) (c : cont) (x : mid).   (* go on with c and the outcome of x *)

Fixpoint expect (a : aid) (h : list event) : expectation :=
  match h with
  | [] => XNext
  | EReturn a' m r :: h' =>
      if a' =? a then
        match r with
        | RDone _ => XNext
        | RCont c v => XCall m c v
        | RWait c x => XWait m c x
        | RFail e => match handlers a h' with
                     | [] => XNext
                     | (c, _) :: _ => XCall m c vfalse
                     end
        end
      else expect a h'
  | _ :: h' => expect a h'
  end.

(** The execution of actor [a] that has begun and not yet returned, if any. *)
Fixpoint running (a : aid) (h : list event) : option (mid * cont * V) :=
  match h with
  | [] => None
  | EBegin a' m c v :: h' => if a' =? a then Some (m, c, v) else running a h'
  | EReturn a' _ _ :: h' => if a' =? a then None else running a h'
  | _ :: h' => running a h'
  end.

(** The last thing message [m] did. *)
Fixpoint last_return (m : mid) (h : list event) : option (aid * ret * list event) :=
  match h with
  | [] => None
  | EReturn a m' r :: h' => if m' =? m then Some (a, r, h') else last_return m h'
  | _ :: h' => last_return m h'
  end.

(** Messages that have arrived at [B], oldest first. *)
Fixpoint arrivals (B : aid) (h : list event) : list mid :=
  match h with
  | [] => []
  | EArrive B' m _ :: h' => if B' =? B then arrivals B h' ++ [m] else arrivals B h'
  | _ :: h' => arrivals B h'
  end.

(** Logical time of a message: the time of the event-loop callback that caused
    it; a message sent by an actor has the logical time of the message the actor
    was executing, plus the delay. *)
Fixpoint ltime (m : mid) (h : list event) : Z :=
  match h with
  | [] => 0
  | EExt _ m' now _ :: h' => if Nat.eqb m' m then now else ltime m h'
  | EAsync A _ m' _ :: h' =>
      if Nat.eqb m' m then match running A h' with Some (m0, _, _) => ltime m0 h' | None => 0 end
      else ltime m h'
  | EAfter A m' d _ :: h' =>
      if Nat.eqb m' m then match running A h' with Some (m0, _, _) => ltime m0 h' + d | None => 0 end
      else ltime m h'
  | _ :: h' => ltime m h'
  end%Z.

(** ** Legal histories *)

(** After history [h], actor [a] may begin [c v] for message [m] only if it is
    not executing anything, and
    - either its previous message ended (or it never had one) and m is a message
      for a that never ran, about to run its initial continuation, every message
      that arrived at a before m being finished,
    - or its last execution asked to continue like this (or raised an exception
      and c is the innermost handler),
    - or its last execution waits for message x, x has finished, and c v is the
      waiting continuation applied to the result, or the failure continuation
      applied to the exception. *)
Definition legal_begin (h : list event) (a : aid) (m : mid) (c : cont) (v : V) : Prop :=
  running a h = None /\
  match expect a h with
  | XNext => created m a c h /\ v = vdone /\
             (exists older younger, arrivals a h = older ++ m :: younger /\
                forall m', In m' older -> exists o, In (EFinish m' o) h) /\
             (forall a' c' v', ~ In (EBegin a' m c' v') h)
  | XCall m' c' v' => m = m' /\ c = c' /\ v = v'
  | XWait m' c' x => m = m' /\ exists o, In (EFinish x o) h /\
                     match o with
                     | OVal r => c = c' /\ v = r
                     | OExc e => c = CFail /\ v = e
                     end
  end.

(** An execution returns only if it is running; the two built-in continuations
    return what they were given. *)
Definition legal_return (h : list event) (a : aid) (m : mid) (r : ret) : Prop :=
  exists c v, running a h = Some (m, c, v) /\
    (c = CDone -> r = RDone v) /\ (c = CFail -> r = RFail v).

(** Message [m] finishes at most once, with the value of its last return if that was a
    result, with the exception if that was an exception and no handler was open. *)
Definition legal_finish (h : list event) (m : mid) (o : outcome) : Prop :=
  (forall o', ~ In (EFinish m o') h) /\
  exists a r h', last_return m h = Some (a, r, h') /\
    match r, o with
    | RDone v, OVal v' => v' = v
    | RFail e, OExc e' => e' = e /\ handlers a h' = []
    | _, _ => False
    end.

(** Returns after which the messages sent so far become visible. *)
Definition commits (a : aid) (r : ret) (h : list event) : Prop :=
  match r with
  | RDone _ => True
  | RWait _ _ => True
  | RFail _ => handlers a h = []
  | RCont _ _ => False
  end.

(** Message m, sent by actor A, may become visible only after A committed. *)
Definition committed (m : mid) (h : list event) : Prop :=
  (exists B now c, In (EExt B m now c) h) \/
  exists A s newer between older m0 r, sent_by A m s /\
    h = newer ++ EReturn A m0 r :: between ++ s :: older /\
    commits A r (between ++ s :: older).

Definition legal_event (h : list event) (e : event) : Prop :=
  match e with
  | EBegin a m c v => legal_begin h a m c v
  | EReturn a m r => legal_return h a m r
  | EFinish m o => legal_finish h m o
  | EPush a _ => exists x, running a h = Some x
  | EPop a x => (exists c r, handlers a h = (c, x) :: r) /\ exists y, running a h = Some y
  | EArrive B m now => (exists c, created m B c h) /\
                       (forall B' now', ~ In (EArrive B' m now') h) /\ (ltime m h <= now)%Z
  | ETimed m => (exists B c, created m B c h) /\ ~ In (ETimed m) h /\ (forall B' now', ~ In (EArrive B' m now') h)
  | EFire m now => In (ETimed m) h /\ (forall now', ~ In (EFire m now') h) /\
                   (forall B' now', ~ In (EArrive B' m now') h) /\ (ltime m h <= now)%Z
  | EAsync A _ m _ | EAfter A m _ _ => (forall B c, ~ created m B c h) /\ exists x, running A h = Some x
  | EExt _ m _ _ => forall B c, ~ created m B c h
  end.

(** Messages become visible only when committed, and the timer gets only messages with
    a delay. *)
Definition discreet_event (h : list event) (e : event) : Prop :=
  match e with
  | EArrive B m now => committed m h
  | ETimed m => committed m h /\ exists A d c, In (EAfter A m d c) h /\ d <> 0%Z
  | _ => True
  end.

(** Every event of the history satisfies [P] with respect to what was before it. *)
Inductive always (P : list event -> event -> Prop) : list event -> Prop :=
| always_nil : always P []
| always_cons e h : always P h -> P h e -> always P (e :: h).
Definition legal : list event -> Prop := always legal_event.
Definition discreet : list event -> Prop := always discreet_event.

(** Messages from one actor to another are handled in the order sent: whenever the
    second one is executed, the first one has finished. *)
Definition fifo (h : list event) : Prop :=
  forall A B m1 c1 m2 c2 c v newer older,
    precedes (EAsync A B m1 c1) (EAsync A B m2 c2) h ->
    h = newer ++ EBegin B m2 c v :: older ->
    exists o, In (EFinish m1 o) older.

End Spec.

Arguments cont U : clear implicits.
Arguments ret U V : clear implicits.
Arguments outcome V : clear implicits.
Arguments event U V : clear implicits.
Arguments expectation U V : clear implicits.

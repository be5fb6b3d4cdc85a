(** Specification of procedures: what a procedure with loops, exceptions and calls of other
    procedures does when it is run from top to bottom, as its text says. *)
From Coq Require Import List Bool Arith.
Import ListNotations.

Definition name := nat.

(** ** What statements are made of. *)
Record lang : Type := Lang {
  val : Type; exc : Type; world : Type; expr : Type; call : Type; proc : Type;
  none : val; yes : val; no : val;
  truth : val -> bool;
  truth_yes : truth yes = true;
  truth_no : truth no = false;
  caught : exc -> val;                           (* what "except ... as x" binds *)
  thrown : val -> exc;                           (* the operand of raise *)
  (* an expression without calls of procedures: the variables it reads, and what it does *)
  reads : expr -> list name;
  value : expr -> list val -> world -> world * (val + exc);
  (* a call: the variables in its arguments, and what is called: a procedure with its parameters
     set, or something outside of the program, such as await, that may not return *)
  args : call -> list name;
  callee : call -> list val -> world -> (proc * (name -> val)) + option (world * (val + exc))
}.

Section Direct.
Variable L : lang.
Definition locals : Type := name -> val L.
Definition set (l : locals) (x : name) (v : val L) : locals := fun y => if y =? x then v else l y.

Inductive stmt :=
| Do (e : expr L)
| Set_ (x : name) (e : expr L)                   (* x = e *)
| Raise (e : expr L)
| Call (x : option name) (c : call L)            (* c or x = c *)
| Return (e : option (expr L))
| ReturnCall (c : call L)                        (* return c *)
| Break
| Continue
| If (e : expr L) (b els : suite)
| While (e : expr L) (b : suite)
| Try (b els : suite) (x : name) (h : suite)     (* try: b; except as x: h; else: els *)
with suite := Nil | Cons (s : stmt) (ss : suite).

Inductive out := ONext | OBreak | OContinue | OReturn (v : val L) | ORaise (x : exc L).
Definition res : Type := option (locals * world L * out).

Definition eval (e : expr L) (l : locals) (w : world L) : world L * (val L + exc L) :=
  value L e (map l (reads L e)) w.
Definition bindopt (x : option name) (v : val L) (l : locals) : locals :=
  match x with Some x => set l x v | None => l end.

Definition after_body (o : out) (again : res) (l : locals) (w : world L) : res :=
  match o with
  | ONext | OContinue => again
  | OBreak => Some (l, w, ONext)
  | o => Some (l, w, o)
  end.
(** Loops.  Every loop is given [n] rounds; a result of [None] for every n is non-termination. *)
Fixpoint while_ (n : nat) (test : expr L) (body : locals -> world L -> res) (l : locals) (w : world L) : res :=
  match n with
  | O => None
  | S n =>
      match eval test l w with
      | (w1, inr x) => Some (l, w1, ORaise x)
      | (w1, inl v) =>
          if truth L v then
            match body l w1 with
            | None => None
            | Some (l2, w2, o) => after_body o (while_ n test body l2 w2) l2 w2
            end
          else Some (l, w1, ONext)
      end
  end.

(** The meaning of statements; [f] is what calls do. *)
Section Exec.
Variable f : call L -> list (val L) -> world L -> option (world L * (val L + exc L)).
Fixpoint exec_stmt (n : nat) (s : stmt) (l : locals) (w : world L) {struct s} : res :=
  match s with
  | Do e =>
      match eval e l w with
      | (w1, inl _) => Some (l, w1, ONext)
      | (w1, inr x) => Some (l, w1, ORaise x)
      end
  | Set_ x e =>
      match eval e l w with
      | (w1, inl v) => Some (set l x v, w1, ONext)
      | (w1, inr x) => Some (l, w1, ORaise x)
      end
  | Raise e =>
      match eval e l w with
      | (w1, inl v) => Some (l, w1, ORaise (thrown L v))
      | (w1, inr x) => Some (l, w1, ORaise x)
      end
  | Call x c =>
      match f c (map l (args L c)) w with
      | None => None
      | Some (w1, inl v) => Some (bindopt x v l, w1, ONext)
      | Some (w1, inr x) => Some (l, w1, ORaise x)
      end
  | Return None => Some (l, w, OReturn (none L))
  | Return (Some e) =>
      match eval e l w with
      | (w1, inl v) => Some (l, w1, OReturn v)
      | (w1, inr x) => Some (l, w1, ORaise x)
      end
  | ReturnCall c =>
      match f c (map l (args L c)) w with
      | None => None
      | Some (w1, inl v) => Some (l, w1, OReturn v)
      | Some (w1, inr x) => Some (l, w1, ORaise x)
      end
  | Break => Some (l, w, OBreak)
  | Continue => Some (l, w, OContinue)
  | If e b els =>
      match eval e l w with
      | (w1, inr x) => Some (l, w1, ORaise x)
      | (w1, inl v) => if truth L v then exec n b l w1 else exec n els l w1
      end
  | While e b => while_ n e (exec n b) l w
  | Try b els x h =>
      match exec n b l w with
      | None => None
      | Some (l1, w1, ONext) => exec n els l1 w1
      | Some (l1, w1, ORaise ex) => exec n h (set l1 x (caught L ex)) w1
      | Some (l1, w1, o) => Some (l1, w1, o)
      end
  end
with exec (n : nat) (ss : suite) (l : locals) (w : world L) {struct ss} : res :=
  match ss with
  | Nil => Some (l, w, ONext)
  | Cons s ss =>
      match exec_stmt n s l w with
      | None => None
      | Some (l1, w1, ONext) => exec n ss l1 w1
      | Some (l1, w1, o) => Some (l1, w1, o)
      end
  end.
(** A procedure returns what its body returns, None if the body comes to its end. *)
Definition finish (r : res) : option (world L * (val L + exc L)) :=
  match r with
  | None => None
  | Some (_, w, ONext) => Some (w, inl (none L))
  | Some (_, w, OReturn v) => Some (w, inl v)
  | Some (_, w, ORaise x) => Some (w, inr x)
  | Some (_, w, (OBreak | OContinue)) => None
  end.
End Exec.

(** A program: the bodies of its procedures.  Calls nest to the depth [d] at most; again a result
    of [None] for every d is non-termination. *)
Variable body : proc L -> suite.
Fixpoint calls (d n : nat) (c : call L) (vs : list (val L)) (w : world L) : option (world L * (val L + exc L)) :=
  match d with
  | O => None
  | S d =>
      match callee L c vs w with
      | inr r => r
      | inl (p, l) => finish (exec (calls d n) n (body p) l w)
      end
  end.
(** The procedure p with its parameters and variables set to l. *)
Definition run_proc (d n : nat) (p : proc L) (l : locals) (w : world L) : option (world L * (val L + exc L)) :=
  finish (exec (calls d n) n (body p) l w).

(** The procedure comes to its end: with this world, and this value or exception. *)
Definition ends (p : proc L) (l : locals) (w w' : world L) (r : val L + exc L) : Prop :=
  exists d n, run_proc d n p l w = Some (w', r).

(** Every break and continue belongs to a loop. *)
Fixpoint closed_stmt (s : stmt) : bool :=
  match s with
  | Break | Continue => false
  | If _ b els => closed b && closed els
  | Try b els _ h => closed b && closed els && closed h
  | _ => true
  end
with closed (ss : suite) : bool :=
  match ss with Nil => true | Cons s ss => closed_stmt s && closed ss end.
End Direct.
Arguments Do {L} e. Arguments Set_ {L} x e. Arguments Raise {L} e. Arguments Call {L} x c. Arguments Return {L} e.
Arguments ReturnCall {L} c. Arguments Break {L}. Arguments Continue {L}. Arguments If {L} e b els. Arguments While {L} e b.
Arguments Try {L} b els x h. Arguments Nil {L}. Arguments Cons {L} s ss.
Arguments ONext {L}. Arguments OBreak {L}. Arguments OContinue {L}. Arguments OReturn {L} v. Arguments ORaise {L} x.
Arguments set {L}. Arguments eval {L}. Arguments bindopt {L}. Arguments after_body {L}. Arguments while_ {L}.
Arguments exec {L}. Arguments exec_stmt {L}. Arguments finish {L}. Arguments calls {L}. Arguments run_proc {L}. Arguments ends {L}.
Arguments closed {L}. Arguments closed_stmt {L}.
Scheme stmt_ind2 := Induction for stmt Sort Prop with suite_ind2 := Induction for suite Sort Prop.
Combined Scheme stmt_suite_ind from stmt_ind2, suite_ind2.

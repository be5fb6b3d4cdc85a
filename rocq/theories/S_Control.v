(** Specification of Acton's structured control flow: what statements mean before the compiler
    rewrites them.  Expressions, patterns and calls are left open. *)
From Coq Require Import List Bool Arith.
Import ListNotations.

(** ** What statements are made of.  A call that does not return is [None]. *)
Record lang : Type := Lang {
  ST : Type;                                     (* everything a program can change *)
  val : Type; exc : Type; expr : Type; pat : Type; cls : Type;
  none : val;
  eval : expr -> ST -> option (ST * (val + exc));
  truth : val -> bool;
  as_exc : val -> exc;                           (* the operand of raise *)
  next : val -> ST -> option (ST * (val + exc)); (* __next__ of an iterator *)
  assign : pat -> val -> ST -> option (ST * option exc);
  bind : pat -> exc -> ST -> ST;                 (* except ... as name *)
  instance : exc -> cls -> bool;
  stop : cls                                     (* StopIteration *)
}.

Section Source.
Variable L : lang.

Inductive hpat := All | Only (c : cls L) | As (c : cls L) (p : pat L).
Inductive stmt :=
| Atom (e : expr L)                              (* a statement without control flow *)
| Raise (e : expr L)
| Return (e : option (expr L))
| Break
| Continue
| If (e : expr L) (b els : suite)
| While (e : expr L) (b els : suite)
| For (p : pat L) (e : expr L) (b els : suite)
| Try (b : suite) (hs : handlers) (els fin : suite)
with suite := Nil | Cons (s : stmt) (ss : suite)
with handlers := HNil | HCons (h : hpat) (b : suite) (hs : handlers).

(** How a suite ends.  [OStray] is reported, in strict mode only, when an exception that is a
    StopIteration leaves the body of a for loop. *)
Inductive out := ONext | OBreak | OContinue | OReturn (v : val L) | ORaise (x : exc L) | OStray.
Definition res : Type := option (ST L * out).

(** Loops.  Every loop is given [n] rounds; a result of [None] for every n is non-termination. *)
Definition after_body (o : out) (again : res) (st : ST L) : res :=
  match o with
  | ONext | OContinue => again
  | OBreak => Some (st, ONext)
  | o => Some (st, o)
  end.
Fixpoint while_ (n : nat) (test : expr L) (body els : ST L -> res) (st : ST L) : res :=
  match n with
  | O => None
  | S n =>
      match eval L test st with
      | None => None
      | Some (st1, inr x) => Some (st1, ORaise x)
      | Some (st1, inl v) =>
          if truth L v then
            match body st1 with
            | None => None
            | Some (st2, o) => after_body o (while_ n test body els st2) st2
            end
          else els st1
      end
  end.
Definition leaves (strict : bool) (o : out) : out :=
  match o with
  | ORaise x => if strict && instance L x (stop L) then OStray else ORaise x
  | o => o
  end.
Fixpoint for_ (strict : bool) (n : nat) (p : pat L) (it : val L) (body els : ST L -> res) (st : ST L) : res :=
  match n with
  | O => None
  | S n =>
      match next L it st with
      | None => None
      | Some (st1, inr x) => if instance L x (stop L) then els st1 else Some (st1, ORaise x)
      | Some (st1, inl v) =>
          match assign L p v st1 with
          | None => None
          | Some (st2, Some x) => Some (st2, leaves strict (ORaise x))
          | Some (st2, None) =>
              match body st2 with
              | None => None
              | Some (st3, o) => after_body (leaves strict o) (for_ strict n p it body els st3) st3
              end
          end
      end
  end.

(** try: the else part runs after the protected suite has come to its end, the handlers after an
    exception in it; neither is protected. *)
Definition protected (r : res) (els : ST L -> res) (hs : exc L -> ST L -> res) : res :=
  match r with
  | None => None
  | Some (st1, ONext) => els st1
  | Some (st1, ORaise x) => hs x st1
  | Some (st1, o) => Some (st1, o)
  end.
(** finally: it runs however the rest has ended, which stands unless the finally part leaves too. *)
Definition finally_ (r : res) (fin : ST L -> res) : res :=
  match r with
  | None => None
  | Some (st1, OStray) => Some (st1, OStray)
  | Some (st1, o) =>
      match fin st1 with
      | None => None
      | Some (st2, ONext) => Some (st2, o)
      | Some (st2, o') => Some (st2, o')
      end
  end.

(** The meaning of statements, as in Python. *)
Fixpoint exec_stmt (strict : bool) (n : nat) (s : stmt) (st : ST L) {struct s} : res :=
  match s with
  | Atom e =>
      match eval L e st with
      | None => None
      | Some (st1, inl _) => Some (st1, ONext)
      | Some (st1, inr x) => Some (st1, ORaise x)
      end
  | Raise e =>
      match eval L e st with
      | None => None
      | Some (st1, inl v) => Some (st1, ORaise (as_exc L v))
      | Some (st1, inr x) => Some (st1, ORaise x)
      end
  | Return None => Some (st, OReturn (none L))
  | Return (Some e) =>
      match eval L e st with
      | None => None
      | Some (st1, inl v) => Some (st1, OReturn v)
      | Some (st1, inr x) => Some (st1, ORaise x)
      end
  | Break => Some (st, OBreak)
  | Continue => Some (st, OContinue)
  | If e b els =>
      match eval L e st with
      | None => None
      | Some (st1, inr x) => Some (st1, ORaise x)
      | Some (st1, inl v) => if truth L v then exec strict n b st1 else exec strict n els st1
      end
  | While e b els => while_ n e (exec strict n b) (exec strict n els) st
  | For p e b els =>
      match eval L e st with
      | None => None
      | Some (st1, inr x) => Some (st1, ORaise x)
      | Some (st1, inl it) => for_ strict n p it (exec strict n b) (exec strict n els) st1
      end
  | Try b hs els fin =>
      finally_ (protected (exec strict n b st) (exec strict n els) (exec_handlers strict n hs)) (exec strict n fin)
  end
with exec (strict : bool) (n : nat) (ss : suite) (st : ST L) {struct ss} : res :=
  match ss with
  | Nil => Some (st, ONext)
  | Cons s ss =>
      match exec_stmt strict n s st with
      | Some (st1, ONext) => exec strict n ss st1
      | r => r
      end
  end
with exec_handlers (strict : bool) (n : nat) (hs : handlers) (x : exc L) (st : ST L) {struct hs} : res :=
  match hs with
  | HNil => Some (st, ORaise x)
  | HCons All b _ => exec strict n b st
  | HCons (Only c) b hs => if instance L x c then exec strict n b st else exec_handlers strict n hs x st
  | HCons (As c p) b hs => if instance L x c then exec strict n b (bind L p x st) else exec_handlers strict n hs x st
  end.

(** A function: it returns what its body returns, None if the body comes to its end. *)
Inductive result := Returns (v : val L) | Raises (x : exc L) | Stray | NoLoop.
Definition call (strict : bool) (n : nat) (body : suite) (st : ST L) : option (ST L * result) :=
  match exec strict n body st with
  | None => None
  | Some (st1, ONext) => Some (st1, Returns (none L))
  | Some (st1, OReturn v) => Some (st1, Returns v)
  | Some (st1, ORaise x) => Some (st1, Raises x)
  | Some (st1, OStray) => Some (st1, Stray)
  | Some (st1, (OBreak | OContinue)) => Some (st1, NoLoop)
  end.

(** ** Where break and continue stand. *)
(** Every break and continue in the suite belongs to a loop in it. *)
Fixpoint closed_stmt (s : stmt) : bool :=
  match s with
  | Break | Continue => false
  | If _ b els => closed b && closed els
  | While _ _ els | For _ _ _ els => closed els
  | Try b hs els fin => closed b && closed_handlers hs && closed els && closed fin
  | _ => true
  end
with closed (ss : suite) : bool :=
  match ss with Nil => true | Cons s ss => closed_stmt s && closed ss end
with closed_handlers (hs : handlers) : bool :=
  match hs with HNil => true | HCons _ b hs => closed b && closed_handlers hs end.
(** No break or continue that leaves the else part of a while loop. *)
Fixpoint tame_stmt (s : stmt) : bool :=
  match s with
  | If _ b els | For _ _ b els => tame b && tame els
  | While _ b els => tame b && tame els && closed els
  | Try b hs els fin => tame b && tame_handlers hs && tame els && tame fin
  | _ => true
  end
with tame (ss : suite) : bool :=
  match ss with Nil => true | Cons s ss => tame_stmt s && tame ss end
with tame_handlers (hs : handlers) : bool :=
  match hs with HNil => true | HCons _ b hs => tame b && tame_handlers hs end.
(** No for loop. *)
Fixpoint nofor_stmt (s : stmt) : bool :=
  match s with
  | For _ _ _ _ => false
  | If _ b els | While _ b els => nofor b && nofor els
  | Try b hs els fin => nofor b && nofor_handlers hs && nofor els && nofor fin
  | _ => true
  end
with nofor (ss : suite) : bool :=
  match ss with Nil => true | Cons s ss => nofor_stmt s && nofor ss end
with nofor_handlers (hs : handlers) : bool :=
  match hs with HNil => true | HCons _ b hs => nofor b && nofor_handlers hs end.
(** No finally part. *)
Definition is_nil_ (ss : suite) : bool := match ss with Nil => true | _ => false end.
Fixpoint nofinal_stmt (s : stmt) : bool :=
  match s with
  | If _ b els | While _ b els | For _ _ b els => nofinal b && nofinal els
  | Try b hs els fin => nofinal b && nofinal_handlers hs && nofinal els && is_nil_ fin
  | _ => true
  end
with nofinal (ss : suite) : bool :=
  match ss with Nil => true | Cons s ss => nofinal_stmt s && nofinal ss end
with nofinal_handlers (hs : handlers) : bool :=
  match hs with HNil => true | HCons _ b hs => nofinal b && nofinal_handlers hs end.
End Source.
Arguments All {L}. Arguments Only {L} c. Arguments As {L} c p.
Arguments Atom {L} e. Arguments Raise {L} e. Arguments Return {L} e. Arguments Break {L}. Arguments Continue {L}.
Arguments If {L} e b els. Arguments While {L} e b els. Arguments For {L} p e b els. Arguments Try {L} b hs els fin.
Arguments Nil {L}. Arguments Cons {L} s ss. Arguments HNil {L}. Arguments HCons {L} h b hs.
Arguments ONext {L}. Arguments OBreak {L}. Arguments OContinue {L}. Arguments OReturn {L} v. Arguments ORaise {L} x. Arguments OStray {L}.
Arguments Returns {L} v. Arguments Raises {L} x. Arguments Stray {L}. Arguments NoLoop {L}.
Arguments exec {L}. Arguments exec_stmt {L}. Arguments exec_handlers {L}. Arguments call {L}. Arguments while_ {L}. Arguments for_ {L}.
Arguments after_body {L}. Arguments protected {L}. Arguments finally_ {L}. Arguments leaves {L}.
Arguments closed {L}. Arguments closed_stmt {L}. Arguments closed_handlers {L}. Arguments tame {L}. Arguments tame_stmt {L}. Arguments tame_handlers {L}.
Arguments nofor {L}. Arguments nofor_stmt {L}. Arguments nofor_handlers {L}. Arguments is_nil_ {L}.
Arguments nofinal {L}. Arguments nofinal_stmt {L}. Arguments nofinal_handlers {L}.

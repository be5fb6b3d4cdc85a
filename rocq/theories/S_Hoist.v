(** Specification of the order in which the parts of a statement are evaluated. *)
From Coq Require Import List Bool Arith.
Import ListNotations.

(** ** What expressions are made of.  Operations (constants, attributes, tuples, calls without
    effects) may look at the world and raise an exception but not change the world.  Calls may change
    it; one that does not return is [None]. *)
Record lang : Type := Lang {
  world : Type; val : Type; exc : Type; op : Type; fn : Type;
  truth : val -> bool;
  apply : op -> list val -> world -> val + exc;
  call : fn -> list val -> world -> option (world * (val + exc))
}.

Section Source.
Variable L : lang.

Inductive expr :=
| Var (x : nat)
| Op (o : op L) (es : exprs)
| Fn (f : fn L) (es : exprs)
| And (a b : expr)
| Or (a b : expr)
| Cond (a c b : expr)                            (* a if c else b *)
with exprs := ENil | ECons (e : expr) (es : exprs).

Inductive stmt :=
| Do (e : expr)
| Set_ (x : nat) (e : expr)
| Return (e : expr)
| Break
| Continue
| If (bs : branches) (els : suite)               (* if, elif, ..., else *)
| Loop (b : suite)                               (* while True *)
with suite := Nil | Cons (s : stmt) (ss : suite)
with branches := BNil | BCons (c : expr) (b : suite) (bs : branches).

(** ** Expressions: from left to right; of and, or and if-else only the parts that are needed. *)
Definition locals := nat -> val L.
Definition res (A : Type) : Type := option (world L * (A + exc L)).
Definition bind {A B} (r : res A) (k : A -> world L -> res B) : res B :=
  match r with
  | None => None
  | Some (w, inr x) => Some (w, inr x)
  | Some (w, inl v) => k v w
  end.
Fixpoint eval (e : expr) (l : locals) (w : world L) {struct e} : res (val L) :=
  match e with
  | Var x => Some (w, inl (l x))
  | Op o es => bind (evals es l w) (fun vs w => Some (w, apply L o vs w))
  | Fn f es => bind (evals es l w) (fun vs w => call L f vs w)
  | And a b => bind (eval a l w) (fun v w => if truth L v then eval b l w else Some (w, inl v))
  | Or a b => bind (eval a l w) (fun v w => if truth L v then Some (w, inl v) else eval b l w)
  | Cond a c b => bind (eval c l w) (fun v w => if truth L v then eval a l w else eval b l w)
  end
with evals (es : exprs) (l : locals) (w : world L) {struct es} : res (list (val L)) :=
  match es with
  | ENil => Some (w, inl [])
  | ECons e es => bind (eval e l w) (fun v w => bind (evals es l w) (fun vs w => Some (w, inl (v :: vs))))
  end.

(** ** Statements.  Every loop is given [n] rounds. *)
Inductive out := ONext | OBreak | OContinue | OReturn (v : val L) | ORaise (x : exc L).
Definition put (l : locals) (x : nat) (v : val L) : locals := fun y => if Nat.eqb y x then v else l y.
Definition sres : Type := option (locals * world L * out).
Definition test (r : res (val L)) (l : locals) (yes no : world L -> sres) : sres :=
  match r with
  | None => None
  | Some (w, inr x) => Some (l, w, ORaise x)
  | Some (w, inl v) => if truth L v then yes w else no w
  end.
Fixpoint rounds (n : nat) (body : locals -> world L -> sres) (l : locals) (w : world L) : sres :=
  match n with
  | O => None
  | S n =>
      match body l w with
      | Some (l1, w1, (ONext | OContinue)) => rounds n body l1 w1
      | Some (l1, w1, OBreak) => Some (l1, w1, ONext)
      | r => r
      end
  end.
Fixpoint exec_stmt (n : nat) (s : stmt) (l : locals) (w : world L) {struct s} : sres :=
  match s with
  | Do e => match eval e l w with None => None | Some (w, inl _) => Some (l, w, ONext) | Some (w, inr x) => Some (l, w, ORaise x) end
  | Set_ y e => match eval e l w with None => None | Some (w, inl v) => Some (put l y v, w, ONext) | Some (w, inr x) => Some (l, w, ORaise x) end
  | Return e => match eval e l w with None => None | Some (w, inl v) => Some (l, w, OReturn v) | Some (w, inr x) => Some (l, w, ORaise x) end
  | Break => Some (l, w, OBreak)
  | Continue => Some (l, w, OContinue)
  | If bs els => exec_if n bs (exec n els) l w
  | Loop b => rounds n (exec n b) l w
  end
with exec (n : nat) (ss : suite) (l : locals) (w : world L) {struct ss} : sres :=
  match ss with
  | Nil => Some (l, w, ONext)
  | Cons s ss =>
      match exec_stmt n s l w with
      | Some (l1, w1, ONext) => exec n ss l1 w1
      | r => r
      end
  end
with exec_if (n : nat) (bs : branches) (els : locals -> world L -> sres) (l : locals) (w : world L) {struct bs} : sres :=
  match bs with
  | BNil => els l w
  | BCons c b bs => test (eval c l w) l (exec n b l) (exec_if n bs els l)
  end.

(** ** Which variables a program uses: all are below [m]. *)
Fixpoint below (m : nat) (e : expr) {struct e} : bool :=
  match e with
  | Var x => Nat.ltb x m
  | Op _ es | Fn _ es => belows m es
  | And a b | Or a b => below m a && below m b
  | Cond a c b => below m a && below m c && below m b
  end
with belows (m : nat) (es : exprs) {struct es} : bool :=
  match es with ENil => true | ECons e es => below m e && belows m es end.
Fixpoint uses (m : nat) (s : stmt) {struct s} : bool :=
  match s with
  | Do e | Return e => below m e
  | Set_ x e => Nat.ltb x m && below m e
  | Break | Continue => true
  | If bs els => usesb m bs && usess m els
  | Loop b => usess m b
  end
with usess (m : nat) (ss : suite) {struct ss} : bool :=
  match ss with Nil => true | Cons s ss => uses m s && usess m ss end
with usesb (m : nat) (bs : branches) {struct bs} : bool :=
  match bs with BNil => true | BCons c b bs => below m c && usess m b && usesb m bs end.

(** ** Where the calls are. *)
Fixpoint calls (e : expr) {struct e} : bool :=
  match e with
  | Var _ => false
  | Op _ es => callss es
  | Fn _ _ => true
  | And a b | Or a b => calls a || calls b
  | Cond a c b => calls a || calls c || calls b
  end
with callss (es : exprs) {struct es} : bool :=
  match es with ENil => false | ECons e es => calls e || callss es end.

(** A program has its calls outside when every call is a whole statement's expression and its
    arguments contain no further calls. *)
Definition flat_top (e : expr) : bool := match e with Fn _ es => negb (callss es) | e => negb (calls e) end.
Fixpoint flat (s : stmt) {struct s} : bool :=
  match s with
  | Do e | Set_ _ e | Return e => flat_top e
  | Break | Continue => true
  | If bs els => flatb bs && flats els
  | Loop b => flats b
  end
with flats (ss : suite) {struct ss} : bool :=
  match ss with Nil => true | Cons s ss => flat s && flats ss end
with flatb (bs : branches) {struct bs} : bool :=
  match bs with BNil => true | BCons c b bs => negb (calls c) && flats b && flatb bs end.

(** ** Programs in which the order does not matter beyond the calls.  [fixed] are the operations whose
    value no call can change and that raise no exception. *)
Variable fixed : op L -> bool.
Definition really_fixed : Prop := forall o, fixed o = true -> forall vs, exists v, forall w, apply L o vs w = inl v.
(** What is left to evaluate of [e] once its calls are done is fixed. *)
Fixpoint settled (e : expr) {struct e} : bool :=
  match e with
  | Var _ => true
  | Op o es => fixed o && settleds es
  | Fn _ _ => true
  | And a b | Or a b => calls b || (settled a && settled b)
  | Cond a c b => calls a || calls b || (settled a && settled c && settled b)
  end
with settleds (es : exprs) {struct es} : bool :=
  match es with ENil => true | ECons e es => settled e && settleds es end.
(** No argument before one with a call is anything else than settled. *)
Fixpoint ordered (e : expr) {struct e} : bool :=
  match e with
  | Var _ => true
  | Op _ es | Fn _ es => ordereds es
  | And a b | Or a b => ordered a && ordered b
  | Cond a c b => ordered a && ordered c && ordered b
  end
with ordereds (es : exprs) {struct es} : bool :=
  match es with ENil => true | ECons e es => ordered e && (negb (callss es) || settled e) && ordereds es end.
(** Conditions of elif parts contain no calls. *)
Fixpoint quiet (bs : branches) {struct bs} : bool :=
  match bs with BNil => true | BCons c _ bs => negb (calls c) && quiet bs end.
Fixpoint ordered_stmt (s : stmt) {struct s} : bool :=
  match s with
  | Do e | Set_ _ e | Return e => ordered e
  | Break | Continue => true
  | If bs els => ordered_branches bs && match bs with BCons _ _ bs => quiet bs | BNil => true end && ordered_suite els
  | Loop b => ordered_suite b
  end
with ordered_suite (ss : suite) {struct ss} : bool :=
  match ss with Nil => true | Cons s ss => ordered_stmt s && ordered_suite ss end
with ordered_branches (bs : branches) {struct bs} : bool :=
  match bs with BNil => true | BCons c b bs => ordered c && ordered_suite b && ordered_branches bs end.

End Source.
Arguments Var {L}. Arguments Op {L}. Arguments Fn {L}. Arguments And {L}. Arguments Or {L}. Arguments Cond {L}.
Arguments ENil {L}. Arguments ECons {L}.
Arguments Do {L}. Arguments Set_ {L}. Arguments Return {L}. Arguments Break {L}. Arguments Continue {L}. Arguments If {L}. Arguments Loop {L}.
Arguments Nil {L}. Arguments Cons {L}. Arguments BNil {L}. Arguments BCons {L}.
Arguments ONext {L}. Arguments OBreak {L}. Arguments OContinue {L}. Arguments OReturn {L}. Arguments ORaise {L}.
Arguments bind {L A B}. Arguments eval {L}. Arguments evals {L}. Arguments put {L}. Arguments test {L}. Arguments rounds {L}.
Arguments exec_stmt {L}. Arguments exec {L}. Arguments exec_if {L}.
Arguments below {L}. Arguments belows {L}. Arguments uses {L}. Arguments usess {L}. Arguments usesb {L}.
Arguments calls {L}. Arguments callss {L}. Arguments flat_top {L}. Arguments flat {L}. Arguments flats {L}. Arguments flatb {L}.
Arguments really_fixed {L}. Arguments settled {L}. Arguments settleds {L}. Arguments ordered {L}. Arguments ordereds {L}.
Arguments quiet {L}. Arguments ordered_stmt {L}. Arguments ordered_suite {L}. Arguments ordered_branches {L}.

(** The pass that takes calls with effects out of expressions before the conversion to
    continuations: compiler/lib/src/Acton/CPS.hs:356-516 (pre, preTop, preSuite). *)
From Coq Require Import List Bool Arith.
From Verif Require Import S_Hoist.
Import ListNotations.

Section Pass.
Variable L : lang.

(** The prefixes collected so far are a suite; CPS.hs:50-61 keeps them reversed in the state. *)
Fixpoint app (a b : suite L) : suite L := match a with Nil => b | Cons s a => Cons s (app a b) end.
Definition one (s : stmt L) : suite L := Cons s Nil.
Definition empty (a : suite L) : bool := match a with Nil => true | _ => false end.
(** sIf1 (Syntax.hs): an if with one condition. *)
Definition if1 (c : expr L) (a b : suite L) : stmt L := If (BCons c a BNil) b.

(** CPS.hs:414-502, pre on expressions: the statements to run before, the expression that is left,
    and the next number of a new variable (newName, CPS.hs:47-48).  [Fn] is a call for which mutCall
    (CPS.hs:296) holds; [Op] stands for every other form whose parts are treated from left to right
    (calls without effects, Async, IsInstance, not, Dot, DotI, RestI, Tuple, List, Dict, Set,
    constants).  Simplification: Let, Lambda and Yield are left out, types are dropped, and the
    function of a call is a name rather than an expression. *)
Fixpoint pre (e : expr L) (k : nat) {struct e} : suite L * expr L * nat :=
  match e with
  | Var x => (Nil, Var x, k)
  | Op o es => let '(ps, es', k1) := pres es k in (ps, Op o es', k1)                 (* CPS.hs:421 *)
  | Fn f es =>                                                                       (* CPS.hs:415-420 *)
      let '(ps, es', k1) := pres es k in
      (app ps (one (Set_ k1 (Fn f es'))), Var k1, S k1)
  | Cond a c b =>                                                                    (* CPS.hs:433-447 *)
      let '(pa, a', k1) := pre a k in
      let '(pb, b', k2) := pre b k1 in
      let '(pc, c', k3) := pre c k2 in
      if empty (app pa pb) then (pc, Cond a' c' b', k3)
      else (app pc (one (if1 c' (app pa (one (Set_ k3 a'))) (app pb (one (Set_ k3 b'))))), Var k3, S k3)
  | Or a b =>                                                                        (* CPS.hs:448-462 *)
      let '(pa, a', k1) := pre a k in
      let '(pb, b', k2) := pre b k1 in
      if empty pb then (pa, Or a' b', k2)
      else (app pa (Cons (Set_ k2 a') (one (if1 (Var k2) (one (Set_ (S k2) (Var k2))) (app pb (one (Set_ (S k2) b')))))),
            Var (S k2), S (S k2))
  | And a b =>                                                                       (* CPS.hs:463-477 *)
      let '(pa, a', k1) := pre a k in
      let '(pb, b', k2) := pre b k1 in
      if empty pb then (pa, And a' b', k2)
      else (app pa (Cons (Set_ k2 a') (one (if1 (Var k2) (app pb (one (Set_ (S k2) b'))) (one (Set_ (S k2) (Var k2)))))),
            Var (S k2), S (S k2))
  end
with pres (es : exprs L) (k : nat) {struct es} : suite L * exprs L * nat :=
  match es with
  | ENil => (Nil, ENil, k)
  | ECons e es =>
      let '(p, e', k1) := pre e k in
      let '(ps, es', k2) := pres es k1 in
      (app p ps, ECons e' es', k2)
  end.
(** CPS.hs:505-507, preTop: a call that is the whole expression stays. *)
Definition pre_top (e : expr L) (k : nat) : suite L * expr L * nat :=
  match e with
  | Fn f es => let '(ps, es', k1) := pres es k in (ps, Fn f es', k1)
  | e => pre e k
  end.

(** CPS.hs:384-393, pre on statements, with the prefixes of the statement; CPS.hs:366-370, preSuite;
    CPS.hs:372-375 and 403-404: the conditions of all branches give their prefixes to the whole if. *)
Fixpoint pre_stmt (s : stmt L) (k : nat) {struct s} : suite L * stmt L * nat :=
  match s with
  | Do e => let '(ps, e', k1) := pre_top e k in (ps, Do e', k1)
  | Set_ x e => let '(ps, e', k1) := pre_top e k in (ps, Set_ x e', k1)
  | Return e => let '(ps, e', k1) := pre_top e k in (ps, Return e', k1)
  | If bs els =>
      let '(ps, bs', k1) := pre_branches bs k in
      let '(els', k2) := pre_suite els k1 in
      (ps, If bs' els', k2)
  | Loop b => let '(b', k1) := pre_suite b k in (Nil, Loop b', k1)
  | s => (Nil, s, k)
  end
with pre_suite (ss : suite L) (k : nat) {struct ss} : suite L * nat :=
  match ss with
  | Nil => (Nil, k)
  | Cons s ss =>
      let '(ps, s', k1) := pre_stmt s k in
      let '(ss', k2) := pre_suite ss k1 in
      (app ps (Cons s' ss'), k2)
  end
with pre_branches (bs : branches L) (k : nat) {struct bs} : suite L * branches L * nat :=
  match bs with
  | BNil => (Nil, BNil, k)
  | BCons c b bs =>
      let '(p, c', k1) := pre c k in
      let '(b', k2) := pre_suite b k1 in
      let '(ps, bs', k3) := pre_branches bs k2 in
      (app p ps, BCons c' b' bs', k3)
  end.

End Pass.
Arguments app {L}. Arguments one {L}. Arguments empty {L}. Arguments if1 {L}.
Arguments pre {L}. Arguments pres {L}. Arguments pre_top {L}. Arguments pre_stmt {L}. Arguments pre_suite {L}. Arguments pre_branches {L}.

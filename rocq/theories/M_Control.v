(** Model of the compiler pass that removes structured control flow,
    compiler/lib/src/Acton/Normalizer.hs, and of what its output means: the handler stack of
    base/rts/rts.c ($PUSH, $POP, $DROP, $RAISE) under C's if, while, break, continue, return. *)
From Coq Require Import List Bool Arith.
From Verif Require Import S_Control.
Import ListNotations.

Section Norm.
Variable L : lang.
(** compiler/lib/src/Acton/Env.hs:1311 Flow. *)
Inductive flow := RET | BRK | CNT | SEQ.
Definition flow_eqb (a b : flow) : bool :=
  match a, b with RET, RET | BRK, BRK | CNT, CNT | SEQ, SEQ => true | _, _ => false end.

(** ** The output language. *)
(** Exceptions at run time: those of the program, and $SEQ, $BRK, $CNT and $RET with a value
    (compiler/lib/src/Acton/Prim.hs:73-76). *)
Inductive xexc := User (x : exc L) | XSeq | XBrk | XCnt | XRet (v : val L).
(** Classes tested by isinstance. *)
Inductive xcls := UserC (c : cls L) | FlowC (f : flow).
(** Variables the pass invents (newName, Normalizer.hs:52-55), by number; exceptions and values. *)
Inductive tv := TVal (v : val L) | TExc (x : xexc) | TNothing.
Inductive texpr := TE (e : expr L) | TTmp (i : nat) | TRetVal (i : nat) | TNone.
Inductive tcond := CPush | CE (e : expr L) | CTrue | CInst (i : nat) (c : xcls).
Inductive tstmt :=
| TAtom (e : expr L)
| TSet (i : nat) (e : expr L)                    (* tmp = e *)
| TRaiseE (e : expr L) | TRaiseTmp (i : nat) | TRaiseSeq | TRaiseBrk | TRaiseCnt | TRaiseRet (e : texpr)
| TReturn (e : texpr)
| TBreak | TContinue | TPass
| TPop (i : nat) | TDrop
| TDowncast (i : nat)                            (* tmp' = CAST(tmp) *)
| TBind (p : pat L) (i : nat)                    (* name = tmp *)
| TAssignNext (p : pat L) (i : nat)              (* p = tmp.__next__() *)
| TSetNext (v i : nat)                           (* tmp2 = tmp.__next__() *)
| TAssignTmp (p : pat L) (v : nat)               (* p = tmp2 *)
| TIf (c : tcond) (b els : tsuite)
| TWhile (b : tsuite)                            (* while True *)
with tsuite := TNil | TCons (s : tstmt) (ss : tsuite).
Fixpoint tapp (a b : tsuite) : tsuite :=
  match a with TNil => b | TCons s a => TCons s (tapp a b) end.
Definition one (s : tstmt) : tsuite := TCons s TNil.

(** ** The pass. *)
(** Normalizer.hs:73 ContextMark. *)
Inductive mark := DROP | LOOP | FINAL.
(** The statement that leaves: Normalizer.hs:228-230. *)
Inductive leave := LBreak | LContinue | LReturn (e : texpr).
Definition leave_stmt (s : leave) : tstmt :=
  match s with LBreak => TBreak | LContinue => TContinue | LReturn e => TReturn e end.
Definition leave_exn (s : leave) : tstmt :=
  match s with LBreak => TRaiseBrk | LContinue => TRaiseCnt | LReturn e => TRaiseRet e end.
(** Normalizer.hs:223-230 exitContext. *)
Fixpoint exit_context (m : list mark) (s : leave) : tsuite :=
  match m with
  | DROP :: m => TCons TDrop (exit_context m s)
  | FINAL :: _ => one (leave_exn s)
  | LOOP :: m => match s with LBreak | LContinue => one (leave_stmt s) | _ => exit_context m s end
  | [] => one (leave_stmt s)
  end.

(** Env.hs:1318 brkseq and the list difference of Data.List, which removes one occurrence. *)
Fixpoint remove1 (f : flow) (l : list flow) : list flow :=
  match l with [] => [] | g :: l => if flow_eqb f g then l else g :: remove1 f l end.
Definition has (f : flow) (l : list flow) : bool := existsb (flow_eqb f) l.
Definition brkseq (l : list flow) : list flow :=
  remove1 CNT (remove1 BRK (if has BRK l then SEQ :: l else l)).
(** Env.hs:1322-1324. *)
Definition seqflow (f1 f2 : list flow) : list flow :=
  if has SEQ f1 then remove1 SEQ f1 ++ f2 else f1.
(** Env.hs:1321-1346 flows, of a suite followed by statements with the flows [k].  An if statement
    with several branches is nested if statements here; with statements are not modelled. *)
Fixpoint flows_stmt (s : stmt L) : list flow :=
  match s with
  | Raise _ => []
  | Return _ => [RET]
  | Break => [BRK]
  | Continue => [CNT]
  | If _ b els => flows_then b [SEQ] ++ flows_then els [SEQ]
  | While _ b els | For _ _ b els => brkseq (flows_then b [SEQ]) ++ flows_then els [SEQ]
  | Try b hs els fin => flows_then b (flows_then els [SEQ]) ++ flows_handlers hs ++ remove1 SEQ (flows_then fin [SEQ])
  | Atom _ => [SEQ]
  end
with flows_then (ss : suite L) (k : list flow) : list flow :=
  match ss with Nil => k | Cons s ss => seqflow (flows_stmt s) (flows_then ss k) end
with flows_handlers (hs : handlers L) : list flow :=
  match hs with HNil => [] | HCons _ b hs => flows_then b [SEQ] ++ flows_handlers hs end.
(** The same function on the output (Env.hs:1326-1340: a call of $RAISE ends the flow). *)
Fixpoint tflows_stmt (s : tstmt) : list flow :=
  match s with
  | TRaiseE _ | TRaiseTmp _ | TRaiseSeq | TRaiseBrk | TRaiseCnt | TRaiseRet _ => []
  | TReturn _ => [RET]
  | TBreak => [BRK]
  | TContinue => [CNT]
  | TIf _ b els => tflows b ++ tflows els
  | TWhile b => brkseq (tflows b) ++ [SEQ]
  | _ => [SEQ]
  end
with tflows (ss : tsuite) : list flow :=
  match ss with TNil => [SEQ] | TCons s ss => seqflow (tflows_stmt s) (tflows ss) end.
(** Env.hs:1316. *)
Definition fallsthru (ss : tsuite) : bool := has SEQ (tflows ss).

(** nub of Data.List. *)
Fixpoint nub (l : list flow) : list flow :=
  match l with [] => [] | f :: l => f :: filter (fun g => negb (flow_eqb f g)) (nub l) end.

(** Normalizer.hs:290-296: the statements that carry on a control flow after a finally part. *)
Definition relay (m : list mark) (x : nat) (f : flow) : tsuite :=
  match f with
  | SEQ => one TPass
  | BRK => exit_context m LBreak
  | CNT => exit_context m LContinue
  | RET => TCons (TDowncast x) (exit_context m (LReturn (TRetVal x)))
  end.
(** Which statements are Expr and Assign in the Haskell syntax. *)
Definition is_expr (s : tstmt) : bool :=
  match s with
  | TAtom _ | TRaiseE _ | TRaiseTmp _ | TRaiseSeq | TRaiseBrk | TRaiseCnt | TRaiseRet _ | TDrop => true
  | _ => false
  end.
Definition is_assign (s : tstmt) : bool :=
  match s with
  | TSet _ _ | TPop _ | TDowncast _ | TBind _ _ | TAssignNext _ _ | TSetNext _ _ | TAssignTmp _ _ => true
  | _ => false
  end.
(** Normalizer.hs:297-299 valid. *)
Definition valid_relay (ss : tsuite) : bool :=
  match ss with
  | TCons s TNil => negb (is_expr s)
  | TCons s (TCons t TNil) => negb (is_assign s && is_expr t)
  | _ => true
  end.
(** Normalizer.hs:289,302-303 relays and iff. *)
Definition relays (m : list mark) (x : nat) (ctrl : list flow) : tsuite :=
  fold_right (fun f r => let s := relay m x f in
                         if valid_relay s then one (TIf (CInst x (FlowC f)) s r) else r)
             (one (TRaiseTmp x)) ctrl.

(** [isval]: Normalizer.hs:240-255 isVal; [pvar]: Normalizer.hs:341-342 isPVar. *)
Variable isval : expr L -> bool.
Variable pvar : pat L -> bool.

(** The try statement without finally part, Normalizer.hs:277-283, of its normalized parts. *)
Definition norm_try (nb : list mark -> nat -> tsuite * nat) (nohandlers : bool)
    (nh : list mark -> nat -> nat -> tsuite * nat) (ne : list mark -> nat -> tsuite * nat)
    (m : list mark) (k : nat) : tsuite * nat :=
  if nohandlers then
    let '(b, k) := nb m k in
    let '(e, k) := ne m k in
    (tapp b e, k)
  else
    let '(b, k) := nb (DROP :: m) k in
    let '(e, k) := ne m k in
    let x := k in
    let '(h, k) := nh m x (S k) in
    (one (TIf CPush (tapp b (TCons TDrop e)) (TCons (TPop x) h)), k).

Definition is_nil (ss : suite L) : bool := match ss with Nil => true | _ => false end.
Definition is_hnil (hs : handlers L) : bool := match hs with HNil => true | _ => false end.

(** Normalizer.hs:257-349, statement by statement: [norm_stmt marks k s] is the result and the
    next free number.  Statements without control flow are kept; patterns and comprehensions are
    not modelled.  Loops over ranges call $UNext instead of __next__: both are [next] here. *)
Fixpoint norm_stmt (m : list mark) (k : nat) (s : stmt L) {struct s} : tsuite * nat :=
  match s with
  | Atom e => (one (TAtom e), k)
  | Raise e => (one (TRaiseE e), k)
  | Return None => (exit_context m (LReturn TNone), k)
  | Return (Some e) =>
      if isval e then (exit_context m (LReturn (TE e)), k)
      else (TCons (TSet k e) (exit_context m (LReturn (TTmp k))), S k)
  | Break => (exit_context m LBreak, k)
  | Continue => (exit_context m LContinue, k)
  | If e b els =>
      let '(b', k) := norm m k b in
      let '(els', k) := norm m k els in
      (one (TIf (CE e) b' els'), k)
  | While e b els =>                             (* Normalizer.hs:267 *)
      let '(els', k) := norm (LOOP :: m) k els in
      let '(b', k) := norm (LOOP :: m) k b in
      (one (TWhile (TCons (TIf (CE e) (one TPass) (tapp els' (one TBreak))) b')), k)
  | For p e b els =>                             (* Normalizer.hs:322-349 *)
      let i := k in
      let v := S k in
      let '(b', k) := norm (LOOP :: DROP :: m) (S (S k)) b in
      let x := k in
      let '(els', k) := norm m (S k) els in
      let get := if pvar p then one (TAssignNext p i) else TCons (TSetNext v i) (one (TAssignTmp p v)) in
      (TCons (TSet i e)
        (one (TIf CPush
           (TCons (TWhile (TCons (TIf CTrue (one TPass) (one TBreak)) (tapp get b'))) (one TDrop))
           (TCons (TPop x) (one (TIf (CInst x (UserC (stop L))) els' (one (TRaiseTmp x))))))), k)
  | Try b hs els fin =>
      let nb m k := norm m k b in
      let nh m x k := norm_handlers m x k hs in
      let ne m k := norm m k els in
      if is_nil fin then norm_try nb (is_hnil hs) nh ne m k
      else                                       (* Normalizer.hs:284-303 *)
        let '(ss, k) := norm_try nb (is_hnil hs) nh ne (FINAL :: m) k in
        let x := k in
        let '(fin', k) := norm m (S k) fin in
        let ctrl := nub (flows_stmt (Try b hs els Nil)) in
        let mbseq := if has SEQ ctrl then one TRaiseSeq else TNil in
        (one (TIf CPush (tapp ss mbseq) (TCons (TPop x) (tapp fin' (relays m x ctrl)))), k)
  end
with norm (m : list mark) (k : nat) (ss : suite L) {struct ss} : tsuite * nat :=
  match ss with                                  (* Normalizer.hs:109-119 normSuite *)
  | Nil => (TNil, k)
  | Cons s ss =>
      let '(s', k) := norm_stmt m k s in
      let '(ss', k) := norm m k ss in
      (tapp s' ss', k)
  end
with norm_handlers (m : list mark) (x : nat) (k : nat) (hs : handlers L) {struct hs} : tsuite * nat :=
  match hs with                                  (* Normalizer.hs:214-221 handle *)
  | HNil => (one (TRaiseTmp x), k)
  | HCons h b hs =>
      let '(b', k) := norm m k b in
      let '(r, k) := norm_handlers m x k hs in
      (one (match h with
            | All => TIf CTrue b' r
            | Only c => TIf (CInst x (UserC c)) b' r
            | As c p => TIf (CInst x (UserC c)) (TCons (TBind p x) b') r
            end), k)
  end.
(** A function body, Normalizer.hs:482-496. *)
Definition norm_def (body : suite L) : tsuite :=
  let b := fst (norm [] 0 body) in
  if fallsthru b then tapp b (one (TReturn TNone)) else b.
(** C's rule that break and continue stand in a loop. *)
Fixpoint placed_stmt (loop : bool) (s : tstmt) : bool :=
  match s with
  | TBreak | TContinue => loop
  | TIf _ b els => placed loop b && placed loop els
  | TWhile b => placed true b
  | _ => true
  end
with placed (loop : bool) (ss : tsuite) : bool :=
  match ss with TNil => true | TCons s ss => placed_stmt loop s && placed loop ss end.

(** ** What the output does. *)
(** [ctrl_instance f c]: isinstance of one of the four exceptions and a class of the program. *)
Variable ctrl_instance : flow -> cls L -> bool.
Definition flow_of (x : xexc) : option flow :=
  match x with User _ => None | XSeq => Some SEQ | XBrk => Some BRK | XCnt => Some CNT | XRet _ => Some RET end.
Definition xinstance (x : xexc) (c : xcls) : bool :=
  match c, flow_of x, x with
  | UserC c, None, User x => instance L x c
  | UserC c, Some f, _ => ctrl_instance f c
  | FlowC f, Some g, _ => flow_eqb f g
  | _, _, _ => false
  end.

(** The state: the program's, the variables of the pass, and the stack of jump buffers
    (base/rts/rts.h:252-256, JumpBuf), each with an identity and the exception it has received. *)
Record tst := Tst { st : ST L; tmp : nat -> tv; stk : list (nat * option xexc); ctr : nat }.
Definition set_st (s : ST L) (t : tst) : tst := Tst s (tmp t) (stk t) (ctr t).
Definition set_tmp (i : nat) (v : tv) (t : tst) : tst :=
  Tst (st t) (fun j => if j =? i then v else tmp t j) (stk t) (ctr t).
Definition set_stk (h : list (nat * option xexc)) (t : tst) : tst := Tst (st t) (tmp t) h (ctr t).

(** [TRaised]: on the way to the jump buffer on top.  [TStuck]: undefined behaviour. *)
Inductive tout := TNext | TBroke | TContinued | TReturned (v : val L) | TRaised | TStuck.
Definition tres : Type := option (tst * tout).

(** base/rts/rts.c:1011-1016 $RAISE: the exception is put in the topmost jump buffer. *)
Definition raise_ (x : xexc) (t : tst) : tres :=
  match stk t with
  | [] => Some (t, TStuck)
  | (id, _) :: h => Some (set_stk ((id, Some x) :: h) t, TRaised)
  end.
Definition exc_of (v : tv) : option xexc := match v with TExc x => Some x | _ => None end.
(** An expression of the program, then [f]; if it raises, so does the statement. *)
Definition with_val (r : option (ST L * (val L + exc L))) (t : tst) (f : val L -> tst -> tres) : tres :=
  match r with
  | None => None
  | Some (s, inl v) => f v (set_st s t)
  | Some (s, inr x) => raise_ (User x) (set_st s t)
  end.
Definition with_texpr (e : texpr) (t : tst) (f : val L -> tst -> tres) : tres :=
  match e with
  | TE e => with_val (eval L e (st t)) t f
  | TNone => f (none L) t
  | TTmp i => match tmp t i with TVal v => f v t | _ => Some (t, TStuck) end
  | TRetVal i => match tmp t i with TExc (XRet v) => f v t | _ => Some (t, TStuck) end
  end.
Definition next_tmp (i : nat) (t : tst) (f : val L -> tst -> tres) : tres :=
  match tmp t i with TVal it => with_val (next L it (st t)) t f | _ => Some (t, TStuck) end.
Definition assign_ (p : pat L) (v : val L) (t : tst) : tres :=
  match assign L p v (st t) with
  | None => None
  | Some (s, None) => Some (set_st s t, TNext)
  | Some (s, Some x) => raise_ (User x) (set_st s t)
  end.
(** while (1), with [n] rounds. *)
Fixpoint twhile (n : nat) (body : tst -> tres) (t : tst) : tres :=
  match n with
  | O => None
  | S n =>
      match body t with
      | None => None
      | Some (t1, (TNext | TContinued)) => twhile n body t1
      | Some (t1, TBroke) => Some (t1, TNext)
      | Some (t1, o) => Some (t1, o)
      end
  end.
(** if ($PUSH()) b else e, base/rts/rts.h:276 and rts.c:982-990: a new jump buffer is put on the
    stack; b is run; a raise that finds this buffer on top comes back here, to e. *)
Definition push_ (b e : tst -> tres) (t : tst) : tres :=
  let id := ctr t in
  match b (Tst (st t) (tmp t) ((id, None) :: stk t) (S id)) with
  | Some (t1, TRaised) =>
      match stk t1 with
      | (id', _) :: _ => if id' =? id then e t1 else Some (t1, TRaised)
      | [] => Some (t1, TStuck)
      end
  | r => r
  end.

Fixpoint run_stmt (n : nat) (s : tstmt) (t : tst) {struct s} : tres :=
  match s with
  | TAtom e => with_val (eval L e (st t)) t (fun _ t => Some (t, TNext))
  | TSet i e => with_val (eval L e (st t)) t (fun v t => Some (set_tmp i (TVal v) t, TNext))
  | TRaiseE e => with_val (eval L e (st t)) t (fun v t => raise_ (User (as_exc L v)) t)
  | TRaiseTmp i => match exc_of (tmp t i) with Some x => raise_ x t | None => Some (t, TStuck) end
  | TRaiseSeq => raise_ XSeq t
  | TRaiseBrk => raise_ XBrk t
  | TRaiseCnt => raise_ XCnt t
  | TRaiseRet e => with_texpr e t (fun v t => raise_ (XRet v) t)
  | TReturn e => with_texpr e t (fun v t => Some (t, TReturned v))
  | TBreak => Some (t, TBroke)
  | TContinue => Some (t, TContinued)
  | TPass => Some (t, TNext)
  | TPop i =>                                    (* base/rts/rts.c:992-1000 $POP *)
      match stk t with
      | (_, Some x) :: h => Some (set_tmp i (TExc x) (set_stk h t), TNext)
      | _ => Some (t, TStuck)
      end
  | TDrop =>                                     (* base/rts/rts.c:1002-1009 $DROP *)
      match stk t with
      | _ :: h => Some (set_stk h t, TNext)
      | [] => Some (t, TStuck)
      end
  | TDowncast i => Some (t, match tmp t i with TExc (XRet _) => TNext | _ => TStuck end)
  | TBind p i =>
      match tmp t i with
      | TExc (User x) => Some (set_st (bind L p x (st t)) t, TNext)
      | _ => Some (t, TStuck)
      end
  | TAssignNext p i => next_tmp i t (assign_ p)
  | TSetNext v i => next_tmp i t (fun w t => Some (set_tmp v (TVal w) t, TNext))
  | TAssignTmp p v => match tmp t v with TVal w => assign_ p w t | _ => Some (t, TStuck) end
  | TIf c b els =>
      match c with
      | CPush => push_ (run n b) (run n els) t
      | CE e => with_val (eval L e (st t)) t (fun v t => if truth L v then run n b t else run n els t)
      | CTrue => run n b t
      | CInst i c =>
          match exc_of (tmp t i) with
          | Some x => if xinstance x c then run n b t else run n els t
          | None => Some (t, TStuck)
          end
      end
  | TWhile b => twhile n (run n b) t
  end
with run (n : nat) (ss : tsuite) (t : tst) {struct ss} : tres :=
  match ss with
  | TNil => Some (t, TNext)
  | TCons s ss =>
      match run_stmt n s t with
      | Some (t1, TNext) => run n ss t1
      | r => r
      end
  end.
End Norm.
Arguments User {L} x. Arguments XSeq {L}. Arguments XBrk {L}. Arguments XCnt {L}. Arguments XRet {L} v.
Arguments TNext {L}. Arguments TBroke {L}. Arguments TContinued {L}. Arguments TReturned {L} v. Arguments TRaised {L}. Arguments TStuck {L}.

(** Model of the compiler pass that cuts procedures into continuations at calls of other
    procedures, compiler/lib/src/Acton/CPS.hs, and of the machine that runs the result: return
    values of type $R handed to the worker loop of base/rts/rts.c, with the catchers of an actor. *)
From Coq Require Import List Bool Arith.
From Verif Require Import S_Cps.
Import ListNotations.

Section Cps.
Variable L : lang.

(** ** Which statements are converted. *)
(** CPS.hs:332-345 needCont, in a procedure; [inl]: setInLoop.  An if statement with several
    branches is nested if statements here; declarations and else parts of loops are left out. *)
Fixpoint need (inl : bool) (s : stmt L) : bool :=
  match s with
  | Do _ | Set_ _ _ | Raise _ => false
  | Call _ _ | ReturnCall _ => true
  | Return _ => true
  | Break | Continue => negb inl
  | If _ b els => needs inl b || needs inl els
  | While _ b => needs true b
  | Try b els _ h => needs inl b || needs inl els || needs inl h
  end
with needs (inl : bool) (ss : suite L) : bool :=
  match ss with Nil => false | Cons s ss => need inl s || needs inl ss end.

(** QuickType.hs:493-501 updatesOf.  A variable bound by a handler counts as updated here; the
    code declares it at that place. *)
Fixpoint upd (s : stmt L) : list name :=
  match s with
  | Set_ x _ => [x]
  | Call (Some x) _ => [x]
  | If _ b els => upds b ++ upds els
  | While _ b => upds b
  | Try b els x h => upds b ++ upds els ++ x :: upds h
  | _ => []
  end
with upds (ss : suite L) : list name :=
  match ss with Nil => [] | Cons s ss => upd s ++ upds ss end.
(** CPS.hs:225-232 volatileVars, without nub. *)
Fixpoint vol (s : stmt L) : list name :=
  match s with
  | Try b els x h =>
      if need false s then (upds b ++ upds els) ++ vols b ++ vols els ++ vols h
      else vols b ++ vols els ++ vols h
  | If _ b els => vols b ++ vols els
  | While _ b => vols b
  | _ => []
  end
with vols (ss : suite L) : list name :=
  match ss with Nil => [] | Cons s ss => vol s ++ vols ss end.

(** ** What the pass is given: the statements after the normalizer.  A statement that is not to be
    converted stays as it is: the normalizer's work on it is the subject of M_Control. *)
Inductive nstmt :=
| NSimple (s : stmt L)
| NDrop                                          (* $DROP_C() *)
| NPop (x : name)                                (* x = $POP_C() *)
| NTmp (e : expr L)                              (* tmp = e *)
| NRet                                           (* return tmp *)
| NRetNone                                       (* return None *)
| NTail (c : call L)                             (* tmp = c; return tmp *)
| NCall (x : option name) (c : call L)           (* x = c, or tmp = c *)
| NBreak | NContinue
| NIf (e : expr L) (b els : nsuite)
| NWhile (b : nsuite)                            (* while True *)
| NTry (b h : nsuite)                            (* if $PUSH(): b; else: h *)
with nsuite := NNil | NCons (s : nstmt) (ss : nsuite).
Fixpoint napp (a b : nsuite) : nsuite := match a with NNil => b | NCons s a => NCons s (napp a b) end.
Definition one (s : nstmt) : nsuite := NCons s NNil.

(** Normalizer.hs:73 ContextMark; finally parts are left out. *)
Inductive mark := DROP | LOOP.
(** Normalizer.hs:223-230 exitContext, for break and continue, and for return. *)
Fixpoint leave_loop (m : list mark) (s : nstmt) : nsuite :=
  match m with DROP :: m => NCons NDrop (leave_loop m s) | _ => one s end.
Fixpoint leave_proc (m : list mark) (s : nstmt) : nsuite :=
  match m with
  | DROP :: m => NCons NDrop (leave_proc m s)
  | LOOP :: m => leave_proc m s
  | [] => one s
  end.
Definition no_drop (m : list mark) : bool := forallb (fun k => match k with LOOP => true | DROP => false end) m.

(** Normalizer.hs:257-315 on the statements that are converted.  Calls $DROP() and $POP() are
    written $DROP_C() and $POP_C() at once (CPS.hs:308-316 convPOPDROP).  A value that is returned is
    put in a variable first, also where the code sees that it is a plain value. *)
Fixpoint lower_stmt (m : list mark) (s : stmt L) {struct s} : nsuite :=
  if negb (need false s) then one (NSimple s) else
  match s with
  | Call x c => one (NCall x c)
  | Return None => leave_proc m NRetNone
  | Return (Some e) => NCons (NTmp e) (leave_proc m NRet)
  | ReturnCall c => if no_drop m then one (NTail c) else NCons (NCall None c) (leave_proc m NRet)
  | Break => leave_loop m NBreak
  | Continue => leave_loop m NContinue
  | If e b els => one (NIf e (lower m b) (lower m els))
  | While e b => one (NWhile (NCons (NIf e NNil (one NBreak)) (lower (LOOP :: m) b)))
  | Try b els x h => one (NTry (napp (lower (DROP :: m) b) (NCons NDrop (lower m els))) (NCons (NPop x) (lower m h)))
  | s => one (NSimple s)
  end
with lower (m : list mark) (ss : suite L) {struct ss} : nsuite :=
  match ss with Nil => NNil | Cons s ss => napp (lower_stmt m s) (lower m ss) end.
(** Env.hs:1316-1346 fallsthru. *)
Fixpoint falls_stmt (s : stmt L) : bool :=
  match s with
  | Raise _ | Return _ | ReturnCall _ | Break | Continue => false
  | If _ b els => falls b || falls els
  | Try b els _ h => falls b && falls els || falls h
  | _ => true
  end
with falls (ss : suite L) : bool :=
  match ss with Nil => true | Cons s ss => falls_stmt s && falls ss end.
(** Normalizer.hs:495: a body that may come to its end gets a return None. *)
Definition lower_proc (b : suite L) : nsuite :=
  if falls b then napp (lower [] b) (one NRetNone) else lower [] b.

(** ** The result: bodies of functions that define further functions and end by returning a $R. *)
(** A continuation is named by the number of functions around its definition (newName gives all of
    them different names); the continuation of the procedure is its parameter contKW. *)
Inductive jump := JMeth | JFun (k : nat).
Inductive tcode :=
| TDo (s : stmt L) (t : tcode)                   (* conv env s *)
| TBind (x : name) (t : tcode)                   (* x = res *)
| TVal (e : expr L) (t : tcode)                  (* tmp = e *)
| TDrop (t : tcode)
| TPop (x : name) (t : tcode)
| TDef (b t : tcode)                             (* def k(res): b *)
| TRetJump (j : jump)                            (* return $R_CONT(j, None) *)
| TJump (k : nat)                                (* return k(None) *)
| TRet                                           (* return $R_CONT(contKW, tmp) *)
| TRetNone
| TCall (c : call L) (j : jump)                  (* return c with j as first argument *)
| TPush (k : nat)                                (* return $PUSH_C(k) *)
| TIf (e : expr L) (a b : tcode)
| TIfRes (a b : tcode)                           (* if res: a; else: b *)
| TCrash.                                        (* no clause of brkcont or cntcont: the compiler stops *)

(** CPS.hs:64-66 Frame; the empty list stands for Meth. *)
Inductive frame := FSeq (k : nat) | FLoop (k : nat).
(** CPS.hs:100-108. *)
Fixpoint cntcont (ctx : list frame) : option jump :=
  match ctx with FSeq _ :: ctx => cntcont ctx | FLoop k :: _ => Some (JFun k) | [] => None end.
Definition seqcont (ctx : list frame) : jump :=
  match ctx with FSeq k :: _ => JFun k | FLoop k :: _ => JFun k | [] => JMeth end.
Fixpoint brkcont (ctx : list frame) : option jump :=
  match ctx with FSeq _ :: ctx => brkcont ctx | FLoop _ :: ctx => Some (seqcont ctx) | [] => None end.
Definition ret_jump (j : option jump) : tcode := match j with Some j => TRetJump j | None => TCrash end.
Definition bind_res (x : option name) (t : tcode) : tcode := match x with Some x => TBind x t | None => t end.

(** CPS.hs:118-221 cps, clause by clause; [d] functions are in scope.  Left out: an if statement
    before a raise (CPS.hs:197-198), which is treated as any other two statements, assignments to
    attributes (MutAssign), and the extra parameters of continuations (nts): a continuation finds
    the local variables as they are where it is referred to, which is what they are passed for.
    $SKIPRES is the identity in C (base/builtin/common.h:60). *)
Fixpoint cps_last (s : nstmt) (d : nat) (ctx : list frame) {struct s} : tcode :=
  match s with
  | NIf e b els => TIf e (cps b d ctx) (cps els d ctx)                                   (* 193-195 *)
  | NWhile b => TDef (cps b (S d) (FLoop d :: ctx)) (TJump d)                            (* 200-208 *)
  | NTry b h => TDef (TIfRes (cps b (S d) ctx) (cps h (S d) ctx)) (TPush d)              (* 182-191 *)
  | _ => TCrash
  end
with cps (ss : nsuite) (d : nat) (ctx : list frame) {struct ss} : tcode :=
  match ss with
  | NNil => TRetJump (seqcont ctx)                                                       (* 119-120 *)
  | NCons s rest =>
      match s with
      | NContinue => ret_jump (cntcont ctx)                                              (* 121-122 *)
      | NBreak => ret_jump (brkcont ctx)                                                 (* 123-124 *)
      | NRetNone => TRetNone                                                             (* 125-126 *)
      | NRet => TRet                                                                     (* 127-129 *)
      | NTail c => TCall c JMeth                                                         (* 131-133 *)
      | NCall x c =>
          match x, rest with
          | None, NNil => TCall c (seqcont ctx)                                          (* 135-139 *)
          | _, _ => TDef (bind_res x (cps rest (S d) ctx)) (TCall c (JFun d))            (* 141-159 *)
          end
      | NSimple s => TDo s (cps rest d ctx)                                              (* 176-180 *)
      | NDrop => TDrop (cps rest d ctx)
      | NPop x => TPop x (cps rest d ctx)
      | NTmp e => TVal e (cps rest d ctx)
      | NIf _ _ _ | NWhile _ | NTry _ _ =>
          match rest with
          | NNil => cps_last s d ctx
          | _ => TDef (cps rest (S d) ctx) (cps_last s (S d) (FSeq d :: ctx))            (* 210-219 *)
          end
      end
  end.
(** CPS.hs:239-254, for a procedure. *)
Definition compile (b : suite L) : tcode := cps (lower_proc b) 0 [].

(** ** The machine. *)
(** A continuation object: a function of the program's, with the functions around it ([fs],
    innermost first, itself included), the continuation [ret] of its procedure, the local variables
    at the place of the reference, the number [act] of the call it belongs to, which identifies its
    cells, and the variables [vl] that are kept in cells (CPS.hs:86-88,244-249,567-572,588-590).  The
    cells of all variables of a call are made at its start here. *)
Inductive kont :=
| KTop                                           (* $Done$instance *)
| KFun (fs : list tcode) (ret : kont) (act : nat) (vl : list name) (k : nat) (l : locals L).
Record env := Env { fs_ : list tcode; ret_ : kont; act_ : nat; vl_ : list name }.
(** What does not belong to one call: the world, the cells, the number of the next call, and the
    catchers of the actor with their xval (base/rts/rts.h, struct $Catcher). *)
Record glob := Glob { wd : world L; cells : nat -> locals L; nxt : nat; catchers : list (kont * option (exc L)) }.
Inductive config :=
| Run (t : tcode) (E : env) (r : val L) (l : locals L) (G : glob)      (* in a function; r is res or tmp *)
| App (k : kont) (v : val L) (G : glob)                                (* $RCONT *)
| Fail (x : exc L) (G : glob)                                          (* $RFAIL *)
| Done (v : val L) (w : world L)                                       (* $RDONE *)
| Uncaught (x : exc L) (w : world L).

Definition mem (x : name) (vl : list name) : bool := existsb (Nat.eqb x) vl.
(** Reading a variable: from its cell or the local one. *)
Definition view (E : env) (l : locals L) (G : glob) : locals L :=
  fun x => if mem x (vl_ E) then cells G (act_ E) x else l x.
Definition set_cells (a : nat) (l : locals L) (G : glob) (w : world L) : glob :=
  Glob w (fun b => if b =? a then l else cells G b) (nxt G) (catchers G).
Definition set_world (w : world L) (G : glob) : glob := Glob w (cells G) (nxt G) (catchers G).
Definition set_catchers (k : list (kont * option (exc L))) (G : glob) : glob := Glob (wd G) (cells G) (nxt G) k.
Definition kont_of (E : env) (l : locals L) (j : jump) : kont :=
  match j with JMeth => ret_ E | JFun k => KFun (fs_ E) (ret_ E) (act_ E) (vl_ E) k l end.
(** The functions in scope in function k. *)
Definition scope (k : nat) (fs : list tcode) : list tcode := skipn (length fs - S k) fs.
Definition enter (k : kont) (v : val L) (G : glob) : option config :=
  match k with
  | KTop => Some (Done v (wd G))
  | KFun fs ret act vl k l =>
      match scope k fs with
      | t :: fs => Some (Run t (Env (t :: fs) ret act vl) v l G)
      | [] => None
      end
  end.
Definition nocall (c : call L) (vs : list (val L)) (w : world L) : option (world L * (val L + exc L)) := None.

Variable body : proc L -> suite L.
(** One step.  [None]: at the end, or the C code runs into undefined behaviour, or one C statement
    (a loop of more than n rounds) or one call out of the program does not come to its end. *)
Definition step (n : nat) (c : config) : option config :=
  match c with
  | Run t E r l G =>
      match t with
      | TDo s t =>
          match exec_stmt nocall n s (view E l G) (wd G) with
          | Some (l1, w1, ONext) => Some (Run t E r l1 (set_cells (act_ E) l1 G w1))
          | Some (l1, w1, ORaise x) => Some (Fail x (set_cells (act_ E) l1 G w1))
          | _ => None
          end
      | TBind x t => let l1 := set (view E l G) x r in Some (Run t E r l1 (set_cells (act_ E) l1 G (wd G)))
      | TVal e t =>
          match eval e (view E l G) (wd G) with
          | (w1, inl v) => Some (Run t E v l (set_world w1 G))
          | (w1, inr x) => Some (Fail x (set_world w1 G))
          end
      (* rts.c:977-980 $DROP_C *)
      | TDrop t => Some (Run t E r l (set_catchers (tl (catchers G)) G))
      (* rts.c:970-975 $POP_C *)
      | TPop x t =>
          match catchers G with
          | (_, Some ex) :: k =>
              let l1 := set (view E l G) x (caught L ex) in
              Some (Run t E r l1 (set_catchers k (set_cells (act_ E) l1 G (wd G))))
          | _ => None
          end
      | TDef b t => Some (Run t (Env (b :: fs_ E) (ret_ E) (act_ E) (vl_ E)) r l G)
      | TRetJump j => Some (App (kont_of E l j) (none L) G)
      | TJump k => enter (kont_of E l (JFun k)) (none L) G
      | TRet => Some (App (ret_ E) r G)
      | TRetNone => Some (App (ret_ E) (none L) G)
      | TCall c j =>
          match callee L c (map (view E l G) (args L c)) (wd G) with
          | inl (p, l0) =>
              Some (Run (compile (body p)) (Env [] (kont_of E l j) (nxt G) (vols (body p))) (none L) l0
                        (Glob (wd G) (fun b => if b =? nxt G then l0 else cells G b) (S (nxt G)) (catchers G)))
          | inr (Some (w1, inl v)) => Some (App (kont_of E l j) v (set_world w1 G))
          | inr (Some (w1, inr x)) => Some (Fail x (set_world w1 G))
          | inr None => None
          end
      (* rts.c:963-968 $PUSH_C *)
      | TPush k =>
          Some (App (kont_of E l (JFun k)) (yes L) (set_catchers ((kont_of E l (JFun k), None) :: catchers G) G))
      | TIf e a b =>
          match eval e (view E l G) (wd G) with
          | (w1, inl v) => Some (Run (if truth L v then a else b) E r l (set_world w1 G))
          | (w1, inr x) => Some (Fail x (set_world w1 G))
          end
      | TIfRes a b => Some (Run (if truth L r then a else b) E r l G)
      | TCrash => None
      end
  (* rts.c:1743-1749 and 1692 *)
  | App k v G => enter k v G
  (* rts.c:1750-1786 *)
  | Fail x G =>
      match catchers G with
      | (k, _) :: rest => Some (App k (no L) (set_catchers ((k, Some x) :: rest) G))
      | [] => Some (Uncaught x (wd G))
      end
  | Done _ _ | Uncaught _ _ => None
  end.
(** Where a run may stand still: in one C statement, or in one call out of the program. *)
Definition blocked (n : nat) (c : config) : Prop :=
  match c with
  | Run (TDo s _) E _ l G => exec_stmt nocall n s (view E l G) (wd G) = None
  | Run (TCall c _) E _ l G => callee L c (map (view E l G) (args L c)) (wd G) = inr None
  | _ => False
  end.
Fixpoint steps (n m : nat) (c : config) : option config :=
  match m with O => Some c | S m => match step n c with Some c => steps n m c | None => None end end.
(** A message that calls the procedure p: its variables set to l. *)
Definition start (p : proc L) (l : locals L) (w : world L) : config :=
  Run (compile (body p)) (Env [] KTop 0 (vols (body p))) (none L) l (Glob w (fun _ => l) 1 []).
Definition final (c : config) : bool := match c with Done _ _ | Uncaught _ _ => true | _ => false end.
End Cps.

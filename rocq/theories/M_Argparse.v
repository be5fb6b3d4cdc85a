(** Model of base/src/argparse.act, the command line parser (everything but the text of the
    usage message).  Dicts are association lists (C09).  Simplifications: a list given as the
    default of an option is copied (the code appends to it in place); int() is an argument;
    short.isalnum() is an argument. *)
From Verif Require Import Base S_Argparse.

(** d[k] = v *)
Fixpoint set {A} (k : text) (v : A) (m : list (text * A)) : list (text * A) :=
  match m with
  | [] => [(k, v)]
  | (k', v') :: m' => if teqb k k' then (k, v) :: m' else (k', v') :: set k v m'
  end.

(** Outcomes: a value, ArgumentError, PrintUsage (of the program or of the command with
    this function), ValueError, another exception (KeyError, IndexError). *)
Inductive out (A : Type) :=
| Done (a : A) | ArgError | Usage (cmd : option Z) | ValError | OtherExn | Deep.
Arguments Done {A}. Arguments ArgError {A}. Arguments Usage {A}. Arguments ValError {A}.
Arguments OtherExn {A}. Arguments Deep {A}.
Definition bindo {A B} (r : out A) (f : A -> out B) : out B :=
  match r with
  | Done a => f a | ArgError => ArgError | Usage c => Usage c | ValError => ValError
  | OtherExn => OtherExn | Deep => Deep
  end.
Notation "'let!' x := r 'in' f" := (bindo r (fun x => f))
  (at level 200, x pattern, r at level 100, f at level 200, right associativity).

(** base/src/argparse.act:224-281, Args.  The sub-command's function; options with types. *)
Record argsr := Args { a_opts : list (text * (otype * value)); a_cmd : option Z }.

Definition otype_eqb (a b : otype) : bool :=
  match a, b with OBool, OBool | OInt, OInt | OStr, OStr | OList, OList => true | _, _ => false end.

(** base/src/argparse.act:234-280 get_bool, get_int, get_str and get_strlist. *)
Definition get (t : otype) (name : text) (a : argsr) : out value :=
  match lookup name (a_opts a) with
  | None => ArgError
  | Some (t', v) =>
      if negb (otype_eqb t t') then ValError
      else match t, v with
           | OBool, VBool _ | OInt, VInt _ | OStr, VStr _ | OList, VList _ => Done v
           | _, _ => ValError
           end
  end.

Section Parser.
Variable int_of : text -> option Z.   (* int(val); None: ValueError *)
Variable isalnum : Z -> bool.

(** base/src/argparse.act:300-307 and 317-324, the checks of a short option. *)
Definition short_ok (short : option text) (shorts : list (Z * text)) : bool :=
  match short with
  | None => true
  | Some [c] => isalnum c && match lookup_short c shorts with None => true | Some _ => false end
  | Some _ => false
  end.
Definition add_short (short : option text) (name : text) (shorts : list (Z * text)) : list (Z * text) :=
  match short with Some [c] => shorts ++ [(c, name)] | _ => shorts end.

(** base/src/argparse.act:299-309. *)
Definition add_bool (name : text) (short : option text) (p : parser) : out parser :=
  let '(Parser o s a c) := p in
  if short_ok short s
  then Done (Parser (set name (Opt OBool (Some (VBool false))) o) (add_short short name s) a c)
  else ArgError.

(** base/src/argparse.act:311-326; the types are those accepted at 314. *)
Definition add_option (name : text) (t : otype) (default : option value) (short : option text) (p : parser) : out parser :=
  let '(Parser o s a c) := p in
  match lookup name o, t with
  | Some _, _ => ArgError
  | None, OBool => ArgError
  | None, _ => if short_ok short s
               then Done (Parser (set name (Opt t default) o) (add_short short name s) a c)
               else ArgError
  end.

(** base/src/argparse.act:328-333 (nargs "*" counts as several too; it is [Other] here). *)
Definition add_arg (name : text) (required : bool) (n : nargs) (p : parser) : out parser :=
  let '(Parser o s a c) := p in
  let several n := match n with One => false | _ => true end in
  if several n && existsb (fun d => several (ad_nargs d)) a then ArgError
  else Done (Parser o s (a ++ [Arg name required n]) c).

(** base/src/argparse.act:335-338; [sub] is the parser returned, after it was filled. *)
Definition add_cmd (name : text) (fn : Z) (sub : parser) (p : parser) : out parser :=
  let '(Parser o s a c) := p in Done (Parser o s a (set name (fn, sub) c)).

Definition opts_t := list (text * (otype * value)).

(** newval = []; if akey in res.options: the list there; newval.append(val) *)
Definition list_add (key v : text) (res : opts_t) : opts_t :=
  let cur := match lookup key res with Some (_, VList l) => l | _ => [] end in
  set key (OList, VList (cur ++ [v])) res.

(** base/src/argparse.act:475-490, 508-523 and 552-567: an option with its value. *)
Definition set_val (key : text) (d : optdecl) (v : text) (res : opts_t) : out opts_t :=
  match od_type d with
  | OBool => Done (set key (OBool, VBool true) res)
  | OInt => match int_of v with
            | Some z => Done (set key (OInt, VInt z) res)
            | None => ArgError
            end
  | OStr => Done (set key (OStr, VStr v) res)
  | OList => Done (list_add key v res)
  end.

(** end = arg.find('='): what comes before, and after if there is one. *)
Fixpoint split_eq (s : text) : text * option text :=
  match s with
  | [] => ([], None)
  | c :: s' => if c =? 61 then ([], Some s')
               else let '(a, b) := split_eq s' in (c :: a, b)
  end.

Definition is_bool_t (t : otype) : bool := match t with OBool => true | _ => false end.

(** base/src/argparse.act:527-573, the characters of -abc from j on: the flags are set; the
    unknown ones, and the option that takes the next argument, are returned. *)
Fixpoint group (p : parser) (cs : text) (res : opts_t) : out (opts_t * text * option (text * optdecl)) :=
  match cs with
  | [] => Done (res, [], None)
  | c :: cs' =>
      match lookup_short c (p_shorts p) with
      | Some key =>
          match lookup key (p_opts p) with
          | None => OtherExn
          | Some d =>
              if is_bool_t (od_type d) then group p cs' (set key (OBool, VBool true) res)
              else match cs' with
                   | _ :: _ => ArgError
                   | [] => Done (res, [], Some (key, d))
                   end
          end
      | None => let! (res, unknown, o) := group p cs' res in Done (res, c :: unknown, o)
      end
  end.

(** arg.startswith('--'); arg.startswith('-') and len(arg) > 1 *)
Definition starts2 (s : text) : bool := match s with c :: d :: _ => (c =? 45) && (d =? 45) | _ => false end.
Definition starts1 (s : text) : bool := match s with c :: _ :: _ => c =? 45 | _ => false end.

(** base/src/argparse.act:500-507: an option with its value in the same argument. *)
Definition inline (p : parser) (cs : text) : option (text * text * optdecl) :=
  match cs with
  | c :: v =>
      match v, lookup_short c (p_shorts p) with
      | _ :: _, Some key =>
          match lookup key (p_opts p) with
          | Some d => if is_bool_t (od_type d) then None else Some (key, v, d)
          | None => None     (* KeyError; see [group], which is called then *)
          end
      | _, _ => None
      end
  | [] => None
  end.

Definition add_rest (args : list text) (r : out (opts_t * list text * option text)) : out (opts_t * list text * option text) :=
  let! (res, rest, cmd) := r in Done (res, args ++ rest, cmd).
Definition dashed (unknown : text) : list text :=
  match unknown with [] => [] | _ => [45 :: unknown] end.

(** base/src/argparse.act:443-600, the loop over the arguments, argv being what is left of
    it: the options, the arguments to pass on, the sub-command ([seen]: already found). *)
Fixpoint scan (p : parser) (argv : list text) (res : opts_t) (seen : option text) {struct argv}
  : out (opts_t * list text * option text) :=
  match argv with
  | [] => Done (res, [], seen)
  | arg :: argv' =>
      if teqb arg [45; 45] then Done (res, argv', seen)                         (* :451-453 *)
      else if starts2 arg then                                                  (* :454-494 *)
        let '(key, val) := split_eq (skipn 2 arg) in
        match lookup key (p_opts p) with
        | None => add_rest [arg] (scan p argv' res seen)
        | Some d =>
            if is_bool_t (od_type d) then let! res := set_val key d [] res in scan p argv' res seen
            else match val, argv' with
                 | Some v, _ => let! res := set_val key d v res in scan p argv' res seen
                 | None, v :: argv'' => let! res := set_val key d v res in scan p argv'' res seen
                 | None, [] => ArgError
                 end
        end
      else if starts1 arg then                                                  (* :495-584 *)
        let cs := skipn 1 arg in
        match inline p cs with
        | Some (key, v, d) => let! res := set_val key d v res in scan p argv' res seen
        | None =>
            let! (res, unknown, o) := group p cs res in
            match o, argv' with
            | None, _ => add_rest (dashed unknown) (scan p argv' res seen)
            | Some (key, d), v :: argv'' =>
                let! res := set_val key d v res in add_rest (dashed unknown) (scan p argv'' res seen)
            | Some _, [] => ArgError
            end
        end
      else                                                                      (* :585-600 *)
        match lookup arg (p_cmds p), seen with
        | Some _, None => scan p argv' res (Some arg)
        | _, _ => add_rest [arg] (scan p argv' res seen)
        end
  end.

(** base/src/argparse.act:433-441, the default values. *)
Fixpoint opt_defaults (o : list (text * optdecl)) (res : opts_t) : opts_t :=
  match o with
  | [] => res
  | (n, d) :: o' =>
      opt_defaults o' (match od_default d with Some v => set n (od_type d, v) res | None => res end)
  end.
Fixpoint arg_defaults (a : list argdecl) (res : opts_t) : opts_t :=
  match a with
  | [] => res
  | d :: a' =>
      arg_defaults a' (if negb (ad_required d)
                       then match ad_nargs d with Many => set (ad_name d) (OList, VList []) res | _ => res end
                       else res)
  end.

(** base/src/argparse.act:612-631, the loop over posargs: the options, the rest, the
    positional arguments that remain. *)
Fixpoint deal (args : list argdecl) (posargs : list text) (res : opts_t) : opts_t * list text * list argdecl :=
  match posargs with
  | [] => (res, [], args)
  | v :: posargs' =>
      match args with
      | [] => let '(res, rest, args) := deal [] posargs' res in (res, v :: rest, args)
      | d :: args' =>
          match ad_nargs d with
          | One => deal args' posargs' (set (ad_name d) (OStr, VStr v) res)
          | Many =>
              let res := list_add (ad_name d) v res in
              if Nat.eqb (length posargs') (length args') then deal args' posargs' res
              else deal args posargs' res
          | Other => deal args posargs' res
          end
      end
  end.

(** base/src/argparse.act:424-633 _parse_and_consume; also the parser afterwards.  [fuel]
    bounds the nesting of sub-commands. *)
Fixpoint consume (fuel : nat) (p : parser) (argv : list text) (a : argsr) : out (argsr * list text * parser) :=
  match fuel with
  | O => Deep
  | S fuel =>
      let '(Parser o s ds cmds) := p in
      let res := arg_defaults ds (opt_defaults o (a_opts a)) in
      let! (res, rest, seen) := scan p argv res None in
      let! (a, posargs, cmds) :=
        match seen with
        | None => Done (Args res (a_cmd a), rest, cmds)
        | Some name =>
            match lookup name cmds with
            | None => OtherExn
            | Some (fn, sub) =>
                let! (a, posargs, sub) := consume fuel sub rest (Args res (Some fn)) in
                Done (a, posargs, set name (fn, sub) cmds)
            end
        end in
      let '(res, rest, ds) := deal ds posargs (a_opts a) in
      Done (Args res (a_cmd a), rest, Parser o s ds cmds)
  end.

Definition help : text := [104; 101; 108; 112].

(** base/src/argparse.act:396-422 parse and _parse; also the parser afterwards. *)
Definition parse (fuel : nat) (p : parser) (argv : list text) : out (argsr * parser) :=
  let injected := match lookup help (p_opts p) with None => true | Some _ => false end in
  let! p := if injected then add_bool help None p else Done p in
  match argv with
  | [] => OtherExn
  | _ :: argv =>
      let! (a, _, p) := consume fuel p argv (Args [] None) in
      let! asked := if injected then get OBool help a else Done (VBool false) in
      match asked with
      | VBool true => Usage (a_cmd a)
      | _ =>
          if existsb (fun d => ad_required d && match lookup (ad_name d) (a_opts a) with None => true | Some _ => false end) (p_args p)
          then ArgError
          else Done (a, p)
      end
  end.
End Parser.

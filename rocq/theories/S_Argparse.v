(** Specification of command line parsing: declarations, command lines as a user writes
    them, and what they mean.  Texts are lists of characters; 45 is '-', 61 is '='.
    Independent of the model (which uses the declarations). *)
From Verif Require Import Base.

Notation text := (list Z) (only parsing).

Definition teqb (a b : text) : bool := if list_eq_dec Z.eq_dec a b then true else false.

(** ** Declarations *)
Inductive otype := OBool | OInt | OStr | OList.
Inductive value := VBool (b : bool) | VInt (z : Z) | VStr (s : text) | VList (l : list text).
(** add_bool and add_option: the type and the default. *)
Record optdecl := Opt { od_type : otype; od_default : option value }.
(** add_arg: nargs is "?" (one value), "+" (several) or something else. *)
Inductive nargs := One | Many | Other.
Record argdecl := Arg { ad_name : text; ad_required : bool; ad_nargs : nargs }.
(** A parser: options by name, names by short option, positional arguments, and
    sub-commands by name (a number stands for the command's function). *)
Inductive parser := Parser (opts : list (text * optdecl)) (shorts : list (Z * text))
                           (args : list argdecl) (cmds : list (text * (Z * parser))).
Definition p_opts p := match p with Parser o _ _ _ => o end.
Definition p_shorts p := match p with Parser _ s _ _ => s end.
Definition p_args p := match p with Parser _ _ a _ => a end.
Definition p_cmds p := match p with Parser _ _ _ c => c end.

Fixpoint lookup {A} (k : text) (m : list (text * A)) : option A :=
  match m with [] => None | (k', v) :: m' => if teqb k k' then Some v else lookup k m' end.
Fixpoint lookup_short (c : Z) (m : list (Z * text)) : option text :=
  match m with [] => None | (c', v) :: m' => if c =? c' then Some v else lookup_short c m' end.

(** ** Command lines *)
(** One thing on the command line.  The number says whose option it is: 0 the program's, 1
    the sub-command's, and so on. *)
Inductive item :=
| Flag (k : nat) (name : text)                      (* --name *)
| Eq (k : nat) (name val : text)                    (* --name=val *)
| Sep (k : nat) (name val : text)                   (* --name val *)
| Group (flags : list (nat * Z * text))             (* -abc: short options and their names *)
| GroupVal (flags : list (nat * Z * text)) (k : nat) (c : Z) (name val : text)  (* -abco val *)
| Inline (k : nat) (c : Z) (name val : text)        (* -oval *)
| Pos (val : text)                                  (* a plain argument *)
| Cmd (name : text).                                (* a sub-command *)

Definition chars (flags : list (nat * Z * text)) : list Z := map (fun f => snd (fst f)) flags.

(** How it is written. *)
Definition write1 (i : item) : list text :=
  match i with
  | Flag _ n => [45 :: 45 :: n]
  | Eq _ n v => [45 :: 45 :: n ++ 61 :: v]
  | Sep _ n v => [45 :: 45 :: n; v]
  | Group fs => [45 :: chars fs]
  | GroupVal fs _ c _ v => [45 :: chars fs ++ [c]; v]
  | Inline _ c _ v => [45 :: c :: v]
  | Pos v => [v]
  | Cmd n => [n]
  end.
Definition write (l : list item) : list text := flat_map write1 l.

(** The options it uses: whose, which, and the value (empty for flags). *)
Definition uses1 (i : item) : list (nat * text * text) :=
  match i with
  | Flag k n => [(k, n, [])]
  | Eq k n v | Sep k n v => [(k, n, v)]
  | Group fs => map (fun f => (fst (fst f), snd f, [])) fs
  | GroupVal fs k _ n v => map (fun f => (fst (fst f), snd f, [])) fs ++ [(k, n, v)]
  | Inline k _ n v => [(k, n, v)]
  | Pos _ | Cmd _ => []
  end.
Definition uses (l : list item) : list (nat * text * text) := flat_map uses1 l.

(** The values given for option [n] of level [k], in order. *)
Definition values (k : nat) (n : text) (l : list item) : list text :=
  map snd (filter (fun u => Nat.eqb (fst (fst u)) k && teqb (snd (fst u)) n) (uses l)).

Fixpoint positionals (l : list item) : list text :=
  match l with [] => [] | Pos v :: l' => v :: positionals l' | _ :: l' => positionals l' end.

(** ** Meaning *)
Section Meaning.
Variable int_of : text -> option Z.     (* the integer a text stands for *)

Definition last_of (l : list text) : option text :=
  match rev l with [] => None | v :: _ => Some v end.

(** The value of an option given these values, in order. *)
Definition meaning (d : optdecl) (vals : list text) : option value :=
  match od_type d with
  | OBool => match vals with [] => od_default d | _ => Some (VBool true) end
  | OInt => match last_of vals with
            | None => od_default d
            | Some v => match int_of v with Some z => Some (VInt z) | None => None end
            end
  | OStr => match last_of vals with None => od_default d | Some v => Some (VStr v) end
  | OList => match vals with
             | [] => od_default d
             | _ => Some (VList (match od_default d with Some (VList l) => l | _ => [] end ++ vals))
             end
  end.

(** All integers are integers. *)
Definition ints_ok (d : optdecl) (vals : list text) : Prop :=
  od_type d = OInt -> forall v, In v vals -> int_of v <> None.
End Meaning.

(** Dealing out plain arguments: each positional argument takes one; one that takes several
    leaves one for each that follows, or takes all if there are too few. *)
Inductive deals : list argdecl -> list text -> list (text * value) -> list text -> Prop :=
| D_end vs : deals [] vs [] vs
| D_out d ds : deals (d :: ds) [] [] []
| D_one n r ds v vs a lo : deals ds vs a lo ->
    deals (Arg n r One :: ds) (v :: vs) ((n, VStr v) :: a) lo
| D_many n r ds m vs a lo : m <> [] -> length vs = length ds -> deals ds vs a lo ->
    deals (Arg n r Many :: ds) (m ++ vs) ((n, VList m) :: a) lo
| D_few n r ds m : m <> [] -> (length m <= length ds)%nat ->
    deals (Arg n r Many :: ds) m [(n, VList m)] [].

(** ** Command lines that can be understood *)
(** A plain argument: does not begin with '-', or is '-'. *)
Definition plain (v : text) : Prop := v = [45] \/ forall r, v <> 45 :: r.

(** Not an option of this parser, so it is left to a sub-command. *)
Definition not_mine (p : parser) (seen : bool) (v : text) : Prop :=
  plain v /\ (seen = false -> lookup v (p_cmds p) = None).

Definition mine (p : parser) (n : text) (t : otype -> Prop) : Prop :=
  exists d, lookup n (p_opts p) = Some d /\ t (od_type d).
Definition is_bool (t : otype) := t = OBool.
Definition takes_value (t : otype) := t <> OBool.

Definition flag_ok (p : parser) (j : nat) (f : nat * Z * text) : Prop :=
  let '(k, c, n) := f in
  c <> 45 /\ (j <= k)%nat /\
  (k = j -> lookup_short c (p_shorts p) = Some n /\ mine p n is_bool) /\
  (k <> j -> lookup_short c (p_shorts p) = None).

(** The item can be understood by parser [p] of level [j]: either it is its own and
    declared, or it is not and looks like no option or sub-command of [p].  [seen]: the
    sub-command came before. *)
Definition item_ok (p : parser) (j : nat) (seen : bool) (i : item) : Prop :=
  match i with
  | Flag k n => n <> [] /\ ~ In 61 n /\ (j <= k)%nat /\
      (k = j -> mine p n is_bool) /\ (k <> j -> lookup n (p_opts p) = None)
  | Eq k n v => ~ In 61 n /\ (j <= k)%nat /\
      (k = j -> mine p n takes_value) /\ (k <> j -> lookup n (p_opts p) = None)
  | Sep k n v => n <> [] /\ ~ In 61 n /\ (j <= k)%nat /\
      (k = j -> mine p n takes_value) /\
      (k <> j -> lookup n (p_opts p) = None /\ not_mine p seen v)
  | Group fs => fs <> [] /\ Forall (flag_ok p j) fs
  | GroupVal fs k c n v => Forall (flag_ok p j) fs /\ c <> 45 /\ (j <= k)%nat /\
      (k = j -> lookup_short c (p_shorts p) = Some n /\ mine p n takes_value) /\
      (k <> j -> lookup_short c (p_shorts p) = None /\ not_mine p seen v)
  | Inline k c n v => v <> [] /\ c <> 45 /\ (j <= k)%nat /\
      (k = j -> lookup_short c (p_shorts p) = Some n /\ mine p n takes_value) /\
      (k <> j -> forall x, In x (c :: v) -> lookup_short x (p_shorts p) = None)
  | Pos v => not_mine p seen v
  | Cmd n => plain n /\ (seen = false -> lookup n (p_cmds p) <> None)
  end.

(** What is left for the sub-command: everything but this level's options and the name of
    the sub-command. *)
Definition left1 (j : nat) (i : item) : list item :=
  let higher k := negb (Nat.eqb k j) in
  let others := filter (fun f : nat * Z * text => higher (fst (fst f))) in
  match i with
  | Flag k _ | Eq k _ _ | Sep k _ _ | Inline k _ _ _ => if higher k then [i] else []
  | Group fs => match others fs with [] => [] | fs' => [Group fs'] end
  | GroupVal fs k c n v =>
      if higher k then [GroupVal (others fs) k c n v]
      else match others fs with [] => [] | fs' => [Group fs'] end
  | Pos _ | Cmd _ => [i]
  end.
Fixpoint left_over (j : nat) (seen : bool) (l : list item) : list item :=
  match l with
  | [] => []
  | Cmd n :: l' => if seen then Cmd n :: left_over j seen l' else left_over j true l'
  | i :: l' => left1 j i ++ left_over j seen l'
  end.

Fixpoint items_ok (p : parser) (j : nat) (seen : bool) (l : list item) : Prop :=
  match l with
  | [] => True
  | i :: l' => item_ok p j seen i /\ items_ok p j (match i with Cmd _ => true | _ => seen end) l'
  end.

Fixpoint first_cmd (l : list item) : option text :=
  match l with [] => None | Cmd n :: _ => Some n | _ :: l' => first_cmd l' end.

(** The command line [l] can be understood by [p], leading through the parsers [ps]; [f] is
    the function of the last command. *)
Inductive line_ok : parser -> nat -> list item -> list parser -> option Z -> Prop :=
| L_last p j l : items_ok p j false l -> first_cmd l = None -> left_over j false l = map Pos (positionals l) ->
    line_ok p j l [p] None
| L_sub p j l n f sub ps f' : items_ok p j false l -> first_cmd l = Some n ->
    lookup n (p_cmds p) = Some (f, sub) -> line_ok sub (S j) (left_over j false l) ps f' ->
    line_ok p j l (p :: ps) (match f' with Some _ => f' | None => Some f end).

(** Dealing plain arguments, the innermost parser first. *)
Inductive deals_all : list parser -> list text -> list (list (text * value)) -> list text -> Prop :=
| DA_nil vs : deals_all [] vs [] vs
| DA_cons p ps vs as' mid a lo : deals_all ps vs as' mid -> deals (p_args p) mid a lo ->
    deals_all (p :: ps) vs (a :: as') lo.

(** All names declared along the way. *)
Definition names (p : parser) : list text := map fst (p_opts p) ++ map ad_name (p_args p).

(** What every parser made by the API satisfies. *)
Definition made (p : parser) : Prop :=
  (forall c n, lookup_short c (p_shorts p) = Some n -> lookup n (p_opts p) <> None) /\
  (forall n d, lookup n (p_opts p) = Some d -> od_type d = OBool -> od_default d = Some (VBool false)).
(** Only "?" and "+" are used. *)
Definition known_nargs (p : parser) : Prop := Forall (fun a => ad_nargs a <> Other) (p_args p).

(** Every program has the option --help, unless it declares its own. *)
Definition help_name : text := [104; 101; 108; 112].
Definition program (p : parser) : parser :=
  match lookup help_name (p_opts p) with
  | Some _ => p
  | None => Parser (p_opts p ++ [(help_name, Opt OBool (Some (VBool false)))]) (p_shorts p) (p_args p) (p_cmds p)
  end.
(** Help was asked for. *)
Definition asks_help (p : parser) (l : list item) : Prop :=
  lookup help_name (p_opts p) = None /\ values 0 help_name l <> [].

Definition type_of (v : value) : otype :=
  match v with VBool _ => OBool | VInt _ => OInt | VStr _ => OStr | VList _ => OList end.

(** A command line: the program's name, the items, and possibly -- and anything. *)
Definition command_line (prog : text) (l : list item) (tail : option (list text)) : list text :=
  prog :: write l ++ match tail with None => [] | Some t => [45; 45] :: t end.
(** All plain arguments. *)
Definition plain_args (l : list item) (tail : option (list text)) : list text :=
  positionals l ++ match tail with None => [] | Some t => t end.

(** Some value given to an integer option is not an integer. *)
Definition bad_int (int_of : text -> option Z) (ps : list parser) (l : list item) : Prop :=
  exists k q n d v, nth_error ps k = Some q /\ lookup n (p_opts q) = Some d /\ od_type d = OInt /\
    In v (values k n l) /\ int_of v = None.
(** A required positional argument of the program gets no value. *)
Definition missing (p : parser) (as' : list (list (text * value))) : Prop :=
  exists d a, In d (p_args p) /\ ad_required d = true /\ nth_error as' 0 = Some a /\ lookup (ad_name d) a = None.

(** Format strings and interpolated strings: compiler/lib/src/Acton/Parser.hs:597-961, Types.hs:2037-2074,
    Normalizer.hs:510-516, CodeGen.hs:929-985 and 1340-1348, base/builtin/str.c:4053-4078.  Strings of one
    literal; the arguments are values (not expressions), a tuple when there are several.  How C writes
    numbers, str() and str.center are given as functions. *)
From Coq Require Import List ZArith Bool Lia.
From Verif Require Import S_Lit S_Fmt M_Lit.
Import ListNotations.
Open Scope Z_scope.

(** ** Types.hs:2044-2074: the types of the arguments. *)
Definition flagset : list Z := [35; 48; 45; 32; 43].
Definition t_flags (s : list Z) : list Z := snd (span (fun c => isin c flagset) s).
Definition t_width (s : list Z) : list ty * list Z :=
  match s with
  | c :: r => if c =? 42 then ([TInt], r) else if pos_digit c then ([], snd (span dec_digit r)) else ([], s)
  | [] => ([], s)
  end.
Definition t_prec (s : list Z) : list ty * list Z :=
  match s with
  | d :: r => if d =? 42 then ([TInt], r) else if dec_digit d then ([], snd (span dec_digit r)) else ([], s)
  | [] => ([], s)
  end.
Definition t_dot (s : list Z) : list ty * list Z :=
  match s with c :: r => if c =? 46 then t_prec r else ([], s) | [] => ([], s) end.
Definition t_len (s : list Z) : list Z := match s with c :: r => if isin c [104; 108; 76] then r else s | [] => s end.
Definition t_conv (s : list Z) : option (list ty * list Z) :=
  match s with
  | c :: r =>
      if isin c [100; 105; 111; 117; 120; 88; 99] then Some ([TInt], r)
      else if isin c [101; 69; 102; 70; 103; 71] then Some ([TFloat], r)
      else if isin c [114; 115; 97] then Some ([TStr], r)
      else if c =? 37 then Some ([], r)
      else None
  | [] => None
  end.
Definition t_spec (s : list Z) : option (list ty * list Z) :=
  if hd_is (Z.eqb 40) s then None
  else
    let '(a, s) := t_width (t_flags s) in
    let '(b, s) := t_dot s in
    match t_conv (t_len s) with Some (c, r) => Some (a ++ b ++ c, r) | None => None end.
Fixpoint t_format (n : nat) (s : list Z) : option (list ty) :=
  match n, s with
  | _, [] => Some []
  | S n, c :: r =>
      if c =? 37 then
        match t_spec r with
        | Some (a, r) => match t_format n r with Some b => Some (a ++ b) | None => None end
        | None => None
        end
      else t_format n r
  | O, _ => None
  end.

(** ** CodeGen.hs:929-952, formatLit; [None] is an incomplete pattern match. *)
Definition f_width (s : list Z) : list Z * list Z :=
  match s with
  | c :: r => if c =? 42 then ([42], r) else if pos_digit c then let '(ds, r') := span dec_digit r in (c :: ds, r') else ([], s)
  | [] => ([], s)
  end.
Definition f_prec (s : list Z) : list Z * list Z :=
  match s with
  | d :: r => if d =? 42 then ([42], r) else if dec_digit d then let '(ds, r') := span dec_digit r in (d :: ds, r') else ([], s)
  | [] => ([], s)
  end.
Definition f_dot (s : list Z) : list Z * list Z :=
  match s with c :: r => if c =? 46 then let '(p, r') := f_prec r in (46 :: p, r') else ([], s) | [] => ([], s) end.
Definition f_len (s : list Z) : list Z * list Z :=
  match s with
  | c :: r =>
      if isin c [104; 108; 76] then ([108], r)
      else if isin c [100; 105; 111; 117; 120; 88; 99] then ([108], s)
      else ([], s)
  | [] => ([], s)
  end.
Definition f_spec (s : list Z) : option (list Z * list Z) :=
  let '(fl, s) := span (fun c => isin c flagset) s in
  let '(w, s) := f_width s in
  let '(p, s) := f_dot s in
  let '(l, s) := f_len s in
  match s with
  | c :: r => Some (fl ++ w ++ p ++ l ++ [c], r)
  | [] => None
  end.
Fixpoint format_lit (n : nat) (s : list Z) : option (list Z) :=
  match n, s with
  | _, [] => Some []
  | S n, c :: r =>
      if c =? 37 then
        match f_spec r with
        | Some (a, r) => match format_lit n r with Some b => Some (37 :: a ++ b) | None => None end
        | None => None
        end
      else match format_lit n r with Some b => Some (c :: b) | None => None end
  | O, _ => None
  end.

Section Run.
Variable F : Type.
Variable show_int : list Z -> option Z -> option Z -> Z -> Z -> list Z.
Variable show_float : list Z -> option Z -> option Z -> Z -> F -> list Z.
Notation arg := (arg F).
(** ** CodeGen.hs:954-985, castLit: the arguments in C: int, long, double, and bytes up to a 0. *)
Inductive carg := CInt (n : Z) | CLong (n : Z) | CDouble (f : F) | CStr (b : list Z).
(** The conversion from long to int. *)
Definition to_int (n : Z) : Z := (n + 2147483648) mod 4294967296 - 2147483648.
Definition c_star (s : list Z) (args : list arg) : option (list carg * list Z * list arg) :=
  match args with AInt n :: args => Some ([CInt (to_int n)], s, args) | _ => None end.
Definition c_width_ (s : list Z) (args : list arg) : option (list carg * list Z * list arg) :=
  match s with
  | c :: r => if c =? 42 then c_star r args else if pos_digit c then Some ([], snd (span dec_digit r), args) else Some ([], s, args)
  | [] => Some ([], s, args)
  end.
Definition c_prec_ (s : list Z) (args : list arg) : option (list carg * list Z * list arg) :=
  match s with
  | d :: r => if d =? 42 then c_star r args else if dec_digit d then Some ([], snd (span dec_digit r), args) else Some ([], s, args)
  | [] => Some ([], s, args)
  end.
Definition c_dot_ (s : list Z) (args : list arg) : option (list carg * list Z * list arg) :=
  match s with c :: r => if c =? 46 then c_prec_ r args else Some ([], s, args) | [] => Some ([], s, args) end.
Definition c_conv_ (s : list Z) (args : list arg) : option (list carg * list Z * list arg) :=
  match s with
  | c :: r =>
      if c =? 37 then Some ([], r, args)
      else
        match args with
        | AInt n :: args => if isin c [100; 105; 111; 117; 120; 88; 99] then Some ([CLong n], r, args) else None
        | AFloat f :: args => if isin c [101; 69; 102; 70; 103; 71] then Some ([CDouble f], r, args) else None
        | AStr t :: args => if isin c [114; 115; 97] then Some ([CStr (utf8s t)], r, args) else None
        | [] => None
        end
  | [] => None
  end.
Definition c_spec (s : list Z) (args : list arg) : option (list carg * list Z * list arg) :=
  match c_width_ (t_flags s) args with
  | Some (a, s, args) =>
      match c_dot_ s args with
      | Some (b, s, args) => match c_conv_ (t_len s) args with Some (c, r, args) => Some (a ++ b ++ c, r, args) | None => None end
      | None => None
      end
  | None => None
  end.
Fixpoint cast_lit (n : nat) (s : list Z) (args : list arg) : option (list carg) :=
  match n, s with
  | _, [] => Some []
  | S n, c :: r =>
      if c =? 37 then
        match c_spec r args with
        | Some (a, r, args) => match cast_lit n r args with Some b => Some (a ++ b) | None => None end
        | None => None
        end
      else cast_lit n r args
  | O, _ => None
  end.

(** ** printf (ISO C 7.23.6.1), as far as it is used: [None] if it is undefined, or fails. *)
Fixpoint up_to_nul (b : list Z) : list Z := match b with c :: b => if c =? 0 then [] else c :: up_to_nul b | [] => [] end.
Definition c_str (flags : list Z) (width prec : option Z) (b : list Z) : list Z :=
  let b := up_to_nul b in
  let b := match prec with Some p => if p <? 0 then b else firstn (Z.to_nat p) b | None => b end in
  match width with
  | None => b
  | Some w =>
      let blanks := repeat 32 (Z.to_nat (Z.abs w) - length b) in
      if (w <? 0) || isin 45 flags then b ++ blanks else blanks ++ b
  end.
Definition c_num (ds : list Z) : option Z := if number 10 ds <=? 2147483647 then Some (number 10 ds) else None.
Definition p_star (s : list Z) (args : list carg) : option (option Z * list Z * list carg) :=
  match args with CInt n :: args => Some (Some n, s, args) | _ => None end.
Definition p_digits (c : Z) (r : list Z) (args : list carg) : option (option Z * list Z * list carg) :=
  let '(ds, r') := span dec_digit r in match c_num (c :: ds) with Some n => Some (Some n, r', args) | None => None end.
Definition p_width (s : list Z) (args : list carg) : option (option Z * list Z * list carg) :=
  match s with
  | c :: r => if c =? 42 then p_star r args else if pos_digit c then p_digits c r args else Some (None, s, args)
  | [] => None
  end.
Definition p_prec (s : list Z) (args : list carg) : option (option Z * list Z * list carg) :=
  match s with
  | c :: r => if c =? 42 then p_star r args else if dec_digit c then p_digits c r args else Some (Some 0, s, args)
  | [] => None
  end.
Definition p_dot (s : list Z) (args : list carg) : option (option Z * list Z * list carg) :=
  match s with c :: r => if c =? 46 then p_prec r args else Some (None, s, args) | [] => None end.
Definition p_len (s : list Z) : bool * list Z := match s with c :: r => if c =? 108 then (true, r) else (false, s) | [] => (false, s) end.
Definition p_conv (fl : list Z) (w p : option Z) (long : bool) (s : list Z) (args : list carg) : option (list Z * list Z * list carg) :=
  match s with
  | c :: r =>
      if c =? 37 then Some ([37], r, args)
      else if isin c [100; 105; 111; 117; 120; 88; 99] then
        match args with CLong n :: args => if long then Some (show_int fl w p c n, r, args) else None | _ => None end
      else if isin c [101; 69; 102; 70; 103; 71; 97; 65] then
        match args with CDouble f :: args => Some (show_float fl w p c f, r, args) | _ => None end
      else if c =? 115 then
        match args with CStr b :: args => if long then None else Some (c_str fl w p b, r, args) | _ => None end
      else None
  | [] => None
  end.
Definition p_spec (s : list Z) (args : list carg) : option (list Z * list Z * list carg) :=
  let '(fl, s) := span (fun c => isin c flagset) s in
  match p_width s args with
  | Some (w, s, args) =>
      match p_dot s args with
      | Some (p, s, args) => let '(long, s) := p_len s in p_conv fl w p long s args
      | None => None
      end
  | None => None
  end.
Fixpoint printf (n : nat) (s : list Z) (args : list carg) : option (list Z) :=
  match n, s with
  | _, [] => Some []
  | S n, c :: r =>
      if c =? 0 then Some []
      else if c =? 37 then
        match p_spec r args with
        | Some (a, r, args) => match printf n r args with Some b => Some (a ++ b) | None => None end
        | None => None
        end
      else match printf n r args with Some b => Some (c :: b) | None => None end
  | O, _ => None
  end.

(** ** The whole way. *)
Inductive result := Rejected | Undefined | Bytes (b : list Z).
Fixpoint tys_eqb (a b : list ty) : bool :=
  match a, b with
  | [], [] => true
  | TInt :: a, TInt :: b | TFloat :: a, TFloat :: b | TStr :: a, TStr :: b => tys_eqb a b
  | _, _ => false
  end.
(** Types.hs:2037-2041, CodeGen.hs:1340-1341, 1759, str.c:4053-4078. *)
Definition format (text : list Z) (args : list arg) : result :=
  match t_format (length text) text with
  | Some ts =>
      if tys_eqb (map (arg_ty F) args) ts then
        let lit := quote (escape 34 text) in
        match format_lit (length lit) lit, cast_lit (length lit) lit args with
        | Some f, Some cargs =>
            match c_literal f with
            | Some b => match printf (length b) b cargs with Some out => Bytes out | None => Undefined end
            | None => Rejected
            end
        | _, _ => Rejected
        end
      else Rejected
  | None => Rejected
  end.

(** ** Parser.hs:828-961, formatSpec, after the colon, with the closing brace: the format, whether
    padded with zeros, whether there is a precision, the width to center. *)
Definition digit1 (s : list Z) : option (list Z) * list Z :=
  let '(ds, r) := span dec_digit s in match ds with [] => (None, s) | _ => (Some ds, r) end.
Definition is_align (c : Z) : bool := isin c [60; 62; 94].
Definition format_spec (s : list Z) : option (list Z * bool * bool * option (list Z)) :=
  let s := snd (span (Z.eqb 32) s) in
  let ok :=
    match s with
    | c :: r =>
        if c =? 125 then false
        else if (c =? 9) || (c =? 10) then false
        else isin c [60; 62; 94; 43; 45; 35; 48; 49; 50; 51; 52; 53; 54; 55; 56; 57; 46; 125; 32] || hd_is is_align r
    | [] => false
    end in
  if negb ok then None
  else
    let '(align, s) :=
      match s with
      | f :: a :: r => if is_align a then (Some a, r) else if is_align f then (Some f, a :: r) else (None, s)
      | _ => (None, s)
      end in
    let s := match s with c :: r => if isin c [43; 45] then r else s | [] => s end in
    let s := match s with c :: r => if c =? 35 then r else s | [] => s end in
    let '(zero, s) := match s with c :: r => if c =? 48 then (true, r) else (false, s) | [] => (false, s) end in
    let '(width, s) := digit1 s in
    match (match s with
      | c :: r => if c =? 46 then match digit1 r with (Some p, r') => Some (Some p, r') | _ => None end else Some (None, s)
      | [] => Some (None, s)
      end) with
    | None => None
    | Some (prec, s) =>
        let '(type, s) :=
          match s with
          | c :: r => if isin c [102; 100; 101; 69; 103; 71; 110; 111; 120; 88; 37; 98; 115] then (Some c, r) else (None, s)
          | [] => (None, s)
          end in
        match snd (span (Z.eqb 32) s) with
        | [c] =>
            if c =? 125 then
              let fmt :=
                match prec with
                | Some p =>
                    match zero, width with
                    | true, Some w => 48 :: w ++ 46 :: p ++ [102]
                    | _, Some w => w ++ 46 :: p ++ [102]
                    | _, None => 46 :: p ++ [102]
                    end
                | None =>
                    match type with
                    | Some 102 => [102]
                    | _ =>
                        match width with
                        | Some w =>
                            if zero then 48 :: w ++ [100]
                            else match align with
                              | Some 60 => 45 :: w ++ [115]
                              | Some 62 => w ++ [115]
                              | Some _ => [115]
                              | None => w ++ [115]
                              end
                        | None => [115]
                        end
                    end
                end in
              Some (fmt, zero && match width with Some _ => true | None => false end, match prec with Some _ => true | None => false end,
                    match align with Some 94 => width | _ => None end)
            else None
        | _ => None
        end
    end.
Variable str_of : arg -> list Z.
Variable center : list Z -> Z -> list Z.
(** A part as in the source: text, or an expression and, after a colon, its format. *)
Inductive src := SText (u : unit) | SExpr (a : arg) (spec : option (list Z)).
(** How a part of the specification is written. *)
Definition source (p : part F) : src := match p with PText u => SText u | PValue SNone a => SExpr a None | PValue sp a => SExpr a (Some (spell_spec sp)) end.
(** Parser.hs:765-825, exprPart: the format and the argument. *)
Definition expr_part (a : arg) (spec : option (list Z)) : option (list Z * arg) :=
  match spec with
  | None => Some ([115], AStr (str_of a))
  | Some s =>
      match format_spec (s ++ [125]) with
      | Some (fmt, zero, prec, centered) =>
          match centered with
          | Some w => Some (fmt, AStr (center (str_of a) (number 10 w)))
          | None => if zero || prec then Some (fmt, a) else Some (fmt, AStr (str_of a))
          end
      | None => None
      end
  end.
(** Parser.hs:643-646, buildFormatString, and 686-697, for strings with at least one expression (the
    others are literals). *)
Fixpoint parts (l : list src) : option (list Z * list arg) :=
  match l with
  | [] => Some ([], [])
  | SText u :: l => match parts l with Some (s, args) => Some (spell_unit u ++ s, args) | None => None end
  | SExpr a sp :: l =>
      match expr_part a sp, parts l with
      | Some (fmt, a'), Some (s, args) => Some (37 :: fmt ++ s, a' :: args)
      | _, _ => None
      end
  end.
Definition interpolate (l : list src) : result :=
  match parts l with Some (s, args) => format s args | None => Rejected end.
End Run.
Arguments CInt {F}. Arguments CLong {F}. Arguments CDouble {F}. Arguments CStr {F}. Arguments SText {F}. Arguments SExpr {F}.

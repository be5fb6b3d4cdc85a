(** Specification of format strings and interpolated strings.  Characters are code points. *)
From Coq Require Import List ZArith Bool Lia.
From Verif Require Import S_Lit.
Import ListNotations.
Open Scope Z_scope.

Definition isin (c : Z) (l : list Z) : bool := existsb (Z.eqb c) l.
(** Letters: # 0 - blank +; h l L; d i o u x X c; e E f F g G. *)
Definition is_flag (c : Z) : bool := isin c [35; 48; 45; 32; 43].
Definition is_len (c : Z) : bool := isin c [104; 108; 76].
Definition is_int (c : Z) : bool := isin c [100; 105; 111; 117; 120; 88; 99].
Definition is_float (c : Z) : bool := isin c [101; 69; 102; 70; 103; 71].
Definition pos_digit (c : Z) : bool := (49 <=? c) && (c <=? 57).

Inductive ty := TInt | TFloat | TStr.
(** A width or precision: digits, or a star, for which an argument is taken. *)
Inductive size := Fixed (ds : list Z) | Star.
Record conv := Conv { c_flags : list Z; c_width : option size; c_prec : option (option size); c_len : option Z; c_letter : Z }.
(** A character of the text as it stands in the source: itself, or after a backslash. *)
Inductive unit := Plain (c : Z) | Esc (c : Z).
Inductive piece := Text (u : unit) | Percent | Item (c : conv).

Definition spell_size (z : size) : list Z := match z with Fixed ds => ds | Star => [42] end.
Definition spell_conv (c : conv) : list Z :=
  37 :: c_flags c ++ match c_width c with Some z => spell_size z | None => [] end ++
  match c_prec c with None => [] | Some None => [46] | Some (Some z) => 46 :: spell_size z end ++
  match c_len c with Some l => [l] | None => [] end ++ [c_letter c].
Definition spell_unit (u : unit) : list Z := match u with Plain c => [c] | Esc c => [92; c] end.
Definition spell_piece (p : piece) : list Z := match p with Text u => spell_unit u | Percent => [37; 37] | Item c => spell_conv c end.
Definition spell (ps : list piece) : list Z := flat_map spell_piece ps.

Definition unit_ok (u : unit) : Prop :=
  match u with
  | Plain c => scalar c /\ c <> 0 /\ c <> 10 /\ c <> 13 /\ c <> 37 /\ c <> 92
  | Esc c => exists x, simple c = Some x
  end.
Definition size_ok (first : Z -> bool) (z : size) : Prop :=
  match z with
  | Fixed ds => hd_is first ds = true /\ forallb dec_digit ds = true /\ number 10 ds <= 2147483647
  | Star => True
  end.
(** The conversions that are treated right. *)
Definition conv_ok (c : conv) : Prop :=
  forallb is_flag (c_flags c) = true /\
  match c_width c with Some z => size_ok pos_digit z | None => True end /\
  match c_prec c with Some (Some z) => size_ok dec_digit z | _ => True end /\
  match c_len c with Some l => is_len l = true | None => True end /\
  (is_int (c_letter c) = true \/ is_float (c_letter c) = true \/ (c_letter c = 115 /\ c_len c = None)).
Definition piece_ok (p : piece) : Prop := match p with Text u => unit_ok u | Percent => True | Item c => conv_ok c end.

(** The types of the arguments. *)
Definition size_ty (z : option size) : list ty := match z with Some Star => [TInt] | _ => [] end.
Definition letter_ty (c : Z) : ty := if is_int c then TInt else if is_float c then TFloat else TStr.
Definition piece_ty (p : piece) : list ty :=
  match p with
  | Item c => size_ty (c_width c) ++ match c_prec c with Some z => size_ty z | None => [] end ++ [letter_ty (c_letter c)]
  | _ => []
  end.
Definition types (ps : list piece) : list ty := flat_map piece_ty ps.

Section Meaning.
Variable F : Type.
Inductive arg := AInt (n : Z) | AFloat (f : F) | AStr (s : list Z).
Definition arg_ty (a : arg) : ty := match a with AInt _ => TInt | AFloat _ => TFloat | AStr _ => TStr end.
(** How numbers are written, given flags, width, precision and letter. *)
Variable show_int : list Z -> option Z -> option Z -> Z -> Z -> list Z.
Variable show_float : list Z -> option Z -> option Z -> Z -> F -> list Z.
(** A string: at most as many characters as the precision says, and blanks to the width. *)
Definition show_str (flags : list Z) (width prec : option Z) (s : list Z) : list Z :=
  let s := match prec with Some p => if p <? 0 then s else firstn (Z.to_nat p) s | None => s end in
  match width with
  | None => s
  | Some w =>
      let blanks := repeat 32 (Z.to_nat (Z.abs w) - length s) in
      if (w <? 0) || isin 45 flags then s ++ blanks else blanks ++ s
  end.
Definition unit_value (u : unit) : list Z := match u with Plain c => [c] | Esc c => match simple c with Some x => [x] | None => [] end end.
Definition size_value (z : size) (args : list arg) : option (Z * list arg) :=
  match z with
  | Fixed ds => Some (number 10 ds, args)
  | Star => match args with AInt w :: args => if (-2147483648 <=? w) && (w <=? 2147483647) then Some (w, args) else None | _ => None end
  end.
Definition width_value (z : option size) (args : list arg) : option (option Z * list arg) :=
  match z with
  | None => Some (None, args)
  | Some z => match size_value z args with Some (w, args) => Some (Some w, args) | None => None end
  end.
Definition prec_value (z : option (option size)) (args : list arg) : option (option Z * list arg) :=
  match z with
  | None => Some (None, args)
  | Some None => Some (Some 0, args)
  | Some z => width_value z args
  end.
Definition conv_value (c : conv) (args : list arg) : option (list Z * list arg) :=
  match width_value (c_width c) args with
  | Some (w, args) =>
      match prec_value (c_prec c) args with
      | Some (p, args) =>
          match args with
          | AInt n :: args => if is_int (c_letter c) then Some (show_int (c_flags c) w p (c_letter c) n, args) else None
          | AFloat f :: args => if is_float (c_letter c) then Some (show_float (c_flags c) w p (c_letter c) f, args) else None
          | AStr s :: args => if c_letter c =? 115 then Some (show_str (c_flags c) w p s, args) else None
          | [] => None
          end
      | None => None
      end
  | None => None
  end.
(** What the format string with these arguments gives; [None] if there are too few or too many of them
    or of other types, or a width is too great. *)
Fixpoint value (ps : list piece) (args : list arg) : option (list Z) :=
  match ps with
  | [] => match args with [] => Some [] | _ => None end
  | Text u :: ps => match value ps args with Some v => Some (unit_value u ++ v) | None => None end
  | Percent :: ps => match value ps args with Some v => Some (37 :: v) | None => None end
  | Item c :: ps =>
      match conv_value c args with
      | Some (x, args) => match value ps args with Some v => Some (x ++ v) | None => None end
      | None => None
      end
  end.
(** The value that a conversion takes, after those for stars, and what is left. *)
Definition operand (c : conv) (args : list arg) : option (arg * list arg) :=
  match width_value (c_width c) args with
  | Some (_, args) => match prec_value (c_prec c) args with Some (_, a :: args) => Some (a, args) | _ => None end
  | None => None
  end.
Fixpoint uses (ps : list piece) (args : list arg) : list (conv * arg) :=
  match ps with
  | [] => []
  | Item c :: ps => match operand c args with Some (a, args) => (c, a) :: uses ps args | None => [] end
  | _ :: ps => uses ps args
  end.
(** Strings without the character 0; and in ASCII, if the conversion has a width or a precision. *)
Definition strings_ok (ps : list piece) (args : list arg) : Prop :=
  forall c s, In (c, AStr s) (uses ps args) ->
    Forall (fun x => scalar x /\ x <> 0) s /\ (Forall (fun x => x < 128) s \/ c_width c = None /\ c_prec c = None).

(** ** Interpolated strings: text, and values with what stands after the colon. *)
Inductive spec :=
| SNone
| SWidth (align : option Z) (ds : list Z)   (** < or > *)
| SCenter (ds : list Z)
| SZero (ds : list Z)                       (** for integers *)
| SPrec (zero : bool) (ds : list Z) (p : list Z). (** for floating point numbers; [ds] may be empty *)
Inductive part := PText (u : unit) | PValue (sp : spec) (a : arg).
Definition digits_ok (ds : list Z) : Prop := size_ok pos_digit (Fixed ds).
Definition part_ok (p : part) : Prop :=
  match p with
  | PText u => unit_ok u
  | PValue SNone _ => True
  | PValue (SWidth al ds) _ => (al = None \/ al = Some 60 \/ al = Some 62) /\ digits_ok ds
  | PValue (SCenter ds) _ => digits_ok ds
  | PValue (SZero ds) a => digits_ok ds /\ arg_ty a = TInt
  | PValue (SPrec z ds p) a => (ds = [] /\ z = false \/ digits_ok ds) /\ size_ok dec_digit (Fixed p) /\ arg_ty a = TFloat
  end.
Definition spell_spec (sp : spec) : list Z :=
  match sp with
  | SNone => []
  | SWidth None ds => ds
  | SWidth (Some c) ds => c :: ds
  | SCenter ds => 94 :: ds
  | SZero ds => 48 :: ds
  | SPrec z ds p => (if z then [48] else []) ++ ds ++ 46 :: p ++ [102]
  end.
Variable str_of : arg -> list Z.
Variable center : list Z -> Z -> list Z.
Definition part_value (p : part) : list Z :=
  match p with
  | PText u => unit_value u
  | PValue SNone a => str_of a
  | PValue (SWidth al ds) a => show_str (match al with Some 60 => [45] | _ => [] end) (Some (number 10 ds)) None (str_of a)
  | PValue (SCenter ds) a => center (str_of a) (number 10 ds)
  | PValue (SZero ds) a => match a with AInt n => show_int [48] (Some (number 10 ds)) None 100 n | _ => [] end
  | PValue (SPrec z ds p) a =>
      match a with
      | AFloat f => show_float (if z then [48] else []) (match ds with [] => None | _ => Some (number 10 ds) end) (Some (number 10 p)) 102 f
      | _ => []
      end
  end.
(** The strings put in are without the character 0; and in ASCII, if they are to be padded. *)
Definition shown (p : part) : Prop :=
  match p with
  | PText _ => True
  | PValue (SZero _) _ | PValue (SPrec _ _ _) _ => True
  | PValue (SWidth _ _) a => Forall (fun x => scalar x /\ x <> 0) (str_of a) /\ Forall (fun x => x < 128) (str_of a)
  | PValue SNone a => Forall (fun x => scalar x /\ x <> 0) (str_of a)
  | PValue (SCenter ds) a => Forall (fun x => scalar x /\ x <> 0) (center (str_of a) (number 10 ds))
  end.
End Meaning.
Arguments AInt {F}. Arguments AFloat {F}. Arguments AStr {F}. Arguments PText {F}. Arguments PValue {F}.

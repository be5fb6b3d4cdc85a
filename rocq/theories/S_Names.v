(** Specification of C names: what an identifier is, and the names for which they are distinct. *)
From Coq Require Import List Bool Arith Ascii String.
Import ListNotations.

(** Texts are lists of Unicode code points. *)
Definition text := list nat.
Definition txt (s : string) : text := map nat_of_ascii (list_ascii_of_string s).
Definition is_upper (c : nat) : bool := (65 <=? c) && (c <=? 90).
Definition is_lower (c : nat) : bool := (97 <=? c) && (c <=? 122).
Definition is_digit (c : nat) : bool := (48 <=? c) && (c <=? 57).

(** ** Names inside the compiler: of the program, made of two names, or invented by the compiler
    (Syntax.hs:124-127, without the positions in the source). *)
Inductive prefix := Globvar | Xistvar | Tempvar | Witness | NormPass | CPSPass | LLiftPass | BoxPass.
Inductive name := Name (s : text) | Derived (n s : name) | Internal (p : prefix) (s : text) (i : nat).
(** A name of the runtime system, of the built-in module, of a module, or a local one. *)
Inductive qname := Prim (n : name) | Builtin (n : name) | Global (m : list text) (n : name) | Local (n : name).

(** ** C identifiers, with the $ that C compilers allow. *)
Definition c_start (c : nat) : bool := is_upper c || is_lower c || (c =? 95) || (c =? 36).
Definition c_char (c : nat) : bool := c_start c || is_digit c.
Definition identifier (s : text) : Prop :=
  match s with [] => False | c :: s => c_start c = true /\ forallb c_char s = true end.
(** The keywords of C23, ISO/IEC 9899:2024, 6.4.1. *)
Definition c_keywords : list text := map txt
  ["alignas"; "alignof"; "auto"; "bool"; "break"; "case"; "char"; "const"; "constexpr"; "continue"; "default"; "do"; "double";
   "else"; "enum"; "extern"; "false"; "float"; "for"; "goto"; "if"; "inline"; "int"; "long"; "nullptr"; "register"; "restrict";
   "return"; "short"; "signed"; "sizeof"; "static"; "static_assert"; "struct"; "switch"; "thread_local"; "true"; "typedef";
   "typeof"; "typeof_unqual"; "union"; "unsigned"; "void"; "volatile"; "while"; "_Atomic"; "_BitInt"; "_Complex";
   "_Decimal128"; "_Decimal32"; "_Decimal64"; "_Generic"; "_Imaginary"; "_Noreturn"]%string.

(** ** Names that keep clear of the compiler's own: no A-Z is followed by an underscore, no $. *)
Fixpoint clear_ (s : text) : bool :=
  match s with
  | [] => true
  | c :: s => negb (c =? 36) && negb (is_upper c && match s with d :: _ => d =? 95 | [] => false end) && clear_ s
  end.
Definition clean (s : text) : bool := match s with [] => false | _ => clear_ s end.
Fixpoint good (n : name) : bool :=
  match n with
  | Name s => clean s
  | Internal _ s _ => clear_ s && match s with c :: _ => negb (is_digit c) | [] => true end
  | Derived n s => good n && match s with Derived _ _ => false | _ => good s end
  end.
Definition good_q (q : qname) : bool :=
  match q with
  | Prim n | Builtin n | Local n => good n
  | Global m n => match m with [] => false | _ => forallb clean m end && good n
  end.

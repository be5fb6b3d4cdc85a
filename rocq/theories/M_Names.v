(** Model of the names the compiler gives to C: compiler/lib/src/Acton/Syntax.hs nstr and
    compiler/lib/src/Acton/CodeGen.hs mkCident, unCkeyword and gen of names. *)
From Coq Require Import List Bool Arith Ascii String.
From Verif Require Import S_Names.
Import ListNotations.

(** show and showHex: the digits of n in base b, most significant first. *)
Fixpoint digits_ (fuel b n : nat) (acc : list nat) : list nat :=
  match fuel with
  | O => acc
  | S fuel => let acc := (n mod b) :: acc in if n / b =? 0 then acc else digits_ fuel b (n / b) acc
  end.
Definition digits (b n : nat) : list nat := digits_ (S n) b n [].
Definition digit_char (d : nat) : nat := if d <? 10 then 48 + d else 87 + d.
Definition show_ (n : nat) : text := map digit_char (digits 10 n).
Definition show_hex (n : nat) : text := map digit_char (digits 16 n).

(** Syntax.hs:132-150 nstr.  Its function esc returns its argument: the X it would insert is
    commented out. *)
Definition prefix_char (p : prefix) : nat :=
  match p with
  | Globvar => 71 | Xistvar => 69 | Tempvar => 86 | Witness => 87
  | NormPass => 78 | CPSPass => 67 | LLiftPass => 76 | BoxPass => 85
  end.
Definition unique (i : nat) : text := match i with O => [] | _ => show_ i end.
Fixpoint nstr (n : name) : text :=
  match n with
  | Name s => s
  | Derived n s => match s with Internal _ _ _ => nstr n ++ nstr s | _ => nstr n ++ txt "D_" ++ nstr s end
  | Internal p s i => prefix_char p :: txt "_" ++ unique i ++ s
  end.

(** CodeGen.hs:754-767 mkCident; it has no case for the empty text. *)
Definition hex (c : nat) : text := txt "X_" ++ show_hex c ++ txt "_".
Definition esc (s : text) : text := flat_map (fun c => if c_char c then [c] else hex c) s.
Definition text_eqb (a b : text) : bool := if list_eq_dec Nat.eq_dec a b then true else false.
Definition mk_cident (s : text) : text :=
  if text_eqb s (txt "complex") then txt "complx" else
  if text_eqb s (txt "__complex__") then txt "__complx__" else
  if text_eqb s (txt "complx") then txt "A_complex" else
  if text_eqb s (txt "__complx__") then txt "A___complex__" else
  match s with
  | [] => []
  | c :: s => (if c_start c then [c] else hex c) ++ esc s
  end.

(** CodeGen.hs:769-836 unCkeyword and preEscape. *)
Definition rws : list text := map txt
  ["alignas"; "alignof"; "auto"; "bool"; "break"; "case"; "char"; "const"; "constexpr"; "continue"; "default"; "do"; "double";
   "else"; "enum"; "extern"; "false"; "float"; "for"; "goto"; "if"; "inline"; "int"; "long"; "nullptr"; "register"; "restrict";
   "return"; "short"; "signed"; "sizeof"; "static"; "static_assert"; "struct"; "switch"; "thread_local"; "true"; "typedef";
   "typeof"; "typeof_unqual"; "union"; "unsigned"; "void"; "volatile"; "while"; "_Alignas"; "_Alignof"; "_Atomic"; "_BitInt";
   "_Bool"; "_Complex"; "_Decimal128"; "_Decimal32"; "_Decimal64"; "_Generic"; "_Imaginary"; "_Noreturn"; "_Static_assert";
   "_Thread_local"]%string.
Definition un_ckeyword (s : text) : text := if existsb (text_eqb s) rws then txt "A_" ++ s else s.

(** CodeGen.hs:742-743 gen of a Name. *)
Definition gen_name (n : name) : text := un_ckeyword (mk_cident (nstr n)).
(** CodeGen.hs:729-730 gen of a ModName: hcat of punctuate. *)
Fixpoint gen_mod (m : list text) : text :=
  match m with [] => [] | [c] => gen_name (Name c) | c :: m => gen_name (Name c) ++ txt "Q_" ++ gen_mod m end.
(** CodeGen.hs:732-740 gen of a QName: a name of the runtime system, of the built-in module, of
    another module, or a local one.  rawstr (Syntax.hs:152-153) equals nstr. *)
Definition gen_qname (q : qname) : text :=
  match q with
  | Prim n => txt "$" ++ nstr n
  | Builtin n => txt "B_" ++ nstr n
  | Global m n => gen_mod m ++ txt "Q_" ++ mk_cident (nstr n)
  | Local n => gen_name n
  end.

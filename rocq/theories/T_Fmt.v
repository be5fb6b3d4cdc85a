(** C93: format strings and interpolated strings give the text they describe. *)
From Coq Require Import List ZArith Bool Lia.
From Verif Require Import S_Lit S_Fmt M_Lit M_Fmt P_Fmt P_Fmt2 P_Fmt3.
Import ListNotations.
Open Scope Z_scope.

(** How C writes numbers is given; it writes them in ASCII. *)
Definition ascii_numbers (F : Type) (show_int : list Z -> option Z -> option Z -> Z -> Z -> list Z) (show_float : list Z -> option Z -> option Z -> Z -> F -> list Z) : Prop :=
  (forall fl w p c n, Forall (fun x => 0 <= x < 128) (show_int fl w p c n)) /\ (forall fl w p c f, Forall (fun x => 0 <= x < 128) (show_float fl w p c f)).

(** A format string with arguments that fit gives the text in which every conversion has been replaced
    by its argument.  Missing: the conversions r and a, lengths before s, escapes by number, strings with
    the character 0, other than ASCII strings padded or cut (see the refutations). *)
Theorem C93_format_partial : forall F show_int show_float ps args v,
  ascii_numbers F show_int show_float -> Forall piece_ok ps -> strings_ok F ps args ->
  S_Fmt.value F show_int show_float ps args = Some v ->
  format F show_int show_float (spell ps) args = Bytes (utf8s v).
Proof. intros F si sf ps args v [A B]. apply format_ok; assumption. Qed.

(** Arguments of other types, or too few or too many, are an error when compiling. *)
Theorem C93_wrong_arguments : forall F show_int show_float ps args,
  Forall piece_ok ps -> map (arg_ty F) args <> types ps -> format F show_int show_float (spell ps) args = Rejected.
Proof. intros. apply wrong_types; assumption. Qed.

(** An interpolated string gives its text with the values in their places.  Missing: percent signs in
    the text, signs, fill characters, and types other than f with a precision (see the refutations). *)
Theorem C93_interpolation_partial : forall F show_int show_float str_of center ps,
  ascii_numbers F show_int show_float -> Forall (part_ok F) ps -> Forall (shown F str_of center) ps ->
  interpolate F show_int show_float str_of center (map (source F) ps) = Bytes (utf8s (flat_map (part_value F show_int show_float str_of center) ps)).
Proof. intros F si sf st ce ps [A B]. apply interpolate_ok; assumption. Qed.

(** The conversions r and a, and s with a length, are accepted, and what happens is undefined. *)
Theorem C93_repr_refuted : forall F show_int show_float s,
  format F show_int show_float [37; 114] [AStr s] = Undefined /\
  format F show_int show_float [37; 97] [AStr s] = Undefined /\
  format F show_int show_float [37; 108; 115] [AStr s] = Undefined.
Proof. intros. repeat split. Qed.
(** A percent sign written \x25 is taken for a conversion, when it is too late to check it. *)
Theorem C93_escaped_percent_refuted : forall F show_int show_float,
  format F show_int show_float [92; 120; 50; 53; 115] [] = Undefined.
Proof. intros. reflexivity. Qed.
(** A hexadecimal escape goes on with the digits of the text: \x41b is not Ab. *)
Theorem C93_hex_refuted : forall F show_int show_float,
  format F show_int show_float [92; 120; 52; 49; 98] [] <> Bytes [65; 98].
Proof. intros. vm_compute. discriminate. Qed.
(** Widths and precisions count bytes: e with an accent is padded to 3 with one blank, and cut in two. *)
Theorem C93_width_refuted : forall F show_int show_float,
  format F show_int show_float [37; 51; 115] [AStr [233]] = Bytes (utf8s [32; 233]) /\
  S_Fmt.value F show_int show_float [Item (Conv [] (Some (Fixed [51])) None None 115)] [AStr [233]] = Some [32; 32; 233] /\
  format F show_int show_float [37; 46; 49; 115] [AStr [233]] = Bytes [195].
Proof. intros. repeat split. Qed.
(** A string ends at a character 0. *)
Theorem C93_nul_refuted : forall F show_int show_float,
  format F show_int show_float [37; 115] [AStr [97; 0; 98]] = Bytes [97].
Proof. intros. reflexivity. Qed.
(** A width given as an argument is taken modulo 2^32. *)
Theorem C93_star_refuted : forall F show_int show_float,
  format F show_int show_float [37; 42; 115] [AInt 4294967299; AStr [97]] = Bytes [32; 32; 97].
Proof. intros. reflexivity. Qed.
(** Percent signs in the text of an interpolated string: one is an error, two are one. *)
Theorem C93_percent_in_text_refuted : forall F show_int show_float str_of center a,
  interpolate F show_int show_float str_of center [SExpr a None; SText (Plain 37)] = Rejected /\
  (str_of a = [97] -> interpolate F show_int show_float str_of center [SExpr a None; SText (Plain 37); SText (Plain 37)] = Bytes [97; 37]).
Proof. intros F si sf st ce a. split; [reflexivity|]. intro H. cbn -[format]. rewrite H. reflexivity. Qed.
(** What stands after the colon: {n:5x} is {n:5}, {s:*<5} is {s:<5}, {n:+5} is {n:5}; {n:x} and {x:5f}
    are errors. *)
Theorem C93_spec_refuted : forall F show_int show_float str_of center a,
  let i sp := interpolate F show_int show_float str_of center [SExpr a (Some sp)] in
  i [53; 120] = i [53] /\ i [42; 60; 53] = i [60; 53] /\ i [43; 53] = i [53] /\ i [120] = Rejected /\ i [53; 102] = Rejected.
Proof. intros. repeat split. Qed.

Print Assumptions C93_format_partial.
Print Assumptions C93_wrong_arguments.
Print Assumptions C93_interpolation_partial.
Print Assumptions C93_repr_refuted.
Print Assumptions C93_escaped_percent_refuted.
Print Assumptions C93_hex_refuted.
Print Assumptions C93_width_refuted.
Print Assumptions C93_nul_refuted.
Print Assumptions C93_star_refuted.
Print Assumptions C93_percent_in_text_refuted.
Print Assumptions C93_spec_refuted.

(** "n=%-*d, %5.2s%%\n" with 4, 42 and "abc"; numbers are written with one digit. *)
Definition ex_int (fl : list Z) (w p : option Z) (c n : Z) : list Z := [48 + n mod 10].
Definition ex_float (fl : list Z) (w p : option Z) (c : Z) (f : bool) : list Z := [46].
Definition ex_ps : list piece :=
  [Text (Plain 110); Text (Plain 61); Item (Conv [45] (Some Star) None None 100); Text (Plain 44); Text (Plain 32); Item (Conv [] (Some (Fixed [53])) (Some (Some (Fixed [50]))) None 115); Percent; Text (Esc 110)].
Definition ex_args : list (S_Fmt.arg bool) := [AInt 4; AInt 42; AStr [97; 98; 99]].
Lemma ex_ascii : ascii_numbers bool ex_int ex_float.
Proof.
  split; intros fl w p c x; (apply Forall_cons; [|apply Forall_nil]); [|lia]. assert (0 <= x mod 10 < 10) by (apply Z.mod_pos_bound; lia). lia.
Qed.
Example C93_hypotheses : Forall piece_ok ex_ps /\ strings_ok bool ex_ps ex_args /\
  S_Fmt.value bool ex_int ex_float ex_ps ex_args = Some [110; 61; 50; 44; 32; 32; 32; 32; 97; 98; 37; 10].
Proof.
  split; [|split; [|reflexivity]].
  - unfold ex_ps. repeat (apply Forall_cons; [cbn; unfold scalar, conv_ok; cbn; repeat split; try lia; auto; try (eexists; reflexivity)|]). constructor.
  - intros c s [I|[I|[]]]; [discriminate I|]. injection I as _ <-. split; [repeat constructor; unfold scalar; lia|left; repeat constructor; lia].
Qed.
Example C93_run : format bool ex_int ex_float (spell ex_ps) ex_args = Bytes [110; 61; 50; 44; 32; 32; 32; 32; 97; 98; 37; 10].
Proof. reflexivity. Qed.
(** "{n:<5}|{n:03}{x:.1f}" *)
Definition ex_parts : list (S_Fmt.part bool) :=
  [PValue (SWidth (Some 60) [53]) (AInt 7); PText (Plain 124); PValue (SZero [51]) (AInt 7); PValue (SPrec false [] [49]) (AFloat true)].
Example C93_parts : Forall (part_ok bool) ex_parts /\ Forall (shown bool (fun _ => [55]) (fun s _ => s)) ex_parts /\
  interpolate bool ex_int ex_float (fun _ => [55]) (fun s _ => s) (map (source bool) ex_parts) = Bytes [55; 32; 32; 32; 32; 124; 55; 46].
Proof.
  split; [|split; [|reflexivity]]; unfold ex_parts; repeat (apply Forall_cons; [cbn; unfold digits_ok, scalar; cbn; repeat split; try lia; auto; repeat constructor; lia|]); constructor.
Qed.

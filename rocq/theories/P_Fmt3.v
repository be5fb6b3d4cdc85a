(** Interpolated strings are format strings. *)
From Coq Require Import List ZArith Bool Lia.
From Verif Require Import S_Lit S_Fmt M_Lit M_Fmt P_Fmt P_Fmt2.
Import ListNotations.
Open Scope Z_scope.

Section Run.
Variable F : Type.
Variable show_int : list Z -> option Z -> option Z -> Z -> Z -> list Z.
Variable show_float : list Z -> option Z -> option Z -> Z -> F -> list Z.
Variable str_of : S_Fmt.arg F -> list Z.
Variable center : list Z -> Z -> list Z.
Notation arg := (S_Fmt.arg F).
Notation part := (S_Fmt.part F).

Definition conv_of (sp : spec) : conv :=
  match sp with
  | SNone | SCenter _ => Conv [] None None None 115
  | SWidth al ds => Conv (match al with Some 60 => [45] | _ => [] end) (Some (Fixed ds)) None None 115
  | SZero ds => Conv [48] (Some (Fixed ds)) None None 100
  | SPrec z ds p => Conv (if z then [48] else []) (match ds with [] => None | _ => Some (Fixed ds) end) (Some (Some (Fixed p))) None 102
  end.
Definition arg_of (sp : spec) (a : arg) : arg :=
  match sp with
  | SNone | SWidth _ _ => AStr (str_of a)
  | SCenter ds => AStr (center (str_of a) (number 10 ds))
  | _ => a
  end.
Definition piece_of (p : part) : piece := match p with PText u => Text u | PValue sp _ => Item (conv_of sp) end.
Definition args_of (ps : list part) : list arg := flat_map (fun p => match p with PText _ => [] | PValue sp a => [arg_of sp a] end) ps.
Notation source := (M_Fmt.source F).
Notation shown := (S_Fmt.shown F str_of center).

Lemma digits_facts : forall ds, digits_ok ds -> exists d r, ds = d :: r /\ pos_digit d = true /\ forallb dec_digit ds = true.
Proof. intros [|d r] (A & B & _); [discriminate A|]. exists d, r. auto. Qed.
Lemma digit1_ok : forall ds h t, forallb dec_digit ds = true -> ds <> [] -> dec_digit h = false -> digit1 (ds ++ h :: t) = (Some ds, h :: t).
Proof. intros ds h t A B C. unfold digit1. rewrite span_app; [|exact A|cbn; exact C]. destruct ds; [contradiction|reflexivity]. Qed.
Lemma digit_cases : forall d, dec_digit d = true -> In d [48; 49; 50; 51; 52; 53; 54; 55; 56; 57].
Proof. intros d H. unfold dec_digit in H. apply andb_prop in H. destruct H as [A B]. apply Z.leb_le in A, B. cbn. lia. Qed.
Lemma pos_cases : forall d, pos_digit d = true -> In d [49; 50; 51; 52; 53; 54; 55; 56; 57].
Proof. intros d H. unfold pos_digit in H. apply andb_prop in H. destruct H as [A B]. apply Z.leb_le in A, B. cbn. lia. Qed.
Definition head_fine (s : list Z) : Prop := exists c r, s = c :: r /\ is_align c = false /\ isin c [43; 45] = false /\ (c =? 35) = false.

(** What the parser does with the text, once it is past blanks, fill and alignment. *)
Lemma spec_width : forall al ds, (al = None \/ al = Some 60 \/ al = Some 62) -> digits_ok ds ->
  format_spec (spell_spec (SWidth al ds) ++ [125]) = Some ((match al with Some 60 => [45] | _ => [] end) ++ ds ++ [115], false, false, None).
Proof.
  intros al ds A D. destruct (digits_facts ds D) as (d & r & -> & P & DD).
  assert (D1 := digit1_ok (d :: r) 125 [] DD ltac:(discriminate) eq_refl). cbn [app] in D1.
  assert (N : forall a t, r ++ [125] = a :: t -> is_align a = false).
  { intros a t E. destruct r as [|x r]; cbn [app] in E; injection E as <- _; [reflexivity|]. cbn [forallb] in DD. apply andb_prop in DD. destruct DD as [_ DD]. apply andb_prop in DD. destruct DD as [DD _]. apply digit_cases in DD. repeat (destruct DD as [<-|DD]; [reflexivity|]). destruct DD. }
  destruct (r ++ [125]) as [|a t] eqn:E; [destruct r; discriminate E|]. specialize (N a t eq_refl).
  apply pos_cases in P. destruct A as [->|[->| ->]]; cbn [spell_spec app]; rewrite E; clear E;
    repeat (destruct P as [<-|P]; [cbv [format_spec]; cbn [span Z.eqb Pos.eqb snd isin existsb orb negb hd_is is_align andb]; unfold is_align in N; cbn [isin existsb] in N; cbn -[digit1 isin]; unfold isin; cbn [existsb Z.eqb Pos.eqb orb]; try rewrite N; cbn [existsb Z.eqb Pos.eqb orb negb]; rewrite ?D1; reflexivity|]); destruct P.
Qed.
Lemma dig_head : forall r h t, forallb dec_digit r = true -> is_align h = false -> exists a t', r ++ h :: t = a :: t' /\ is_align a = false.
Proof.
  intros [|x r] h t D H; cbn [app]; eexists _, _; (split; [reflexivity|]); [exact H|]. cbn [forallb] in D. apply andb_prop in D. destruct D as [D _]. apply digit_cases in D. repeat (destruct D as [<-|D]; [reflexivity|]). destruct D.
Qed.
Lemma spec_center : forall ds, digits_ok ds -> format_spec (spell_spec (SCenter ds) ++ [125]) = Some ([115], false, false, Some ds).
Proof.
  intros ds D. destruct (digits_facts ds D) as (d & r & -> & P & DD).
  assert (D1 := digit1_ok (d :: r) 125 [] DD ltac:(discriminate) eq_refl). cbn [app] in D1. cbn [spell_spec app]. destruct (r ++ [125]) as [|a t] eqn:E; [destruct r; discriminate E|]. clear E.
  apply pos_cases in P. repeat (destruct P as [<-|P]; [cbn -[digit1]; rewrite D1; reflexivity|]). destruct P.
Qed.
Lemma spec_zero : forall ds, digits_ok ds -> format_spec (spell_spec (SZero ds) ++ [125]) = Some (48 :: ds ++ [100], true, false, None).
Proof.
  intros ds D. destruct (digits_facts ds D) as (d & r & -> & P & DD).
  assert (D1 := digit1_ok (d :: r) 125 [] DD ltac:(discriminate) eq_refl). cbn [app] in D1. cbn [spell_spec app].
  apply pos_cases in P. repeat (destruct P as [<-|P]; [cbn -[digit1]; rewrite D1; reflexivity|]). destruct P.
Qed.
Lemma spec_prec0 : forall p, size_ok dec_digit (Fixed p) -> format_spec (spell_spec (SPrec false [] p) ++ [125]) = Some (46 :: p ++ [102], false, true, None).
Proof.
  intros p (A & B & _). destruct p as [|d r]; [discriminate A|]. cbn [hd_is] in A.
  assert (D1 := digit1_ok (d :: r) 102 [125] B ltac:(discriminate) eq_refl). cbn [app] in D1. cbn [spell_spec app]. rewrite <- app_assoc. cbn [app].
  apply digit_cases in A. repeat (destruct A as [<-|A]; [cbn -[digit1]; unfold digit1 at 1; cbn -[digit1]; rewrite D1; reflexivity|]). destruct A.
Qed.
Lemma spec_prec : forall z ds p, digits_ok ds -> size_ok dec_digit (Fixed p) -> format_spec (spell_spec (SPrec z ds p) ++ [125]) = Some ((if z then [48] else []) ++ ds ++ 46 :: p ++ [102], z, true, None).
Proof.
  intros z ds p D (A & B & _). destruct (digits_facts ds D) as (d & r & -> & P & DD). destruct p as [|d2 r2]; [discriminate A|].
  assert (D2 := digit1_ok (d2 :: r2) 102 [125] B ltac:(discriminate) eq_refl). cbn [app] in D2.
  assert (D1 := digit1_ok (d :: r) 46 ((d2 :: r2) ++ [102; 125]) DD ltac:(discriminate) eq_refl). cbn [app] in D1.
  assert (DR : forallb dec_digit r = true) by (cbn [forallb] in DD; apply andb_prop in DD; tauto).
  destruct (dig_head r 46 ((d2 :: r2) ++ [102; 125]) DR eq_refl) as (a & t & E & N).
  cbn [spell_spec]. destruct z; cbn [app] in *; rewrite <- !app_assoc; cbn [app]; rewrite <- !app_assoc; cbn [app]; rewrite E in *;
  apply pos_cases in P; repeat (destruct P as [<-|P]; [cbv [format_spec]; cbn -[digit1 is_align]; try rewrite N; cbn -[digit1]; rewrite D1; cbn -[digit1]; rewrite D2; reflexivity|]); destruct P.
Qed.

Lemma expr_ok : forall sp a, part_ok F (PValue sp a) -> expr_part F str_of center a (match sp with SNone => None | _ => Some (spell_spec sp) end) = Some (tl (spell_conv (conv_of sp)), arg_of sp a).
Proof.
  intros [|al ds|ds|ds|z ds p] a OK; cbn [part_ok] in OK; unfold expr_part.
  - reflexivity.
  - destruct OK as [A D]. rewrite spec_width by assumption. destruct A as [->|[->| ->]]; reflexivity.
  - rewrite spec_center by exact OK. reflexivity.
  - rewrite spec_zero by apply OK. reflexivity.
  - destruct OK as (A & B & _). destruct A as [[-> ->]|A].
    + rewrite spec_prec0 by exact B. reflexivity.
    + rewrite spec_prec by assumption. destruct (digits_facts ds A) as (d & r & -> & _). rewrite orb_true_r. unfold spell_conv, conv_of. cbn [c_flags c_width c_prec c_len c_letter spell_size tl]. destruct z; cbn [app]; rewrite <- ?app_assoc; reflexivity.
Qed.
Lemma parts_ok : forall ps, Forall (part_ok F) ps -> parts F str_of center (map source ps) = Some (spell (map piece_of ps), args_of ps).
Proof.
  induction ps as [|p ps IH]; intro H; [reflexivity|]. inversion H as [|? ? H1 H2]; subst. specialize (IH H2). destruct p as [u|sp a].
  - cbn [map M_Fmt.source parts]. rewrite IH. reflexivity.
  - assert (E : parts F str_of center (map source (PValue sp a :: ps)) = match expr_part F str_of center a (match sp with SNone => None | _ => Some (spell_spec sp) end), parts F str_of center (map source ps) with Some (fmt, a'), Some (s, args) => Some (37 :: fmt ++ s, a' :: args) | _, _ => None end) by (destruct sp; reflexivity).
    rewrite E, expr_ok, IH by exact H1. reflexivity.
Qed.
Lemma conv_of_ok : forall sp a, part_ok F (PValue sp a) -> conv_ok (conv_of sp).
Proof.
  intros [|al ds|ds|ds|z ds p] a OK; unfold conv_ok; cbn [conv_of c_flags c_width c_prec c_len c_letter part_ok] in *.
  - repeat split; auto.
  - destruct OK as [A D]. split; [destruct A as [->|[->| ->]]; reflexivity|]. split; [exact D|]. repeat split; auto.
  - repeat split; auto.
  - split; [reflexivity|]. split; [apply OK|]. repeat split; auto.
  - destruct OK as (A & B & _). split; [destruct z; reflexivity|]. split; [destruct A as [[-> _]|A]; [exact I|destruct ds; [exact I|exact A]]|]. split; [exact B|]. split; [exact I|]. right. left. reflexivity.
Qed.
Lemma piece_of_ok : forall ps, Forall (part_ok F) ps -> Forall piece_ok (map piece_of ps).
Proof.
  intros ps H. apply Forall_map. eapply Forall_impl; [|exact H]. intros [u|sp a] OK; [exact OK|apply (conv_of_ok sp a OK)].
Qed.
Lemma conv_of_value : forall sp a rest, part_ok F (PValue sp a) -> conv_value F show_int show_float (conv_of sp) (arg_of sp a :: rest) = Some (part_value F show_int show_float str_of center (PValue sp a), rest).
Proof.
  intros [|al ds|ds|ds|z ds p] a rest OK; cbn [part_ok] in OK; try reflexivity.
  - destruct OK as [_ OK]. destruct a; try discriminate OK. reflexivity.
  - destruct OK as (A & _ & OK). destruct a; try discriminate OK. destruct ds; reflexivity.
Qed.
Lemma value_of : forall ps, Forall (part_ok F) ps -> S_Fmt.value F show_int show_float (map piece_of ps) (args_of ps) = Some (flat_map (part_value F show_int show_float str_of center) ps).
Proof.
  induction ps as [|p ps IH]; intro H; [reflexivity|]. inversion H as [|? ? H1 H2]; subst. specialize (IH H2). destruct p as [u|sp a].
  - cbn [map piece_of S_Fmt.value]. change (args_of (PText u :: ps)) with (args_of ps). rewrite IH. reflexivity.
  - cbn [map piece_of S_Fmt.value]. change (args_of (PValue sp a :: ps)) with (arg_of sp a :: args_of ps). rewrite conv_of_value by exact H1. rewrite IH. reflexivity.
Qed.
Lemma operand_of : forall sp a rest, operand F (conv_of sp) (arg_of sp a :: rest) = Some (arg_of sp a, rest).
Proof. intros [|al ds|ds|ds|z ds p] a rest; try reflexivity. destruct ds; reflexivity. Qed.
Lemma strings_of : forall ps, Forall (part_ok F) ps -> Forall shown ps -> strings_ok F (map piece_of ps) (args_of ps).
Proof.
  induction ps as [|p ps IH]; intros H HS c s I; [destruct I|]. inversion H as [|? ? H1 H2]; subst. inversion HS as [|? ? S1 S2]; subst. destruct p as [u|sp a].
  - apply (IH H2 S2 c s I).
  - cbn [map piece_of uses] in I. change (args_of (PValue sp a :: ps)) with (arg_of sp a :: args_of ps) in I. rewrite operand_of in I. destruct I as [I|I]; [|apply (IH H2 S2 c s I)].
    injection I as <- E. destruct sp as [|al ds|ds|ds|z ds p]; cbn [arg_of S_Fmt.shown part_ok conv_of c_width c_prec] in *.
    + injection E as <-. auto.
    + injection E as <-. tauto.
    + injection E as <-. auto.
    + subst a. destruct H1 as [_ X]; discriminate X.
    + subst a. destruct H1 as (_ & _ & X); discriminate X.
Qed.
Hypothesis int_ascii : forall fl w p c n, Forall (fun x => 0 <= x < 128) (show_int fl w p c n).
Hypothesis float_ascii : forall fl w p c f, Forall (fun x => 0 <= x < 128) (show_float fl w p c f).
Lemma interpolate_ok : forall ps, Forall (part_ok F) ps -> Forall shown ps ->
  interpolate F show_int show_float str_of center (map source ps) = Bytes (utf8s (flat_map (part_value F show_int show_float str_of center) ps)).
Proof.
  intros ps OK SH. unfold interpolate. rewrite parts_ok by exact OK. apply (format_ok F show_int show_float int_ascii float_ascii); [apply piece_of_ok, OK|apply strings_of; assumption|apply value_of, OK].
Qed.
End Run.

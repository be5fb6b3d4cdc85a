(** Format strings: proofs. *)
From Coq Require Import List ZArith Bool Lia.
From Verif Require Import S_Lit S_Fmt M_Lit M_Fmt.
Import ListNotations.
Open Scope Z_scope.

Definition tailc (h : Z) : bool := is_len h || is_int h || is_float h || (h =? 115).
Ltac enum H := unfold tailc, is_len, is_int, is_float, is_flag, isin in H; cbn [existsb] in H; rewrite ?orb_true_iff, ?Z.eqb_eq in H;
  repeat match type of H with _ \/ _ => destruct H as [H|H] end; try discriminate H; subst.
Lemma tailc_facts : forall h, tailc h = true ->
  isin h flagset = false /\ (h =? 42) = false /\ (h =? 46) = false /\ (h =? 40) = false /\ (h =? 37) = false /\ dec_digit h = false /\ pos_digit h = false /\
  (h =? 92) = false /\ (h =? 34) = false /\ (h =? 10) = false /\ (h =? 13) = false /\ (h =? 0) = false /\ utf8 h = [h].
Proof. intros h H. enum H; repeat split; reflexivity. Qed.
Lemma flag_facts : forall h, is_flag h = true -> (h =? 92) = false /\ (h =? 34) = false /\ (h =? 10) = false /\ (h =? 13) = false /\ (h =? 0) = false /\ (h =? 40) = false /\ utf8 h = [h].
Proof. intros h H. enum H; repeat split; reflexivity. Qed.
Lemma dec_range : forall h, dec_digit h = true -> 48 <= h <= 57.
Proof. intros h H. unfold dec_digit in H. apply andb_prop in H. destruct H as [H1 H2]. apply Z.leb_le in H1, H2. lia. Qed.
Lemma pos_range : forall h, pos_digit h = true -> 49 <= h <= 57.
Proof. intros h H. unfold pos_digit in H. apply andb_prop in H. destruct H as [H1 H2]. apply Z.leb_le in H1, H2. lia. Qed.
Lemma in_range : forall h a b, a <= h <= b -> forall x, (x < a \/ b < x) -> (h =? x) = false.
Proof. intros. apply Z.eqb_neq. lia. Qed.
Lemma utf8_ascii : forall h, h < 128 -> utf8 h = [h].
Proof. intros h H. unfold utf8. apply Z.ltb_lt in H. rewrite H. reflexivity. Qed.
Lemma dec_facts : forall h, dec_digit h = true -> (h =? 42) = false /\ (h =? 92) = false /\ (h =? 34) = false /\ (h =? 10) = false /\ (h =? 13) = false /\ (h =? 0) = false /\ (h =? 40) = false /\ utf8 h = [h].
Proof. intros h H. apply dec_range in H. repeat split; try (apply (in_range _ 48 57 H); lia). apply utf8_ascii. lia. Qed.
Lemma pos_facts : forall h, pos_digit h = true -> isin h flagset = false /\ (h =? 42) = false /\ dec_digit h = true.
Proof.
  intros h H. apply pos_range in H. split; [|split; [apply (in_range _ 49 57 H); lia|unfold dec_digit; apply andb_true_intro; split; apply Z.leb_le; lia]].
  unfold isin, flagset. cbn [existsb]. rewrite !(in_range _ 49 57 H) by lia. reflexivity.
Qed.
Lemma span_app : forall p l s, forallb p l = true -> hd_is p s = false -> span p (l ++ s) = (l, s).
Proof.
  intros p. induction l as [|c l IH]; intros s A B; cbn [app forallb span] in *.
  - destruct s as [|c s]; [reflexivity|]. cbn [hd_is span] in *. rewrite B. reflexivity.
  - apply andb_prop in A. destruct A as [A1 A2]. rewrite A1, (IH s A2 B). reflexivity.
Qed.

(** ** The parts of a conversion. *)
Definition W (z : option size) : list Z := match z with Some z => spell_size z | None => [] end.
Definition P (z : option (option size)) : list Z := match z with None => [] | Some None => [46] | Some (Some z) => 46 :: spell_size z end.
Definition L (z : option Z) : list Z := match z with Some l => [l] | None => [] end.
Definition w_ok (z : option size) : Prop := match z with Some z => size_ok pos_digit z | None => True end.
Definition p_ok (z : option (option size)) : Prop := match z with Some (Some z) => size_ok dec_digit z | _ => True end.
Definition l_ok (l : option Z) (c : Z) : Prop :=
  match l with Some l => is_len l = true | None => True end /\ (is_int c = true \/ is_float c = true \/ (c = 115 /\ l = None)).
Definition after (h : Z) : Prop := isin h flagset = false /\ (h =? 42) = false /\ dec_digit h = false /\ pos_digit h = false.
Lemma tailc_after : forall h, tailc h = true -> after h.
Proof. intros h H. destruct (tailc_facts h H) as (A & B & _ & _ & _ & C & D & _). split; [exact A|]. split; [exact B|]. split; [exact C|exact D]. Qed.
Lemma letter_tail : forall l c, l_ok l c -> tailc c = true.
Proof. intros l c [_ [H|[H|[-> _]]]]; unfold tailc; rewrite ?H, ?orb_true_r; reflexivity. Qed.
Lemma L_head : forall l c t, l_ok l c -> exists h t', L l ++ c :: t = h :: t' /\ tailc h = true.
Proof.
  intros [l|] c t H; cbn [L app]; eexists; eexists; (split; [reflexivity|]); [|apply (letter_tail _ _ H)]. destruct H as [H _]. unfold tailc. rewrite H. reflexivity.
Qed.
Lemma P_head : forall p h t, tailc h = true -> exists h' t', P p ++ h :: t = h' :: t' /\ after h'.
Proof. intros [[z|]|] h t H; cbn [P app]; eexists; eexists; (split; [reflexivity|]); try (repeat split; reflexivity). apply tailc_after, H. Qed.
Lemma W_head : forall w h t, w_ok w -> after h -> hd_is (fun c => isin c flagset) (W w ++ h :: t) = false.
Proof.
  intros [[ds|]|] h t H A; cbn [W spell_size app]; [|reflexivity|apply A]. destruct H as (H & _). destruct ds as [|d ds]; [discriminate H|]. cbn [app hd_is] in *. apply (pos_facts d H).
Qed.
Lemma digits_span : forall ds h t, forallb dec_digit ds = true -> dec_digit h = false -> span dec_digit (ds ++ h :: t) = (ds, h :: t).
Proof. intros ds h t A B. apply span_app; assumption. Qed.

(** *** Types.hs *)
Lemma t_width_ok : forall w h t, w_ok w -> after h -> t_width (W w ++ h :: t) = (size_ty w, h :: t).
Proof.
  intros [[ds|]|] h t H (A & B & C & D); cbn [W spell_size app size_ty]; [|reflexivity|].
  - destruct H as (H & G & _). destruct ds as [|d ds]; [discriminate H|]. cbn [hd_is forallb app t_width] in *. apply andb_prop in G. destruct (pos_facts d H) as (_ & -> & _). rewrite H, digits_span by (try apply G; exact C). reflexivity.
  - unfold t_width. rewrite B, D. reflexivity.
Qed.
Lemma t_dot_ok : forall p h t, p_ok p -> tailc h = true -> t_dot (P p ++ h :: t) = (match p with Some z => size_ty z | None => [] end, h :: t).
Proof.
  intros p h t H T. destruct (tailc_facts h T) as (_ & A & B & _ & _ & C & _). destruct p as [[[ds|]|]|]; cbn [P spell_size app size_ty t_dot]; try reflexivity.
  - destruct H as (H & G & _). destruct ds as [|d ds]; [discriminate H|]. cbn [hd_is forallb app] in *. apply andb_prop in G. cbn [Z.eqb Pos.eqb t_prec]. destruct (dec_facts d H) as (-> & _). rewrite H, digits_span by (try apply G; exact C). reflexivity.
  - cbn [Z.eqb Pos.eqb t_prec]. rewrite A, C. reflexivity.
  - rewrite B. reflexivity.
Qed.
Lemma len_letter : forall l c, l_ok l c -> isin c [104; 108; 76] = false.
Proof. intros l c [_ [H|[H|[-> _]]]]; [| |reflexivity]; enum H; reflexivity. Qed.
Lemma t_len_ok : forall l c t, l_ok l c -> t_len (L l ++ c :: t) = c :: t.
Proof. intros [l|] c t H; cbn [L app t_len]; [destruct H as [H _]; unfold is_len in H; rewrite H; reflexivity|]. rewrite (len_letter _ _ H). reflexivity. Qed.
Lemma float_not_int : forall c, is_float c = true -> is_int c = false.
Proof. intros c H. enum H; reflexivity. Qed.
Lemma t_conv_ok : forall l c t, l_ok l c -> t_conv (c :: t) = Some ([letter_ty c], t).
Proof.
  intros l c t [_ H]. unfold t_conv, letter_ty. fold (is_int c) (is_float c). destruct H as [H|[H|[-> _]]]; [rewrite H; reflexivity| |reflexivity]. rewrite (float_not_int c H), H. reflexivity.
Qed.
Lemma conv_parts : forall c, conv_ok c -> forallb is_flag (c_flags c) = true /\ w_ok (c_width c) /\ p_ok (c_prec c) /\ l_ok (c_len c) (c_letter c).
Proof. intros c (A & B & C & D & E). split; [exact A|]. split; [exact B|]. split; [exact C|]. split; assumption. Qed.
Lemma conv_spell : forall c t, spell_conv c ++ t = 37 :: c_flags c ++ W (c_width c) ++ P (c_prec c) ++ L (c_len c) ++ c_letter c :: t.
Proof. intros c t. unfold spell_conv. cbn [app]. rewrite <- !app_assoc. reflexivity. Qed.
Lemma t_spec_ok : forall c t, conv_ok c -> t_spec (c_flags c ++ W (c_width c) ++ P (c_prec c) ++ L (c_len c) ++ c_letter c :: t) = Some (piece_ty (Item c), t).
Proof.
  intros c t H. apply conv_parts in H. destruct H as (A & B & C & D). destruct (L_head _ _ t D) as (h & t1 & E1 & T). destruct (P_head (c_prec c) h t1 T) as (h2 & t2 & E2 & AF).
  unfold t_spec. rewrite E1, E2.
  assert (G : hd_is (Z.eqb 40) (c_flags c ++ W (c_width c) ++ h2 :: t2) = false).
  { destruct (c_flags c) as [|f fs].
    - cbn [app]. destruct (c_width c) as [[[|d ds]|]|]; cbn [W spell_size app hd_is]; try reflexivity; [destruct B as (B & _); discriminate B| |].
      + destruct B as (B & _). cbn [hd_is] in B. apply pos_range in B. apply Z.eqb_neq. lia.
      + destruct (c_prec c) as [[z|]|]; cbn [P app] in E2; injection E2 as <- _; try reflexivity. rewrite Z.eqb_sym. apply (tailc_facts h T).
    - cbn [app hd_is forallb] in *. apply andb_prop in A. rewrite Z.eqb_sym. apply (flag_facts f), A. }
  rewrite G. unfold t_flags. rewrite span_app; [|exact A|apply W_head; assumption]. cbn [snd]. rewrite t_width_ok by assumption. rewrite <- E2, t_dot_ok by assumption. rewrite <- E1, (t_len_ok _ _ _ D), (t_conv_ok _ _ _ D). reflexivity.
Qed.
Lemma unit_chars : forall u, unit_ok u -> Forall (fun c => (c =? 37) = false) (spell_unit u).
Proof.
  intros [c|c] H; cbn [spell_unit]; repeat constructor; [apply Z.eqb_neq; apply H|]. destruct H as [x H]. apply Z.eqb_neq. intros ->. discriminate H.
Qed.
Lemma t_skip : forall l n s, Forall (fun c => (c =? 37) = false) l -> (length l + length s <= n)%nat -> exists n', (length s <= n')%nat /\ t_format n (l ++ s) = t_format n' s.
Proof.
  induction l as [|c l IH]; intros n s F N; [exists n; auto|]. destruct n as [|n]; [cbn in N; lia|]. inversion F as [|? ? F1 F2]; subst. cbn [app t_format]. rewrite F1. apply IH; [exact F2|cbn in N; lia].
Qed.
Lemma t_format_ok : forall ps n, Forall piece_ok ps -> (length (spell ps) <= n)%nat -> t_format n (spell ps) = Some (types ps).
Proof.
  induction ps as [|p ps IH]; intros n F N; [destruct n; reflexivity|]. inversion F as [|? ? F1 F2]; subst. change (spell (p :: ps)) with (spell_piece p ++ spell ps) in *. rewrite app_length in N. destruct p as [u| |c]; cbn [spell_piece] in *.
  - destruct (t_skip (spell_unit u) n (spell ps) (unit_chars u F1) N) as (n' & N' & ->). apply IH; assumption.
  - destruct n as [|n]; [cbn in N; lia|]. cbn [app t_format Z.eqb Pos.eqb]. change (t_spec (37 :: spell ps)) with (Some (@nil ty, spell ps)). cbn iota. rewrite IH; [reflexivity|exact F2|cbn in N; lia].
  - rewrite conv_spell. destruct n as [|n]; [cbn in N; lia|]. cbn [t_format Z.eqb Pos.eqb]. rewrite t_spec_ok by exact F1. rewrite IH; [reflexivity|exact F2|]. unfold spell_conv in N. cbn [app length] in N. lia.
Qed.

(** *** Normalizer.hs, formatLit and the C compiler. *)
Definition norm (c : conv) : conv :=
  Conv (c_flags c) (c_width c) (c_prec c) (match c_len c with Some _ => Some 108 | None => if is_int (c_letter c) then Some 108 else None end) (c_letter c).
Definition esc_unit (u : unit) : list Z := match u with Plain c => if c =? 34 then [92; 34] else [c] | Esc c => [92; c] end.
Definition esc_piece (p : piece) : list Z := match p with Text u => esc_unit u | Percent => [37; 37] | Item c => spell_conv c end.
Definition lit_piece (p : piece) : list Z := match p with Text u => esc_unit u | Percent => [37; 37] | Item c => spell_conv (norm c) end.
Definition byte_piece (p : piece) : list Z := match p with Text u => utf8s (unit_value u) | Percent => [37; 37] | Item c => spell_conv (norm c) end.
Definition plain_char (c : Z) : Prop := (c =? 92) = false /\ (c =? 34) = false /\ (c =? 10) = false /\ (c =? 13) = false /\ utf8 c = [c].
Lemma dec_plain : forall ds, forallb dec_digit ds = true -> Forall plain_char ds.
Proof. induction ds as [|d ds IH]; intro H; [constructor|]. cbn [forallb] in H. apply andb_prop in H. constructor; [|apply IH, H]. destruct (dec_facts d (proj1 H)) as (_ & A & B & C & D & _ & _ & E). repeat split; assumption. Qed.
Lemma tail_plain : forall h, tailc h = true -> plain_char h.
Proof. intros h H. destruct (tailc_facts h H) as (_ & _ & _ & _ & _ & _ & _ & A & B & C & D & _ & E). repeat split; assumption. Qed.
Lemma conv_plain : forall c, conv_ok c -> Forall plain_char (spell_conv c).
Proof.
  intros c H. apply conv_parts in H. destruct H as (A & B & C & D). rewrite <- (app_nil_r (spell_conv c)), conv_spell. constructor; [repeat split; reflexivity|]. repeat (apply Forall_app; split).
  - clear -A. induction (c_flags c) as [|f fs IH]; [constructor|]. cbn [forallb] in A. apply andb_prop in A. constructor; [|apply IH, A]. destruct (flag_facts f (proj1 A)) as (X1 & X2 & X3 & X4 & _ & _ & X5). repeat split; assumption.
  - destruct (c_width c) as [[ds|]|]; cbn [W spell_size]; [apply dec_plain, B|repeat constructor|constructor].
  - destruct (c_prec c) as [[[ds|]|]|]; cbn [P spell_size]; [constructor; [repeat split; reflexivity|apply dec_plain, C]| | |constructor]; repeat constructor.
  - destruct (c_len c) as [l|]; cbn [L]; repeat constructor; destruct D as [D _]; assert (T : tailc l = true) by (unfold tailc; rewrite D; reflexivity); apply (tail_plain l T).
  - constructor; [|constructor]. apply tail_plain, (letter_tail _ _ D).
Qed.
Lemma norm_ok : forall c, conv_ok c -> conv_ok (norm c).
Proof.
  intros c (A & B & C & D & E). unfold conv_ok, norm. cbn [c_flags c_width c_prec c_len c_letter]. split; [exact A|]. split; [exact B|]. split; [exact C|]. split.
  - destruct (c_len c); [reflexivity|]. destruct (is_int (c_letter c)); [reflexivity|exact I].
  - destruct E as [E|[E|[E1 E2]]]; [left; exact E|right; left; exact E|]. right. right. split; [exact E1|]. rewrite E1, E2. reflexivity.
Qed.
Lemma escape_char : forall c s, (c =? 92) = false -> escape 34 (c :: s) = (if c =? 34 then [92; 34] else [c]) ++ escape 34 s.
Proof. intros c [|x s] H; cbn [escape]; [destruct (Z.eqb_spec c 34) as [->|]; reflexivity|]. rewrite H. destruct (Z.eqb_spec c 34) as [->|]; reflexivity. Qed.
Lemma escape_plain : forall l s, Forall plain_char l -> escape 34 (l ++ s) = l ++ escape 34 s.
Proof. induction l as [|c l IH]; intros s H; [reflexivity|]. inversion H as [|? ? (A & B & _) H2]; subst. cbn [app]. rewrite escape_char by exact A. rewrite B. cbn [app]. rewrite IH by exact H2. reflexivity. Qed.
Lemma escape_spell : forall ps, Forall piece_ok ps -> escape 34 (spell ps) = flat_map esc_piece ps.
Proof.
  induction ps as [|p ps IH]; intro F; [reflexivity|]. inversion F as [|? ? F1 F2]; subst. change (spell (p :: ps)) with (spell_piece p ++ spell ps). cbn [flat_map]. rewrite <- IH by exact F2. destruct p as [[c|c]| |c]; cbn [spell_piece spell_unit esc_piece esc_unit].
  - cbn [app]. apply escape_char. apply Z.eqb_neq, F1.
  - cbn [app escape]. reflexivity.
  - apply (escape_plain [37; 37]). repeat constructor.
  - apply escape_plain, conv_plain, F1.
Qed.
Lemma f_width_ok : forall w h t, w_ok w -> after h -> f_width (W w ++ h :: t) = (W w, h :: t).
Proof.
  intros [[ds|]|] h t H (A & B & C & D); cbn [W spell_size app]; [|reflexivity|].
  - destruct H as (H & G & _). destruct ds as [|d ds]; [discriminate H|]. cbn [hd_is forallb app f_width] in *. apply andb_prop in G. destruct (pos_facts d H) as (_ & -> & _). rewrite H, digits_span by (try apply G; exact C). reflexivity.
  - unfold f_width. rewrite B, D. reflexivity.
Qed.
Lemma f_dot_ok : forall p h t, p_ok p -> tailc h = true -> f_dot (P p ++ h :: t) = (P p, h :: t).
Proof.
  intros p h t H T. destruct (tailc_facts h T) as (_ & A & B & _ & _ & C & _). destruct p as [[[ds|]|]|]; cbn [P spell_size app f_dot]; try reflexivity.
  - destruct H as (H & G & _). destruct ds as [|d ds]; [discriminate H|]. cbn [hd_is forallb app] in *. apply andb_prop in G. cbn [Z.eqb Pos.eqb f_prec]. destruct (dec_facts d H) as (-> & _). rewrite H, digits_span by (try apply G; exact C). reflexivity.
  - cbn [Z.eqb Pos.eqb f_prec]. rewrite A, C. reflexivity.
  - rewrite B. reflexivity.
Qed.
Lemma f_len_ok : forall l c t, l_ok l c -> f_len (L l ++ c :: t) = (L (match l with Some _ => Some 108 | None => if is_int c then Some 108 else None end), c :: t).
Proof.
  intros [l|] c t H; cbn [L app f_len]; [destruct H as [H _]; unfold is_len in H; rewrite H; reflexivity|]. rewrite (len_letter _ _ H). fold (is_int c). destruct (is_int c); reflexivity.
Qed.
Lemma f_spec_ok : forall c t, conv_ok c -> f_spec (c_flags c ++ W (c_width c) ++ P (c_prec c) ++ L (c_len c) ++ c_letter c :: t) = Some (tl (spell_conv (norm c)), t).
Proof.
  intros c t H. apply conv_parts in H. destruct H as (A & B & C & D). destruct (L_head _ _ t D) as (h & t1 & E1 & T). destruct (P_head (c_prec c) h t1 T) as (h2 & t2 & E2 & AF).
  unfold f_spec. rewrite E1, E2. rewrite span_app; [|exact A|apply W_head; assumption]. rewrite f_width_ok by assumption. rewrite <- E2, f_dot_ok by assumption. rewrite <- E1, (f_len_ok _ _ _ D). reflexivity.
Qed.
Lemma esc_chars : forall u, unit_ok u -> Forall (fun c => (c =? 37) = false) (esc_unit u).
Proof.
  intros [c|c] H; cbn [esc_unit]; [destruct (c =? 34); repeat constructor; apply Z.eqb_neq, H|]. repeat constructor. destruct H as [x H]. apply Z.eqb_neq. intros ->. discriminate H.
Qed.
Lemma f_skip : forall l n s out, Forall (fun c => (c =? 37) = false) l -> (length l + length s <= n)%nat -> (forall n', (length s <= n')%nat -> format_lit n' s = Some out) -> format_lit n (l ++ s) = Some (l ++ out).
Proof.
  induction l as [|c l IH]; intros n s out F N H; [apply H; exact N|]. destruct n as [|n]; [cbn in N; lia|]. inversion F as [|? ? F1 F2]; subst. cbn [app format_lit]. rewrite F1, (IH n s out F2); [reflexivity|cbn in N; lia|exact H].
Qed.
Lemma format_lit_ok : forall ps n rest out, Forall piece_ok ps -> (length (flat_map esc_piece ps) + length rest <= n)%nat -> (forall n', (length rest <= n')%nat -> format_lit n' rest = Some out) ->
  format_lit n (flat_map esc_piece ps ++ rest) = Some (flat_map lit_piece ps ++ out).
Proof.
  induction ps as [|p ps IH]; intros n rest out F N H; [apply H; cbn in N; lia|]. inversion F as [|? ? F1 F2]; subst. cbn [flat_map] in *. rewrite app_length in N. rewrite <- !app_assoc. destruct p as [u| |c]; cbn [esc_piece lit_piece] in *.
  - apply f_skip; [apply esc_chars, F1|rewrite app_length; lia|]. intros n' N'. rewrite app_length in N'. apply IH; assumption.
  - destruct n as [|n]; [cbn in N; lia|]. cbn [app format_lit Z.eqb Pos.eqb].
    change (f_spec (37 :: flat_map esc_piece ps ++ rest)) with (Some ([37], flat_map esc_piece ps ++ rest)). cbn iota. rewrite (IH n rest out F2); [reflexivity|cbn in N; lia|exact H].
  - rewrite conv_spell. destruct n as [|n]; [cbn in N; lia|]. cbn [format_lit Z.eqb Pos.eqb]. rewrite f_spec_ok by exact F1. rewrite (IH n rest out F2); [reflexivity| |exact H]. unfold spell_conv in N. cbn [app length] in N. lia.
Qed.
Lemma c_body_plain : forall l n s out, Forall plain_char l -> (length l + length s <= n)%nat -> (forall n', (length s <= n')%nat -> c_body n' s = Some out) -> c_body n (l ++ s) = Some (l ++ out).
Proof.
  induction l as [|c l IH]; intros n s out F N H; [apply H; exact N|]. destruct n as [|n]; [cbn in N; lia|]. inversion F as [|? ? (A & B & C & D & E) F2]; subst. cbn [app c_body]. rewrite A, B, C, D, E. cbn [orb]. rewrite (IH n s out F2); [reflexivity|cbn in N; lia|exact H].
Qed.
Lemma simple_oct : forall c x, simple c = Some x -> c =? 120 = false /\ oct_digit c = false /\ (c =? 117) || (c =? 85) = false.
Proof.
  intros c x H. unfold simple in H.
  repeat match type of H with (if ?a =? ?b then _ else _) = _ => destruct (Z.eqb_spec a b) as [->|]; [repeat split; reflexivity|] end. discriminate H.
Qed.
Lemma c_body_ok : forall ps n rest out, Forall piece_ok ps -> (length (flat_map lit_piece ps) + length rest <= n)%nat -> (forall n', (length rest <= n')%nat -> c_body n' rest = Some out) ->
  c_body n (flat_map lit_piece ps ++ rest) = Some (flat_map byte_piece ps ++ out).
Proof.
  induction ps as [|p ps IH]; intros n rest out F N H; [apply H; cbn in N; lia|]. inversion F as [|? ? F1 F2]; subst. cbn [flat_map] in *. rewrite app_length in N. rewrite <- !app_assoc.
  assert (E : forall c x n, simple c = Some x -> (2 + length (flat_map lit_piece ps ++ rest) <= n)%nat -> c_body n ([92; c] ++ flat_map lit_piece ps ++ rest) = Some (utf8 x ++ flat_map byte_piece ps ++ out)).
  { intros c x k S K. destruct k as [|k]; [lia|]. cbn [app c_body Z.eqb Pos.eqb]. unfold c_esc. destruct (simple_oct c x S) as (-> & -> & ->). rewrite S.
    rewrite (IH k rest out F2); [|rewrite app_length in K; lia|exact H]. assert (X : utf8 x = [x]). { unfold simple in S. repeat match type of S with (if ?a =? ?b then _ else _) = _ => destruct (a =? b); [injection S as <-; reflexivity|] end. discriminate S. } rewrite X. reflexivity. }
  destruct p as [[c|c]| |c]; cbn [lit_piece byte_piece esc_unit unit_value] in *.
  - cbn [utf8s flat_map]. rewrite app_nil_r. destruct (Z.eqb_spec c 34) as [->|Q]; [apply (E 34 34); [reflexivity|rewrite app_length; cbn [length] in N; lia]|].
    destruct n as [|n]; [cbn in N; lia|]. destruct F1 as (S & Z0 & Z10 & Z13 & Z37 & Z92). cbn [app c_body]. apply Z.eqb_neq in Q, Z10, Z13, Z92. rewrite Q, Z92, Z10, Z13. cbn [orb]. rewrite (IH n rest out F2); [reflexivity|cbn in N; lia|exact H].
  - destruct F1 as [x S]. rewrite S. cbn [utf8s flat_map]. rewrite app_nil_r. apply E; [exact S|rewrite app_length; cbn [length] in N; lia].
  - apply (c_body_plain [37; 37]); [repeat constructor|rewrite app_length; cbn [length] in *; lia|]. intros n' N'. rewrite app_length in N'. apply IH; assumption.
  - apply c_body_plain; [apply conv_plain, norm_ok, F1|rewrite app_length; lia|]. intros n' N'. rewrite app_length in N'. apply IH; assumption.
Qed.

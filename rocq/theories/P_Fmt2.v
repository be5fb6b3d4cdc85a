(** Format strings: the arguments, and printf. *)
From Coq Require Import List ZArith Bool Lia.
From Verif Require Import S_Lit S_Fmt M_Lit M_Fmt P_Fmt.
Import ListNotations.
Open Scope Z_scope.

Lemma utf8s_ascii : forall l, Forall (fun c => c < 128) l -> utf8s l = l.
Proof. induction l as [|c l IH]; intro H; [reflexivity|]. inversion H as [|? ? H1 H2]; subst. unfold utf8s in *. cbn [flat_map]. rewrite utf8_ascii, IH by assumption. reflexivity. Qed.
Lemma utf8_bytes : forall c, scalar c -> c <> 0 -> Forall (fun b => b <> 0 /\ (c <> 37 -> b <> 37)) (utf8 c).
Proof.
  intros c S N. unfold utf8. assert (0 < c <= 1114111) by (destruct S; lia). destruct (Z.ltb_spec c 128) as [L|L]; [repeat constructor; auto|].
  assert (0 <= c mod 64 < 64) by (apply Z.mod_pos_bound; lia). assert (0 <= c / 64 mod 64 < 64) by (apply Z.mod_pos_bound; lia). assert (0 <= c / 4096 mod 64 < 64) by (apply Z.mod_pos_bound; lia).
  assert (0 <= c / 64) by (apply Z.div_pos; lia). assert (0 <= c / 4096) by (apply Z.div_pos; lia). assert (0 <= c / 262144) by (apply Z.div_pos; lia).
  destruct (c <? 2048); [repeat constructor; lia|]. destruct (c <? 65536); repeat constructor; lia.
Qed.
Lemma up_to_nul_id : forall b, Forall (fun c => c <> 0) b -> up_to_nul b = b.
Proof. induction b as [|c b IH]; intro H; [reflexivity|]. inversion H as [|? ? H1 H2]; subst. cbn [up_to_nul]. apply Z.eqb_neq in H1. rewrite H1, IH by exact H2. reflexivity. Qed.
Lemma utf8s_nonzero : forall s, Forall (fun c => scalar c /\ c <> 0) s -> Forall (fun b => b <> 0) (utf8s s).
Proof. induction s as [|c s IH]; intro H; [constructor|]. inversion H as [|? ? [H1 H2] H3]; subst. apply Forall_app. split; [|apply IH, H3]. eapply Forall_impl; [|apply utf8_bytes; assumption]. cbn. tauto. Qed.
Lemma c_str_eq : forall fl w p b, Forall (fun c => c <> 0) b -> c_str fl w p b = show_str fl w p b.
Proof. intros fl w p b H. unfold c_str, show_str. rewrite up_to_nul_id by exact H. reflexivity. Qed.
Lemma show_str_ascii : forall fl w p s, Forall (fun c => c < 128) s -> Forall (fun c => c < 128) (show_str fl w p s).
Proof.
  intros fl w p s H. unfold show_str. set (t := match p with Some _ => _ | None => s end).
  assert (T : Forall (fun c => c < 128) t). { subst t. destruct p as [p|]; [|exact H]. destruct (p <? 0); [exact H|]. apply Forall_forall. intros x X. rewrite Forall_forall in H. apply H. rewrite <- (firstn_skipn (Z.to_nat p) s). apply in_or_app. left. exact X. }
  destruct w as [w|]; [|exact T]. assert (R : forall k, Forall (fun c => c < 128) (repeat 32 k)) by (induction k; constructor; [lia|assumption]).
  cbn zeta. destruct ((w <? 0) || isin 45 fl); apply Forall_app; split; auto.
Qed.
Lemma to_int_id : forall n, -2147483648 <= n <= 2147483647 -> to_int n = n.
Proof. intros n H. unfold to_int. rewrite Z.mod_small by lia. lia. Qed.

Section Run.
Variable F : Type.
Variable show_int : list Z -> option Z -> option Z -> Z -> Z -> list Z.
Variable show_float : list Z -> option Z -> option Z -> Z -> F -> list Z.
Hypothesis int_ascii : forall fl w p c n, Forall (fun x => 0 <= x < 128) (show_int fl w p c n).
Hypothesis float_ascii : forall fl w p c f, Forall (fun x => 0 <= x < 128) (show_float fl w p c f).
Notation arg := (S_Fmt.arg F).
Notation carg := (M_Fmt.carg F).
Notation value := (S_Fmt.value F show_int show_float).
Notation cast_lit := (M_Fmt.cast_lit F).
Notation printf := (M_Fmt.printf F show_int show_float).

(** *** Types: the arguments have the types. *)
Lemma size_value_ty : forall z args x args', size_value F z args = Some (x, args') -> map (arg_ty F) args = size_ty (Some z) ++ map (arg_ty F) args'.
Proof.
  intros [ds|] args x args' H; cbn [size_value size_ty] in *; [injection H as _ <-; reflexivity|]. destruct args as [|[n|f|s] args]; try discriminate H. destruct (_ && _); [|discriminate H]. injection H as _ <-. reflexivity.
Qed.
Lemma width_value_ty : forall z args x args', width_value F z args = Some (x, args') -> map (arg_ty F) args = size_ty z ++ map (arg_ty F) args'.
Proof.
  intros [z|] args x args' H; cbn [width_value] in *; [|injection H as _ <-; reflexivity]. destruct (size_value F z args) as [[y a]|] eqn:E; [|discriminate H]. injection H as _ <-. apply (size_value_ty _ _ _ _ E).
Qed.
Lemma conv_value_ty : forall c args x args', conv_ok c -> conv_value F show_int show_float c args = Some (x, args') -> map (arg_ty F) args = piece_ty (Item c) ++ map (arg_ty F) args'.
Proof.
  intros c args x args' OK H. unfold conv_value in H. destruct (width_value F (c_width c) args) as [[w a1]|] eqn:E1; [|discriminate H]. destruct (prec_value F (c_prec c) a1) as [[p a2]|] eqn:E2; [|discriminate H].
  apply width_value_ty in E1. assert (E2' : map (arg_ty F) a1 = match c_prec c with Some z => size_ty z | None => [] end ++ map (arg_ty F) a2).
  { destruct (c_prec c) as [[z|]|]; cbn [prec_value] in E2; [apply (width_value_ty (Some z) _ _ _ E2)| |]; injection E2 as _ <-; reflexivity. }
  unfold piece_ty. rewrite E1, E2', <- !app_assoc. do 2 f_equal. unfold letter_ty. destruct a2 as [|[n|f|s] a2]; [discriminate H| | |].
  - destruct (is_int (c_letter c)); [|discriminate H]. injection H as _ <-. reflexivity.
  - destruct (is_float (c_letter c)) eqn:FL; [|discriminate H]. rewrite (float_not_int _ FL). injection H as _ <-. reflexivity.
  - destruct (Z.eqb_spec (c_letter c) 115) as [->|]; [|discriminate H]. injection H as _ <-. reflexivity.
Qed.
Lemma value_types : forall ps args v, Forall piece_ok ps -> value ps args = Some v -> map (arg_ty F) args = types ps.
Proof.
  induction ps as [|p ps IH]; intros args v OK H; cbn [S_Fmt.value] in H; [destruct args; [reflexivity|discriminate H]|]. inversion OK as [|? ? O1 O2]; subst. change (types (p :: ps)) with (piece_ty p ++ types ps). destruct p as [u| |c].
  - destruct (value ps args) as [v'|] eqn:E; [|discriminate H]. apply (IH _ _ O2 E).
  - destruct (value ps args) as [v'|] eqn:E; [|discriminate H]. apply (IH _ _ O2 E).
  - destruct (conv_value F show_int show_float c args) as [[x a]|] eqn:C; [|discriminate H]. destruct (value ps a) as [v'|] eqn:E; [|discriminate H]. rewrite (conv_value_ty c _ _ _ O1 C), (IH _ _ O2 E). reflexivity.
Qed.
Lemma tys_refl : forall l, tys_eqb l l = true.
Proof. induction l as [|[| |] l IH]; [reflexivity| | |]; exact IH. Qed.

(** *** castLit and printf, stage by stage. *)
Lemma stage_width : forall z args x args', w_ok z -> width_value F z args = Some (x, args') ->
  exists cs, forall h t h' t', after h -> after h' -> c_width_ F (W z ++ h :: t) args = Some (cs, h :: t, args') /\ forall ct, p_width F (W z ++ h' :: t') (cs ++ ct) = Some (x, h' :: t', ct).
Proof.
  intros [[ds|]|] args x args' OK H; cbn [W spell_size width_value size_value] in *.
  - injection H as <- <-. destruct OK as (O1 & O2 & O3). destruct ds as [|d ds]; [discriminate O1|]. cbn [hd_is forallb app] in *. apply andb_prop in O2. destruct O2 as [O2 O4]. destruct (pos_facts d O1) as (_ & N & _).
    exists []. intros h t h' t' (A & B & C & D) (A' & B' & C' & D'). split; [|intro ct]; unfold c_width_, p_width, p_digits; rewrite N, O1, digits_span by assumption; [reflexivity|]. unfold c_num. apply Z.leb_le in O3. rewrite O3. reflexivity.
  - destruct args as [|[n|f|s] args]; try discriminate H. destruct ((-2147483648 <=? n) && (n <=? 2147483647)) eqn:R; [|discriminate H]. injection H as <- <-. apply andb_prop in R. destruct R as [R1 R2]. apply Z.leb_le in R1, R2.
    exists [CInt (to_int n)]. intros h t h' t' _ _. split; [reflexivity|]. intro ct. cbn [app p_width Z.eqb Pos.eqb p_star]. rewrite to_int_id by lia. reflexivity.
  - injection H as <- <-. exists []. intros h t h' t' (A & B & C & D) (A' & B' & C' & D'). cbn [app]. split; [unfold c_width_; rewrite B, D; reflexivity|]. intro ct. unfold p_width. rewrite B', D'. reflexivity.
Qed.
Lemma stage_prec : forall z args x args', p_ok z -> prec_value F z args = Some (x, args') ->
  exists cs, forall h t h' t', tailc h = true -> tailc h' = true -> c_dot_ F (P z ++ h :: t) args = Some (cs, h :: t, args') /\ forall ct, p_dot F (P z ++ h' :: t') (cs ++ ct) = Some (x, h' :: t', ct).
Proof.
  intros z args x args' OK H.
  destruct z as [[[ds|]|]|]; cbn [P spell_size prec_value width_value size_value] in *.
  - injection H as <- <-. destruct OK as (O1 & O2 & O3). destruct ds as [|d ds]; [discriminate O1|]. cbn [hd_is forallb app] in *. apply andb_prop in O2. destruct O2 as [_ O4]. destruct (dec_facts d O1) as (N & _).
    exists []. intros h t h' t' T T'. destruct (tailc_facts h T) as (_ & A & B & _ & _ & C & _). destruct (tailc_facts h' T') as (_ & A' & B' & _ & _ & C' & _). split; [|intro ct]; unfold c_dot_, p_dot; cbn [Z.eqb Pos.eqb]; unfold c_prec_, p_prec, p_digits; rewrite N, O1, digits_span by assumption; [reflexivity|]. unfold c_num. apply Z.leb_le in O3. rewrite O3. reflexivity.
  - destruct args as [|[n|f|s] args]; try discriminate H. destruct ((-2147483648 <=? n) && (n <=? 2147483647)) eqn:R; [|discriminate H]. injection H as <- <-. apply andb_prop in R. destruct R as [R1 R2]. apply Z.leb_le in R1, R2.
    exists [CInt (to_int n)]. intros h t h' t' T T'. destruct (tailc_facts h T) as (_ & A & B & _ & _ & C & _). destruct (tailc_facts h' T') as (_ & A' & B' & _ & _ & C' & _). split; [reflexivity|]. intro ct. cbn [app p_dot Z.eqb Pos.eqb p_prec p_star]. rewrite to_int_id by lia. reflexivity.
  - injection H as <- <-. exists []. intros h t h' t' T T'. destruct (tailc_facts h T) as (_ & A & B & _ & _ & C & _). destruct (tailc_facts h' T') as (_ & A' & B' & _ & _ & C' & _). cbn [app]. split; [unfold c_dot_; cbn [Z.eqb Pos.eqb]; unfold c_prec_; rewrite A, C; reflexivity|]. intro ct. unfold p_dot. cbn [Z.eqb Pos.eqb]. unfold p_prec. rewrite A', C'. reflexivity.
  - injection H as <- <-. exists []. intros h t h' t' T T'. destruct (tailc_facts h T) as (_ & A & B & _ & _ & C & _). destruct (tailc_facts h' T') as (_ & A' & B' & _ & _ & C' & _). cbn [app]. split; [unfold c_dot_; rewrite B; reflexivity|]. intro ct. unfold p_dot. rewrite B'. reflexivity.
Qed.
Lemma int_not : forall c, is_int c = true -> (c =? 37) = false /\ (c =? 108) = false.
Proof. intros c H. enum H; split; reflexivity. Qed.
Lemma float_not : forall c, is_float c = true -> (c =? 37) = false /\ (c =? 108) = false /\ isin c [101; 69; 102; 70; 103; 71; 97; 65] = true.
Proof. intros c H. enum H; repeat split; reflexivity. Qed.
Lemma p_len_norm : forall l c t, l_ok l c -> p_len (L (match l with Some _ => Some 108 | None => if is_int c then Some 108 else None end) ++ c :: t) =
  (match l with Some _ => true | None => is_int c end, c :: t).
Proof.
  intros [l|] c t H; [reflexivity|]. destruct (is_int c) eqn:I; [reflexivity|]. cbn [L app p_len]. destruct H as [_ [H|[H|[-> _]]]]; [congruence| |reflexivity]. rewrite (proj1 (proj2 (float_not c H))). reflexivity.
Qed.
Definition str_ok (c : conv) (args : list arg) : Prop := forall s rest, operand F c args = Some (AStr s, rest) ->
  Forall (fun c => scalar c /\ c <> 0) s /\ (Forall (fun c => c < 128) s \/ c_width c = None /\ c_prec c = None).
Lemma conv_operand : forall c args x args', conv_value F show_int show_float c args = Some (x, args') -> exists a, operand F c args = Some (a, args').
Proof.
  intros c args x args' H. unfold conv_value, operand in *. destruct (width_value F (c_width c) args) as [[w a1]|]; [|discriminate H]. destruct (prec_value F (c_prec c) a1) as [[p a2]|]; [|discriminate H].
  destruct a2 as [|[n|f|s] a2]; [discriminate H| | |]; [destruct (is_int _)|destruct (is_float _)|destruct (_ =? _)]; try discriminate H; injection H as _ <-; eexists; reflexivity.
Qed.
Lemma ascii_id : forall l, Forall (fun x => 0 <= x < 128) l -> utf8s l = l.
Proof. intros l H. apply utf8s_ascii. eapply Forall_impl; [|exact H]. cbn. intros; lia. Qed.
Lemma spec_ok : forall c args x args', conv_ok c -> str_ok c args -> conv_value F show_int show_float c args = Some (x, args') ->
  exists cs, forall t t', c_spec F (tl (spell_conv c) ++ t) args = Some (cs, t, args') /\ forall ct, p_spec F show_int show_float (tl (spell_conv (norm c)) ++ t') (cs ++ ct) = Some (utf8s x, t', ct).
Proof.
  intros c args x args' OK SO H. pose proof (conv_parts _ (norm_ok _ OK)) as (A' & B' & C' & D'). apply conv_parts in OK. destruct OK as (A & B & C & D). cbn [norm c_flags c_width c_prec c_len c_letter] in *.
  unfold conv_value in H. destruct (width_value F (c_width c) args) as [[w a1]|] eqn:V1; [|discriminate H]. destruct (prec_value F (c_prec c) a1) as [[p a2]|] eqn:V2; [|discriminate H].
  destruct (stage_width _ _ _ _ B V1) as (cs1 & G1). destruct (stage_prec _ _ _ _ C V2) as (cs2 & G2).
  assert (G : exists ca, forall t t', c_conv_ F (c_letter c :: t) a2 = Some ([ca], t, args') /\ forall ct, p_conv F show_int show_float (c_flags c) w p (match c_len c with Some _ => true | None => is_int (c_letter c) end) (c_letter c :: t') (ca :: ct) = Some (utf8s x, t', ct)).
  { destruct a2 as [|[n|f|s] a2]; [discriminate H| | |].
    - destruct (is_int (c_letter c)) eqn:I; [|discriminate H]. injection H as <- <-. destruct (int_not _ I) as [N37 N108]. exists (CLong n). intros t t'. unfold c_conv_, p_conv. rewrite N37. fold (is_int (c_letter c)). rewrite I. split; [reflexivity|]. intro ct. rewrite (ascii_id _ (int_ascii _ _ _ _ _)). destruct (c_len c); reflexivity.
    - destruct (is_float (c_letter c)) eqn:I; [|discriminate H]. injection H as <- <-. destruct (float_not _ I) as (N37 & N108 & N). exists (CDouble f). intros t t'. unfold c_conv_, p_conv. rewrite N37. fold (is_int (c_letter c)) (is_float (c_letter c)). rewrite I, (float_not_int _ I), N. split; [reflexivity|]. intro ct. rewrite (ascii_id _ (float_ascii _ _ _ _ _)). reflexivity.
    - destruct (Z.eqb_spec (c_letter c) 115) as [I|]; [|discriminate H]. injection H as <- <-. rewrite I. exists (CStr (utf8s s)). intros t t'. split; [reflexivity|]. intro ct.
      assert (LN : c_len c = None) by (destruct D as [_ [X|[X|[_ X]]]]; [rewrite I in X; discriminate X|rewrite I in X; discriminate X|exact X]). rewrite LN. change (Some (c_str (c_flags c) w p (utf8s s), t', ct) = Some (utf8s (show_str (c_flags c) w p s), t', ct)).
      destruct (SO s a2 ltac:(unfold operand; rewrite V1, V2; reflexivity)) as [SS [AS|[NW1 NW2]]].
      + rewrite (utf8s_ascii _ (show_str_ascii (c_flags c) w p s AS)), (utf8s_ascii s AS), c_str_eq; [reflexivity|]. eapply Forall_impl; [|exact SS]. cbn. tauto.
      + rewrite NW1 in V1. rewrite NW2 in V2. cbn in V1, V2. injection V1 as <- _. injection V2 as <- _. rewrite c_str_eq by apply utf8s_nonzero, SS. reflexivity. }
  destruct G as (ca & G). exists (cs1 ++ cs2 ++ [ca]). intros t t'. destruct (G t t') as [G3 G4].
  assert (S1 : forall c t, tl (spell_conv c) ++ t = c_flags c ++ W (c_width c) ++ P (c_prec c) ++ L (c_len c) ++ c_letter c :: t) by (intros; unfold spell_conv; cbn [tl]; rewrite <- !app_assoc; reflexivity).
  rewrite S1. assert (S2 := S1 (norm c) t'). cbn [norm c_flags c_width c_prec c_len c_letter] in S2. rewrite S2. clear S1 S2.
  destruct (L_head _ _ t D) as (h & t1 & E1 & T). destruct (P_head (c_prec c) h t1 T) as (h2 & t2 & E2 & AF).
  destruct (L_head _ _ t' D') as (h' & t1' & E1' & T'). destruct (P_head (c_prec c) h' t1' T') as (h2' & t2' & E2' & AF').
  destruct (G1 h2 t2 h2' t2' AF AF') as [C1 P1]. destruct (G2 h t1 h' t1' T T') as [C2 P2]. split.
  - unfold c_spec, t_flags. rewrite E1, E2. rewrite span_app; [|exact A|apply W_head; assumption]. cbn [snd]. rewrite C1. rewrite <- E2, C2, <- E1, (t_len_ok _ _ _ D), G3. reflexivity.
  - intro ct. unfold p_spec. rewrite E1', E2'. rewrite span_app; [|exact A|apply W_head; assumption]. rewrite <- !app_assoc, P1. rewrite <- E2', P2, <- E1', (p_len_norm _ _ _ D). apply G4.
Qed.

Lemma cast_skip : forall l n s args out, Forall (fun c => (c =? 37) = false) l -> (length l + length s <= n)%nat -> (forall n', (length s <= n')%nat -> cast_lit n' s args = Some out) -> cast_lit n (l ++ s) args = Some out.
Proof.
  induction l as [|c l IH]; intros n s args out F0 N H; [apply H; exact N|]. destruct n as [|n]; [cbn in N; lia|]. inversion F0 as [|? ? F1 F2]; subst. cbn [app M_Fmt.cast_lit]. rewrite F1. apply IH; [exact F2|cbn in N; lia|exact H].
Qed.
Lemma printf_skip : forall l n s args out, Forall (fun c => (c =? 37) = false /\ (c =? 0) = false) l -> (length l + length s <= n)%nat -> (forall n', (length s <= n')%nat -> printf n' s args = Some out) -> printf n (l ++ s) args = Some (l ++ out).
Proof.
  induction l as [|c l IH]; intros n s args out F0 N H; [apply H; exact N|]. destruct n as [|n]; [cbn in N; lia|]. inversion F0 as [|? ? [F1 F1'] F2]; subst. cbn [app M_Fmt.printf]. rewrite F1, F1', (IH n s args out F2); [reflexivity|cbn in N; lia|exact H].
Qed.
Lemma unit_bytes : forall u, unit_ok u -> Forall (fun c => (c =? 37) = false /\ (c =? 0) = false) (utf8s (unit_value u)).
Proof.
  intros [c|c] H; cbn [unit_value].
  - cbn [utf8s flat_map]. rewrite app_nil_r. destruct H as (S & Z0 & _ & _ & Z37 & _). eapply Forall_impl; [|apply (utf8_bytes c S Z0)]. cbn. intros b [B1 B2]. split; apply Z.eqb_neq; auto.
  - destruct H as [x H]. rewrite H. unfold simple in H. repeat match type of H with (if ?a =? ?b then _ else _) = _ => destruct (a =? b); [injection H as <-; repeat constructor|] end. discriminate H.
Qed.
Lemma utf8s_app : forall a b, utf8s (a ++ b) = utf8s a ++ utf8s b.
Proof. intros. apply flat_map_app. Qed.
Lemma run_ok : forall ps args v, Forall piece_ok ps -> strings_ok F ps args -> value ps args = Some v ->
  exists cs, (forall n rest, (length (flat_map esc_piece ps) + length rest <= n)%nat -> (forall n', (length rest <= n')%nat -> cast_lit n' rest [] = Some []) -> cast_lit n (flat_map esc_piece ps ++ rest) args = Some cs) /\
    forall n, (length (flat_map byte_piece ps) <= n)%nat -> printf n (flat_map byte_piece ps) cs = Some (utf8s v).
Proof.
  induction ps as [|p ps IH]; intros args v OK SO H; cbn [S_Fmt.value] in H.
  - destruct args; [|discriminate H]. injection H as <-. exists []. split; [intros n rest N R; apply R; cbn in N; lia|]. intros [|n] _; reflexivity.
  - inversion OK as [|? ? O1 O2]; subst. destruct p as [u| |c].
    + destruct (value ps args) as [v'|] eqn:E; [|discriminate H]. injection H as <-. destruct (IH args v' O2 SO E) as (cs & K1 & K2). exists cs. cbn [flat_map esc_piece byte_piece]. split.
      * intros n rest N R. rewrite app_length in N. rewrite <- app_assoc. apply cast_skip; [apply esc_chars, O1|rewrite app_length; lia|]. intros n' N'. rewrite app_length in N'. apply K1; assumption.
      * intros n N. rewrite app_length in N. rewrite utf8s_app. apply printf_skip; [apply unit_bytes, O1|exact N|exact K2].
    + destruct (value ps args) as [v'|] eqn:E; [|discriminate H]. injection H as <-. destruct (IH args v' O2 SO E) as (cs & K1 & K2). exists cs. cbn [flat_map esc_piece byte_piece app]. split.
      * intros n rest N R. destruct n as [|n]; [cbn in N; lia|]. cbn [M_Fmt.cast_lit Z.eqb Pos.eqb]. change (c_spec F (37 :: flat_map esc_piece ps ++ rest) args) with (Some (@nil carg, flat_map esc_piece ps ++ rest, args)). cbn iota. rewrite K1; [reflexivity|cbn in N; lia|exact R].
      * intros n N. destruct n as [|n]; [cbn in N; lia|]. cbn [M_Fmt.printf Z.eqb Pos.eqb]. change (p_spec F show_int show_float (37 :: flat_map byte_piece ps) cs) with (Some ([37], flat_map byte_piece ps, cs)). cbn iota. rewrite K2; [reflexivity|cbn in N; lia].
    + destruct (conv_value F show_int show_float c args) as [[x a]|] eqn:C; [|discriminate H]. destruct (value ps a) as [v'|] eqn:E; [|discriminate H]. injection H as <-.
      destruct (conv_operand _ _ _ _ C) as [o O]. unfold strings_ok in SO. cbn [uses] in SO. rewrite O in SO.
      destruct (spec_ok c args x a O1) as (cs0 & CS); [intros s rest R; apply SO; left; congruence|exact C|].
      destruct (IH a v' O2) as (cs & K1 & K2); [intros c' s I; apply SO; right; exact I|exact E|].
      exists (cs0 ++ cs). cbn [flat_map esc_piece byte_piece]. split.
      * intros n rest N R. rewrite app_length in N. rewrite <- app_assoc. destruct (CS (flat_map esc_piece ps ++ rest) []) as [C1 _].
        destruct n as [|n]; [unfold spell_conv in N; cbn in N; lia|]. change (spell_conv c) with (37 :: tl (spell_conv c)) in N |- *. cbn [app M_Fmt.cast_lit Z.eqb Pos.eqb]. rewrite C1, K1; [reflexivity| |exact R]. cbn [length] in N. lia.
      * intros n N. rewrite app_length in N. destruct (CS [] (flat_map byte_piece ps)) as [_ P1]. destruct n as [|n]; [unfold spell_conv in N; cbn in N; lia|]. change (spell_conv (norm c)) with (37 :: tl (spell_conv (norm c))) in N |- *. cbn [app M_Fmt.printf Z.eqb Pos.eqb]. rewrite P1, K2; [rewrite utf8s_app; reflexivity|]. cbn [length] in N. lia.
Qed.

Lemma format_ok : forall ps args v, Forall piece_ok ps -> strings_ok F ps args -> value ps args = Some v ->
  format F show_int show_float (spell ps) args = Bytes (utf8s v).
Proof.
  intros ps args v OK SO V. destruct (run_ok ps args v OK SO V) as (cs & K1 & K2).
  unfold format. rewrite t_format_ok by auto. rewrite (value_types ps args v OK V), tys_refl, escape_spell by exact OK. unfold quote.
    assert (FL : format_lit (length (34 :: flat_map esc_piece ps ++ [34])) (34 :: flat_map esc_piece ps ++ [34]) = Some (34 :: flat_map lit_piece ps ++ [34])).
    { cbn [length format_lit Z.eqb Pos.eqb]. rewrite (format_lit_ok ps _ [34] [34] OK); [reflexivity|rewrite app_length; lia|]. intros [|n] N; [cbn in N; lia|]. destruct n; reflexivity. }
    assert (CL : cast_lit (length (34 :: flat_map esc_piece ps ++ [34])) (34 :: flat_map esc_piece ps ++ [34]) args = Some cs).
    { cbn [length M_Fmt.cast_lit Z.eqb Pos.eqb]. apply K1; [rewrite app_length; lia|]. intros [|n] N; [cbn in N; lia|]. destruct n; reflexivity. }
    cbv zeta. rewrite FL, CL. unfold c_literal. rewrite (c_body_ok ps _ [34] [] OK); [|rewrite app_length; lia|].
    + rewrite app_nil_r, K2 by lia. reflexivity.
    + intros [|n] N; [cbn in N; lia|]. reflexivity.
Qed.
Lemma tys_eqb_eq : forall a b, tys_eqb a b = true -> a = b.
Proof. induction a as [|[| |] a IH]; intros [|[| |] b] H; try discriminate H; [reflexivity| | |]; f_equal; apply IH, H. Qed.
Lemma wrong_types : forall ps args, Forall piece_ok ps -> map (arg_ty F) args <> types ps -> format F show_int show_float (spell ps) args = Rejected.
Proof.
  intros ps args OK N. unfold format. rewrite t_format_ok by auto. destruct (tys_eqb _ _) eqn:E; [|reflexivity]. apply tys_eqb_eq in E. contradiction.
Qed.
End Run.

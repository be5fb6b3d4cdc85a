From Coq Require Import List Bool Arith Lia Ascii String.
From Verif Require Import S_Names M_Names.
Import ListNotations.

(** ** Texts as characters and marks: a capital letter with an underscore. *)
Inductive sym := Ch (c : nat) | Mark (u : nat).
Definition render1 (x : sym) : text := match x with Ch c => [c] | Mark u => [u; 95] end.
Definition render (l : list sym) : text := flat_map render1 l.
Fixpoint parse (s : text) : list sym :=
  match s with
  | [] => []
  | c :: t => match t with
              | d :: r => if is_upper c && (d =? 95) then Mark c :: parse r else Ch c :: parse t
              | [] => [Ch c]
              end
  end.
Fixpoint sep (l : list sym) : bool :=
  match l with
  | [] => true
  | x :: t => match x, t with
              | Ch c, Ch d :: _ => negb (is_upper c && (d =? 95))
              | _, _ => true
              end && match x with Mark u => is_upper u | _ => true end && sep t
  end.
Lemma render_app a b : render (a ++ b) = render a ++ render b.
Proof. apply flat_map_app. Qed.
Lemma upper_95 u : is_upper u = true -> u <> 95.
Proof. unfold is_upper. intros H ->. discriminate H. Qed.
Lemma parse_ch c d r : is_upper c && (d =? 95) = false -> parse (c :: d :: r) = Ch c :: parse (d :: r).
Proof. intros H. cbn [parse]. rewrite H. reflexivity. Qed.
Lemma parse_mark u r : is_upper u = true -> parse (u :: 95 :: r) = Mark u :: parse r.
Proof. intros H. cbn [parse]. rewrite H. reflexivity. Qed.
Lemma parse_app_mark a u r : sep a = true -> is_upper u = true -> parse (render a ++ u :: 95 :: r) = a ++ Mark u :: parse r.
Proof.
  intros S U. induction a as [|x a IH]; [apply parse_mark; exact U|].
  cbn [sep] in S. apply andb_true_iff in S as [S S2]. apply andb_true_iff in S as [S0 S1]. specialize (IH S2).
  destruct x as [c|v]; cbn [render flat_map render1 app].
  - change (flat_map render1 a) with (render a). destruct a as [|y a].
    + cbn [render flat_map app] in *. rewrite parse_ch; [rewrite parse_mark by exact U; reflexivity|].
      apply andb_false_iff. right. apply Nat.eqb_neq. apply upper_95. exact U.
    + assert (E : exists e q, render (y :: a) ++ u :: 95 :: r = e :: q /\ is_upper c && (e =? 95) = false).
      { destruct y as [d|v].
        - exists d, (render a ++ u :: 95 :: r). split; [reflexivity|]. apply negb_true_iff. exact S0.
        - exists v, (95 :: render a ++ u :: 95 :: r). split; [reflexivity|]. apply andb_false_iff. right. apply Nat.eqb_neq. apply upper_95.
          cbn [sep] in S2. apply andb_true_iff in S2 as [S2 _]. apply andb_true_iff in S2 as [_ S2]. exact S2. }
      destruct E as (e & q & E & F). rewrite E, parse_ch by exact F. rewrite <- E, IH. reflexivity.
  - rewrite parse_mark by exact S1. change (flat_map render1 a) with (render a). rewrite IH. reflexivity.
Qed.
Lemma parse_render a : sep a = true -> parse (render a) = a.
Proof.
  intros S. induction a as [|x a IH]; [reflexivity|].
  cbn [sep] in S. apply andb_true_iff in S as [S S2]. apply andb_true_iff in S as [S0 S1]. specialize (IH S2).
  destruct x as [c|v]; cbn [render flat_map render1 app].
  - change (flat_map render1 a) with (render a). destruct a as [|y a]; [reflexivity|].
    assert (E : exists e q, render (y :: a) = e :: q /\ is_upper c && (e =? 95) = false).
    { destruct y as [d|v].
      - exists d, (render a). split; [reflexivity|]. apply negb_true_iff. exact S0.
      - exists v, (95 :: render a). split; [reflexivity|]. apply andb_false_iff. right. apply Nat.eqb_neq. apply upper_95.
        cbn [sep] in S2. apply andb_true_iff in S2 as [S2 _]. apply andb_true_iff in S2 as [_ S2]. exact S2. }
    destruct E as (e & q & E & F). rewrite E, parse_ch by exact F. rewrite <- E, IH. reflexivity.
  - rewrite parse_mark by exact S1. change (flat_map render1 a) with (render a). rewrite IH. reflexivity.
Qed.

(** ** Digits. *)
Lemma digits__spec b : 2 <= b -> forall fuel n acc, n < fuel ->
  fold_left (fun a d => a * b + d) (digits_ fuel b n acc) 0 = fold_left (fun a d => a * b + d) acc n /\
  (Forall (fun d => d < b) acc -> Forall (fun d => d < b) (digits_ fuel b n acc)) /\ digits_ fuel b n acc <> [].
Proof.
  intros B. induction fuel as [|f IH]; intros n acc H; [lia|]. cbn [digits_].
  assert (M : n mod b < b) by (apply Nat.mod_upper_bound; lia). pose proof (Nat.div_mod n b ltac:(lia)) as D.
  destruct (n / b =? 0) eqn:E.
  - apply Nat.eqb_eq in E. cbn [fold_left]. split; [f_equal; nia|]. split; [intros F; constructor; assumption|discriminate].
  - apply Nat.eqb_neq in E. assert (L : n / b < f). { apply Nat.le_lt_trans with (n - 1); [|lia]. nia. }
    destruct (IH (n / b) (n mod b :: acc) L) as (V & F & N). split; [|split; [|exact N]].
    + rewrite V. cbn [fold_left]. f_equal. nia.
    + intros Fa. apply F. constructor; assumption.
Qed.
Lemma digits_value b n : 2 <= b -> fold_left (fun a d => a * b + d) (digits b n) 0 = n.
Proof. intros B. unfold digits. apply (digits__spec b B (S n) n []). lia. Qed.
Lemma digits_small b n : 2 <= b -> Forall (fun d => d < b) (digits b n).
Proof. intros B. unfold digits. apply (digits__spec b B (S n) n [] ltac:(lia)). constructor. Qed.
Lemma digits_ne b n : 2 <= b -> digits b n <> [].
Proof. intros B. unfold digits. apply (digits__spec b B (S n) n []). lia. Qed.
Definition hexval (c : nat) : nat := if is_digit c then c - 48 else c - 87.
Lemma hexval_char d : d < 16 -> hexval (digit_char d) = d.
Proof. intros H. do 16 (destruct d as [|d]; [reflexivity|]). lia. Qed.
Lemma digit_char_ok d : d < 16 -> (is_digit (digit_char d) || is_lower (digit_char d)) = true.
Proof. intros H. do 16 (destruct d as [|d]; [reflexivity|]). lia. Qed.
Definition plain (c : nat) : Prop := is_digit c || is_lower c = true.
Lemma plain_facts c : plain c -> is_upper c = false /\ c <> 95 /\ c <> 36 /\ c_char c = true.
Proof.
  unfold plain, c_char, c_start, is_digit, is_lower, is_upper. intros H. repeat split.
  - apply orb_true_iff in H as [H|H]; apply andb_true_iff in H as [H1 H2]; apply Nat.leb_le in H1; apply Nat.leb_le in H2;
      apply andb_false_iff; [left|right]; apply Nat.leb_gt; lia.
  - intros ->. discriminate H.
  - intros ->. discriminate H.
  - apply orb_true_iff in H as [H|H]; rewrite H; rewrite ?orb_true_r; reflexivity.
Qed.
Lemma hex_plain n : Forall plain (show_hex n).
Proof.
  unfold show_hex. apply Forall_map. eapply Forall_impl; [|apply (digits_small 16 n); lia]. intros d H. apply digit_char_ok. exact H.
Qed.
Lemma dec_digits n : Forall (fun c => is_digit c = true) (show_ n).
Proof.
  unfold show_. apply Forall_map. eapply Forall_impl; [|apply (digits_small 10 n); lia]. intros d H. cbn beta in H.
  do 10 (destruct d as [|d]; [reflexivity|]). lia.
Qed.
Lemma unique_digits n : Forall (fun c => is_digit c = true) (unique n).
Proof. destruct n; [constructor|]. apply dec_digits. Qed.

(** ** Reading escapes back. *)
Fixpoint unesc (a : option nat) (l : list sym) : list sym :=
  match l with
  | [] => []
  | x :: t =>
      match a, x with
      | None, Mark 88 => unesc (Some 0) t
      | None, x => x :: unesc None t
      | Some v, Ch c => if c =? 95 then Ch v :: unesc None t else unesc (Some (v * 16 + hexval c)) t
      | Some v, Mark _ => unesc None t
      end
  end.
Definition hexs (c : nat) : list sym := Mark 88 :: map Ch (show_hex c) ++ [Ch 95].
Definition esc1 (x : sym) : list sym := match x with Ch c => if c_char c then [Ch c] else hexs c | Mark u => [Mark u] end.
Definition esc_l (l : list sym) : list sym := flat_map esc1 l.
Definition first1 (x : sym) : list sym := match x with Ch c => if c_start c then [Ch c] else hexs c | Mark u => [Mark u] end.
Definition esc_all (l : list sym) : list sym := match l with [] => [] | x :: t => first1 x ++ esc_l t end.
Lemma render_ch s : render (map Ch s) = s.
Proof. induction s as [|c s IH]; [reflexivity|]. cbn. change (flat_map render1 (map Ch s)) with (render (map Ch s)). rewrite IH. reflexivity. Qed.
Lemma render_hexs c : render (hexs c) = hex c.
Proof. unfold hexs, hex. cbn [render flat_map render1 app]. change (88 :: 95 :: render (map Ch (show_hex c) ++ [Ch 95]) = txt "X_" ++ show_hex c ++ txt "_"). rewrite render_app, render_ch. reflexivity. Qed.
Lemma unesc_hexs c t : unesc None (hexs c ++ t) = Ch c :: unesc None t.
Proof.
  unfold hexs. change ((Mark 88 :: map Ch (show_hex c) ++ [Ch 95]) ++ t) with (Mark 88 :: (map Ch (show_hex c) ++ [Ch 95]) ++ t).
  cbn [unesc]. rewrite <- app_assoc. cbn [app].
  assert (G : forall ds v, Forall (fun d => d < 16) ds ->
    unesc (Some v) (map Ch (map digit_char ds) ++ Ch 95 :: t) = Ch (fold_left (fun a d => a * 16 + d) ds v) :: unesc None t).
  { induction ds as [|d ds IH]; intros v F; [reflexivity|]. inversion F; subst. cbn [map app unesc fold_left].
    destruct (plain_facts (digit_char d) (digit_char_ok d H1)) as (_ & N & _). apply Nat.eqb_neq in N. rewrite N, hexval_char by assumption. apply IH. assumption. }
  unfold show_hex. rewrite G by (apply digits_small; lia). rewrite digits_value by lia. reflexivity.
Qed.
(** Marks of names, other than X, A, Q and B. *)
Definition own (x : sym) : bool :=
  match x with Mark u => existsb (Nat.eqb u) [68; 71; 69; 86; 87; 78; 67; 76; 85] | Ch c => negb (c =? 36) end.
Lemma own_88 x : own x = true -> x <> Mark 88. Proof. intros H ->. discriminate H. Qed.
Lemma unesc_keep x t : x <> Mark 88 -> unesc None (x :: t) = x :: unesc None t.
Proof. intros N. destruct x as [c|u]; [reflexivity|]. cbn [unesc]. do 89 (destruct u as [|u]; [first [reflexivity|congruence]|]). reflexivity. Qed.
Lemma unesc_esc1 x t : own x = true -> unesc None (esc1 x ++ t) = x :: unesc None t.
Proof.
  intros O. destruct x as [c|u]; cbn [esc1]; [destruct (c_char c)|]; cbn [app]; try (apply unesc_keep; [discriminate|apply own_88; exact O]); try apply unesc_hexs;
  apply unesc_keep; apply own_88; exact O.
Qed.
Lemma unesc_first1 x t : own x = true -> unesc None (first1 x ++ t) = x :: unesc None t.
Proof.
  intros O. destruct x as [c|u]; cbn [first1]; [destruct (c_start c)|]; cbn [app]; try apply unesc_hexs;
  apply unesc_keep; apply own_88; exact O.
Qed.
Lemma unesc_esc l : forallb own l = true -> unesc None (esc_all l) = l.
Proof.
  assert (G : forall l, forallb own l = true -> unesc None (esc_l l) = l).
  { clear l. induction l as [|x l IH]; intros O; [reflexivity|]. apply andb_true_iff in O as [O1 O2]. cbn [esc_l flat_map].
    change (flat_map esc1 l) with (esc_l l). rewrite unesc_esc1, IH by assumption. reflexivity. }
  intros O. destruct l as [|x l]; [reflexivity|]. apply andb_true_iff in O as [O1 O2]. cbn [esc_all].
  rewrite unesc_first1, G by assumption. reflexivity.
Qed.

(** Marks of C names, other than Q and B. *)
Definition own2 (x : sym) : bool := own x || match x with Mark u => (u =? 88) || (u =? 65) | _ => false end.
Lemma own_upper u : own (Mark u) = true -> is_upper u = true.
Proof. cbn. rewrite !orb_true_iff, !Nat.eqb_eq. intros H. repeat destruct H as [H|H]; subst; try reflexivity. discriminate H. Qed.
Lemma render_esc l : forallb own l = true -> render (esc_l l) = esc (render l).
Proof.
  induction l as [|x l IH]; intros O; [reflexivity|]. apply andb_true_iff in O as [O1 O2]. cbn [esc_l flat_map].
  change (flat_map esc1 l) with (esc_l l). rewrite render_app, IH by exact O2. cbn [render flat_map]. change (flat_map render1 l) with (render l).
  unfold esc at 2. rewrite flat_map_app. f_equal. destruct x as [c|u]; cbn [esc1 render1 flat_map].
  - destruct (c_char c); [reflexivity|]. rewrite render_hexs, app_nil_r. reflexivity.
  - apply own_upper in O1. unfold c_char, c_start. rewrite O1. reflexivity.
Qed.
Definition special (s : text) : bool :=
  text_eqb s (txt "complex") || text_eqb s (txt "__complex__") || text_eqb s (txt "complx") || text_eqb s (txt "__complx__").
Lemma text_eqb_true a b : text_eqb a b = true -> a = b.
Proof. unfold text_eqb. destruct (list_eq_dec Nat.eq_dec a b); [auto|discriminate]. Qed.
Lemma text_eqb_refl a : text_eqb a a = true.
Proof. unfold text_eqb. destruct (list_eq_dec Nat.eq_dec a a); congruence. Qed.
Lemma mk_plain l : forallb own l = true -> special (render l) = false -> mk_cident (render l) = render (esc_all l).
Proof.
  intros O S. unfold special in S. apply orb_false_iff in S as [S S4]. apply orb_false_iff in S as [S S3]. apply orb_false_iff in S as [S1 S2].
  unfold mk_cident. rewrite S1, S2, S3, S4. destruct l as [|x l]; [reflexivity|]. apply andb_true_iff in O as [O1 O2]. cbn [esc_all].
  rewrite render_app, render_esc by exact O2. destruct x as [c|u]; cbn [render flat_map render1 app first1]; change (flat_map render1 l) with (render l).
  - destruct (c_start c); [reflexivity|]. rewrite render_hexs. reflexivity.
  - apply own_upper in O1. unfold c_start at 1. rewrite O1. cbn [orb app]. reflexivity.
Qed.

Lemma sep_app_mark a u b : sep (a ++ Mark u :: b) = sep a && is_upper u && sep b.
Proof.
  induction a as [|x a IH]; [reflexivity|]. cbn [app sep]. rewrite IH. destruct x as [c|v]; destruct a as [|[d|w] a]; cbn [app];
  rewrite ?andb_true_r, ?andb_true_l, ?andb_assoc; reflexivity.
Qed.
Lemma sep_plain s x t : Forall plain s -> sep (x :: t) = true -> (match x with Ch _ => True | Mark _ => True end) -> sep (map Ch s ++ x :: t) = true.
Proof.
  intros F S _. induction F as [|c s P F IH]; [exact S|]. cbn [map app]. cbn [sep]. rewrite IH. destruct (plain_facts c P) as (U & _). rewrite U.
  destruct (map Ch s ++ x :: t) as [|[]]; reflexivity.
Qed.
Lemma hexs_sep c t : sep t = true -> sep (hexs c ++ t) = true.
Proof.
  intros S. unfold hexs. change ((Mark 88 :: map Ch (show_hex c) ++ [Ch 95]) ++ t) with (Mark 88 :: (map Ch (show_hex c) ++ [Ch 95]) ++ t).
  change (true && sep ((map Ch (show_hex c) ++ [Ch 95]) ++ t) = true). rewrite <- app_assoc. cbn [app andb].
  apply sep_plain; [apply hex_plain| |exact I]. cbn [sep]. rewrite S. destruct t as [|[]]; reflexivity.
Qed.
Lemma sep_cons_ch c t : sep t = true -> (forall d r, t = Ch d :: r -> is_upper c && (d =? 95) = false) -> sep (Ch c :: t) = true.
Proof. intros S H. cbn [sep]. rewrite S. destruct t as [|[d|u] r]; try reflexivity. rewrite (H d r eq_refl). reflexivity. Qed.
Lemma esc_l_head d r l : esc_l l = Ch d :: r -> exists l', l = Ch d :: l'.
Proof. destruct l as [|[c|u] l]; cbn [esc_l flat_map esc1]; try discriminate. destruct (c_char c); [|discriminate]. intros E. injection E as -> _. eexists. reflexivity. Qed.
Lemma esc_sep l : sep l = true -> sep (esc_l l) = true.
Proof.
  induction l as [|x l IH]; intros S; [reflexivity|]. pose proof S as S'. cbn [sep] in S'. apply andb_true_iff in S' as [S' S2]. apply andb_true_iff in S' as [S0 S1].
  cbn [esc_l flat_map]. change (flat_map esc1 l) with (esc_l l). destruct x as [c|u]; cbn [esc1].
  - destruct (c_char c); [|apply hexs_sep; apply IH; exact S2]. cbn [app]. apply sep_cons_ch; [apply IH; exact S2|].
    intros d r E. apply esc_l_head in E as [l' ->]. apply negb_true_iff. exact S0.
  - cbn [app sep]. rewrite S1, IH by exact S2. reflexivity.
Qed.
Lemma esc_all_sep l : sep l = true -> sep (esc_all l) = true.
Proof.
  destruct l as [|x l]; intros S; [reflexivity|]. pose proof S as S'. cbn [sep] in S'. apply andb_true_iff in S' as [S' S2]. apply andb_true_iff in S' as [S0 S1].
  cbn [esc_all]. destruct x as [c|u]; cbn [first1].
  - destruct (c_start c); [|apply hexs_sep; apply esc_sep; exact S2]. cbn [app]. apply sep_cons_ch; [apply esc_sep; exact S2|].
    intros d r E. apply esc_l_head in E as [l' ->]. apply negb_true_iff. exact S0.
  - cbn [app sep]. rewrite S1, esc_sep by exact S2. reflexivity.
Qed.
Lemma hexs_own2 c : forallb own2 (hexs c) = true.
Proof.
  unfold hexs. cbn [forallb]. change (own2 (Mark 88)) with true. rewrite forallb_app. cbn [andb]. apply andb_true_iff. split; [|reflexivity].
  apply forallb_forall. intros x I. apply in_map_iff in I as (d & <- & I). pose proof (hex_plain c) as F. rewrite Forall_forall in F.
  destruct (plain_facts d (F d I)) as (_ & _ & N & _). unfold own2, own. apply Nat.eqb_neq in N. rewrite N. reflexivity.
Qed.
Lemma own_own2 x : own x = true -> own2 x = true. Proof. unfold own2. intros ->. reflexivity. Qed.
Lemma esc_own2 l : forallb own l = true -> forallb own2 (esc_all l) = true.
Proof.
  assert (G : forall l, forallb own l = true -> forallb own2 (esc_l l) = true).
  { clear l. induction l as [|x l IH]; intros O; [reflexivity|]. apply andb_true_iff in O as [O1 O2]. cbn [esc_l flat_map]. rewrite forallb_app.
    change (flat_map esc1 l) with (esc_l l). rewrite IH by exact O2. rewrite andb_true_r. destruct x as [c|u]; cbn [esc1]; [destruct (c_char c)|];
    try apply hexs_own2; cbn [forallb]; rewrite own_own2 by exact O1; reflexivity. }
  intros O. destruct l as [|x l]; [reflexivity|]. apply andb_true_iff in O as [O1 O2]. cbn [esc_all]. rewrite forallb_app, G by exact O2. rewrite andb_true_r.
  destruct x as [c|u]; cbn [first1]; [destruct (c_start c)|]; try apply hexs_own2; cbn [forallb]; rewrite own_own2 by exact O1; reflexivity.
Qed.

(** ** mk_cident. *)
Record fine (l : list sym) : Prop := Fine { f_sep : sep l = true; f_own : forallb own l = true; f_ne : l <> [] }.
Record cfine (l : list sym) : Prop := CFine { c_sep : sep l = true; c_own : forallb own2 l = true; c_ne : l <> [] }.
Lemma esc_all_ne l : l <> [] -> esc_all l <> [].
Proof. destruct l as [|[c|u] l]; [congruence| |]; intros _; cbn [esc_all first1]; [destruct (c_start c)|]; discriminate. Qed.
Lemma mk_cfine l : fine l -> exists l', cfine l' /\ mk_cident (render l) = render l'.
Proof.
  intros [S O N]. destruct (special (render l)) eqn:E.
  - unfold special in E. apply orb_true_iff in E as [E|E]; [apply orb_true_iff in E as [E|E]; [apply orb_true_iff in E as [E|E]|]|];
    apply text_eqb_true in E; rewrite E.
    + exists (map Ch (txt "complx")). split; [split; [reflexivity|reflexivity|discriminate]|reflexivity].
    + exists (map Ch (txt "__complx__")). split; [split; [reflexivity|reflexivity|discriminate]|reflexivity].
    + exists (Mark 65 :: map Ch (txt "complex")). split; [split; [reflexivity|reflexivity|discriminate]|reflexivity].
    + exists (Mark 65 :: map Ch (txt "__complex__")). split; [split; [reflexivity|reflexivity|discriminate]|reflexivity].
  - exists (esc_all l). split; [|apply mk_plain; assumption]. split; [apply esc_all_sep; exact S|apply esc_own2; exact O|apply esc_all_ne; exact N].
Qed.
Lemma render_inj a b : sep a = true -> sep b = true -> render a = render b -> a = b.
Proof. intros A B E. rewrite <- (parse_render a A), <- (parse_render b B), E. reflexivity. Qed.
Lemma esc_all_inj a b : fine a -> fine b -> esc_all a = esc_all b -> a = b.
Proof. intros A B E. rewrite <- (unesc_esc a (f_own _ A)), <- (unesc_esc b (f_own _ B)), E. reflexivity. Qed.
Lemma not_special_image l t : fine l -> special (render l) = false -> special (render t) = true -> fine t -> mk_cident (render l) <> mk_cident (render t).
Proof.
  intros F E T Ft Q. rewrite (mk_plain l (f_own _ F) E) in Q.
  assert (G : forall s, render (esc_all l) = s -> esc_all l = parse s).
  { intros s <-. symmetry. apply parse_render. apply esc_all_sep. exact (f_sep _ F). }
  apply G in Q. pose proof (unesc_esc l (f_own _ F)) as U. rewrite Q in U. pose proof (f_own _ F) as O.
  unfold special in T. apply orb_true_iff in T as [T|T]; [apply orb_true_iff in T as [T|T]; [apply orb_true_iff in T as [T|T]|]|];
  apply text_eqb_true in T; rewrite T in U; vm_compute in U; subst l; first [discriminate E | discriminate O].
Qed.
Lemma mk_inj a b : fine a -> fine b -> mk_cident (render a) = mk_cident (render b) -> render a = render b.
Proof.
  intros A B E. destruct (special (render a)) eqn:SA, (special (render b)) eqn:SB.
  - assert (T : forall s, special s = true -> In s [txt "complex"; txt "__complex__"; txt "complx"; txt "__complx__"]).
    { intros s T. unfold special in T. apply orb_true_iff in T as [T|T]; [apply orb_true_iff in T as [T|T]; [apply orb_true_iff in T as [T|T]|]|];
      apply text_eqb_true in T; subst s; cbn [In]; auto. }
    apply T in SA. apply T in SB. cbn [In] in SA, SB.
    repeat (destruct SA as [SA|SA]); try contradiction; repeat (destruct SB as [SB|SB]); try contradiction; rewrite <- SA, <- SB in E |- *; try reflexivity;
    vm_compute in E; discriminate E.
  - exfalso. symmetry in E. exact (not_special_image b a B SB SA A E).
  - exfalso. exact (not_special_image a b A SA SB B E).
  - rewrite (mk_plain a (f_own _ A) SA), (mk_plain b (f_own _ B) SB) in E. f_equal. apply esc_all_inj; [exact A|exact B|].
    apply render_inj; [apply esc_all_sep, A|apply esc_all_sep, B|exact E].
Qed.

(** ** Keywords. *)
Definition is_kw (s : text) : bool := existsb (text_eqb s) rws.
Lemma is_kw_In s : is_kw s = true <-> In s rws.
Proof.
  unfold is_kw. rewrite existsb_exists. split.
  - intros (x & I & E). apply text_eqb_true in E. subst. exact I.
  - intros I. exists s. split; [exact I|apply text_eqb_refl].
Qed.
Lemma rws_clear s : In s rws -> sep (map Ch s) = true /\ forallb own2 (map Ch s) = true.
Proof.
  assert (F : forallb (fun s => sep (map Ch s) && forallb own2 (map Ch s)) rws = true) by (vm_compute; reflexivity).
  intros I. rewrite forallb_forall in F. apply andb_true_iff. exact (F s I).
Qed.
Lemma kw_cfine l : cfine l -> exists l', cfine l' /\ un_ckeyword (render l) = render l'.
Proof.
  intros [S O N]. unfold un_ckeyword. change (existsb (text_eqb (render l)) rws) with (is_kw (render l)). destruct (is_kw (render l)).
  - exists (Mark 65 :: l). split; [|reflexivity]. split; [cbn [sep]; rewrite S; reflexivity|cbn [forallb]; rewrite O; reflexivity|discriminate].
  - exists l. split; [split; assumption|reflexivity].
Qed.
(** mk_cident never gives A_ and a keyword. *)
Lemma mk_not_kw a k : fine a -> In k rws -> mk_cident (render a) <> txt "A_" ++ k.
Proof.
  intros F I E. destruct (special (render a)) eqn:S.
  - assert (Q : forallb (fun k => negb (text_eqb (txt "complx") (txt "A_" ++ k)) && negb (text_eqb (txt "__complx__") (txt "A_" ++ k)) &&
                                  negb (text_eqb (txt "A_complex") (txt "A_" ++ k)) && negb (text_eqb (txt "A___complex__") (txt "A_" ++ k))) rws = true) by (vm_compute; reflexivity).
    rewrite forallb_forall in Q. specialize (Q k I). apply andb_true_iff in Q as [Q Q4]. apply andb_true_iff in Q as [Q Q3]. apply andb_true_iff in Q as [Q1 Q2].
    unfold special in S. apply orb_true_iff in S as [S|S]; [apply orb_true_iff in S as [S|S]; [apply orb_true_iff in S as [S|S]|]|];
    apply text_eqb_true in S; rewrite S in E.
    + change (mk_cident (txt "complex")) with (txt "complx") in E. rewrite E, text_eqb_refl in Q1. discriminate Q1.
    + change (mk_cident (txt "__complex__")) with (txt "__complx__") in E. rewrite E, text_eqb_refl in Q2. discriminate Q2.
    + change (mk_cident (txt "complx")) with (txt "A_complex") in E. rewrite E, text_eqb_refl in Q3. discriminate Q3.
    + change (mk_cident (txt "__complx__")) with (txt "A___complex__") in E. rewrite E, text_eqb_refl in Q4. discriminate Q4.
  - rewrite (mk_plain a (f_own _ F) S) in E. destruct (rws_clear k I) as [K1 K2].
    assert (R : esc_all a = Mark 65 :: map Ch k).
    { apply render_inj; [apply esc_all_sep, F|cbn [sep]; rewrite K1; reflexivity|]. rewrite E. cbn [render flat_map render1 app]. change (flat_map render1 (map Ch k)) with (render (map Ch k)). rewrite render_ch. reflexivity. }
    destruct F as [_ O _]. destruct a as [|[c|u] a]; cbn [esc_all first1] in R; [discriminate R| |].
    + destruct (c_start c); discriminate R.
    + injection R as -> _. discriminate O.
Qed.
Lemma gen_inj a b : fine a -> fine b -> un_ckeyword (mk_cident (render a)) = un_ckeyword (mk_cident (render b)) -> render a = render b.
Proof.
  intros A B E. apply mk_inj; [exact A|exact B|]. unfold un_ckeyword in E.
  change (existsb (text_eqb (mk_cident (render a))) rws) with (is_kw (mk_cident (render a))) in E.
  change (existsb (text_eqb (mk_cident (render b))) rws) with (is_kw (mk_cident (render b))) in E.
  destruct (is_kw (mk_cident (render a))) eqn:KA, (is_kw (mk_cident (render b))) eqn:KB.
  - injection E as E. exact E.
  - exfalso. apply is_kw_In in KA. symmetry in E. exact (mk_not_kw b _ B KA E).
  - exfalso. apply is_kw_In in KB. exact (mk_not_kw a _ A KB E).
  - exact E.
Qed.

(** ** nstr. *)
Fixpoint nsyms (n : name) : list sym :=
  match n with
  | Name s => map Ch s
  | Derived n s => nsyms n ++ match s with Internal _ _ _ => nsyms s | _ => Mark 68 :: nsyms s end
  | Internal p s i => Mark (prefix_char p) :: map Ch (unique i ++ s)
  end.
Lemma nstr_render n : nstr n = render (nsyms n).
Proof.
  induction n as [s|n IH s IHs|p s i]; cbn [nstr nsyms].
  - symmetry. apply render_ch.
  - rewrite render_app. destruct s; rewrite IH, ?IHs; reflexivity.
  - cbn [render flat_map render1 app]. change (flat_map render1 (map Ch (unique i ++ s))) with (render (map Ch (unique i ++ s))). rewrite render_ch. reflexivity.
Qed.
Lemma clear_sep s : clear_ s = true -> sep (map Ch s) = true /\ forallb own (map Ch s) = true.
Proof.
  induction s as [|c s IH]; intros C; [split; reflexivity|]. cbn [clear_] in C. apply andb_true_iff in C as [C C2]. apply andb_true_iff in C as [C0 C1].
  destruct (IH C2) as [I1 I2]. cbn [map sep forallb own]. rewrite I1, I2, C0. split; [|reflexivity]. rewrite !andb_true_r. destruct s; [reflexivity|exact C1].
Qed.
Lemma digits_sep ds l : Forall (fun c => is_digit c = true) ds -> sep l = true -> forallb own l = true ->
  sep (map Ch ds ++ l) = true /\ forallb own (map Ch ds ++ l) = true.
Proof.
  intros F S O. induction F as [|c ds H F [I1 I2]]; [split; assumption|]. cbn [map app]. 
  assert (P : plain c) by (unfold plain; rewrite H; reflexivity). destruct (plain_facts c P) as (U & _ & N & _). split.
  - apply sep_cons_ch; [exact I1|]. intros. rewrite U. reflexivity.
  - cbn [forallb own]. apply Nat.eqb_neq in N. rewrite N, I2. reflexivity.
Qed.
Lemma internal_fine p s i : good (Internal p s i) = true -> fine (nsyms (Internal p s i)).
Proof.
  intros G. apply andb_true_iff in G as [G _]. destruct (clear_sep s G) as [S O]. cbn [nsyms]. rewrite map_app.
  destruct (digits_sep (unique i) (map Ch s) (unique_digits i) S O) as [S2 O2]. split; [| |discriminate].
  - cbn [sep]. rewrite S2. destruct p; reflexivity.
  - cbn [forallb]. rewrite O2. destruct p; reflexivity.
Qed.
Lemma name_fine s : clean s = true -> fine (map Ch s).
Proof. intros C. destruct s as [|c s]; [discriminate C|]. destruct (clear_sep (c :: s) C). split; [assumption|assumption|discriminate]. Qed.
Lemma good_fine n : good n = true -> fine (nsyms n).
Proof.
  induction n as [s|n IH s IHs|p s i]; intros G; [apply name_fine; exact G| |apply internal_fine; exact G].
  cbn [good] in G. apply andb_true_iff in G as [G1 G2]. destruct (IH G1) as [S O N]. cbn [nsyms].
  assert (M : exists u t, match s with Internal _ _ _ => nsyms s | _ => Mark 68 :: nsyms s end = Mark u :: t /\ fine (Mark u :: t)).
  { destruct s as [s|? ?|p s i]; [| discriminate G2|].
    - exists 68, (map Ch s). split; [reflexivity|]. destruct (name_fine s G2) as [S2 O2 _]. split; [cbn [sep]; rewrite S2; reflexivity|cbn [forallb]; rewrite O2; reflexivity|discriminate].
    - exists (prefix_char p), (map Ch (unique i ++ s)). split; [reflexivity|]. apply (internal_fine p s i G2). }
  destruct M as (u & t & -> & [S2 O2 _]). split.
  - rewrite sep_app_mark, S. cbn [sep] in S2. exact S2.
  - rewrite forallb_app, O. exact O2.
  - destruct (nsyms n); [congruence|discriminate].
Qed.
(** Reading names back. *)
Fixpoint split (l : list sym) : text * list (nat * text) :=
  match l with
  | [] => ([], [])
  | Ch c :: t => let (a, b) := split t in (c :: a, b)
  | Mark u :: t => let (a, b) := split t in ([], (u, a) :: b)
  end.
Lemma split_ch s : split (map Ch s) = (s, []).
Proof. induction s as [|c s IH]; [reflexivity|]. cbn [map split]. rewrite IH. reflexivity. Qed.
Lemma split_app l u s : split (l ++ Mark u :: map Ch s) = (fst (split l), snd (split l) ++ [(u, s)]).
Proof.
  induction l as [|[c|v] l IH]; cbn [app split]; [rewrite split_ch; reflexivity| |]; rewrite IH; destruct (split l); reflexivity.
Qed.
Fixpoint span_digits (s : text) : text * text :=
  match s with
  | c :: t => if is_digit c then let (a, b) := span_digits t in (c :: a, b) else ([], s)
  | [] => ([], [])
  end.
Definition prefix_of (u : nat) : prefix :=
  match u with 71 => Globvar | 69 => Xistvar | 86 => Tempvar | 87 => Witness | 78 => NormPass | 67 => CPSPass | 76 => LLiftPass | _ => BoxPass end.
Definition internal (u : nat) (x : text) : name :=
  let (d, s) := span_digits x in Internal (prefix_of u) s (fold_left (fun a c => a * 10 + (c - 48)) d 0).
Definition grow (n : name) (p : nat * text) : name :=
  Derived n (if fst p =? 68 then Name (snd p) else internal (fst p) (snd p)).
Definition rebuild (p : text * list (nat * text)) : name :=
  match p with
  | ([], (u, x) :: l) => fold_left grow l (internal u x)
  | (t, l) => fold_left grow l (Name t)
  end.
Lemma show_value i : fold_left (fun a c => a * 10 + (c - 48)) (show_ i) 0 = i.
Proof.
  assert (G : forall ds, Forall (fun d => d < 10) ds -> forall v,
    fold_left (fun a c => a * 10 + (c - 48)) (map digit_char ds) v = fold_left (fun a d => a * 10 + d) ds v).
  { induction ds as [|d ds IH]; intros F v; [reflexivity|]. inversion F; subst. cbn [map fold_left]. rewrite IH by assumption. f_equal. f_equal.
    clear - H1. do 10 (destruct d as [|d]; [reflexivity|]). lia. }
  unfold show_. rewrite G by (apply digits_small; lia). apply digits_value. lia.
Qed.
Lemma internal_unique p s i : match s with c :: _ => negb (is_digit c) | [] => true end = true -> internal (prefix_char p) (unique i ++ s) = Internal p s i.
Proof.
  intros D. assert (S : forall ds, Forall (fun c => is_digit c = true) ds -> span_digits (ds ++ s) = (ds, s)).
  { intros ds F. induction F as [|c ds H F IH]; [|cbn [app span_digits]; rewrite H, IH; reflexivity].
    destruct s as [|c s]; [reflexivity|]. apply negb_true_iff in D. cbn [app span_digits]. rewrite D. reflexivity. }
  unfold internal. rewrite (S _ (unique_digits i)). f_equal; [destruct p; reflexivity|]. destruct i; [reflexivity|]. apply show_value.
Qed.
Lemma rebuild_snoc t l x : t <> [] \/ l <> [] -> rebuild (t, l ++ [x]) = grow (rebuild (t, l)) x.
Proof.
  intros N. destruct t as [|c t].
  - destruct l as [|[u y] l]; [destruct N; congruence|]. cbn [app rebuild]. apply fold_left_app.
  - cbn [rebuild]. apply fold_left_app.
Qed.
Lemma split_ne n : good n = true -> fst (split (nsyms n)) <> [] \/ snd (split (nsyms n)) <> [].
Proof.
  intros G. destruct (good_fine n G) as [_ _ N]. destruct (nsyms n) as [|[c|u] l]; [congruence| |]; cbn [split]; destruct (split l); cbn [fst snd]; [left|right]; discriminate.
Qed.
Lemma rebuild_name n : good n = true -> rebuild (split (nsyms n)) = n.
Proof.
  induction n as [s|n IH s IHs|p s i]; intros G.
  - cbn [nsyms]. rewrite split_ch. destruct s; [discriminate G|reflexivity].
  - pose proof G as G0. cbn [good] in G. apply andb_true_iff in G as [G1 G2]. cbn [nsyms]. pose proof (split_ne n G1) as N. specialize (IH G1).
    destruct s as [s|? ?|p s i]; [|discriminate G2|].
    + cbn [nsyms]. rewrite split_app, rebuild_snoc by exact N. rewrite <- surjective_pairing, IH. reflexivity.
    + cbn [nsyms]. rewrite split_app, rebuild_snoc by exact N. rewrite <- surjective_pairing, IH. unfold grow. cbn [fst snd].
      apply andb_true_iff in G2 as [_ D]. rewrite internal_unique by exact D. destruct p; reflexivity.
  - cbn [nsyms split]. rewrite split_ch. cbn [rebuild fold_left]. apply andb_true_iff in G as [_ D]. apply internal_unique. exact D.
Qed.
Lemma nstr_inj a b : good a = true -> good b = true -> nstr a = nstr b -> a = b.
Proof.
  intros A B E. rewrite !nstr_render in E. apply render_inj in E; [|apply good_fine; assumption..].
  rewrite <- (rebuild_name a A), <- (rebuild_name b B), E. reflexivity.
Qed.

(** ** Qualified names. *)
Lemma name_cfine n : good n = true -> exists l, cfine l /\ gen_name n = render l.
Proof.
  intros G. unfold gen_name. rewrite nstr_render. destruct (mk_cfine _ (good_fine n G)) as (l & F & ->). apply kw_cfine. exact F.
Qed.
Lemma own2_81 l : forallb own2 l = true -> ~ In (Mark 81) l.
Proof. intros O I. rewrite forallb_forall in O. discriminate (O _ I). Qed.
Lemma cut_Q (a b : list sym) x y : ~ In (Mark 81) a -> ~ In (Mark 81) b -> a ++ Mark 81 :: x = b ++ Mark 81 :: y -> a = b.
Proof.
  revert b. induction a as [|s a IH]; intros [|t b] A B E; [reflexivity| | |].
  - injection E as E _. exfalso. apply B. left. congruence.
  - injection E as E _. exfalso. apply A. left. congruence.
  - injection E as <- E. f_equal. apply IH; [intros I; apply A; right; exact I|intros I; apply B; right; exact I|exact E].
Qed.
Lemma cut_render a b r q : cfine a -> cfine b -> render a ++ txt "Q_" ++ r = render b ++ txt "Q_" ++ q -> render a = render b /\ r = q.
Proof.
  intros A B E. change (txt "Q_" ++ r) with (81 :: 95 :: r) in E. change (txt "Q_" ++ q) with (81 :: 95 :: q) in E.
  assert (P : parse (render a ++ 81 :: 95 :: r) = parse (render b ++ 81 :: 95 :: q)) by (rewrite E; reflexivity).
  rewrite !parse_app_mark in P by (try reflexivity; first [apply A|apply B]).
  apply cut_Q in P; [|apply own2_81; first [apply A|apply B]..]. subst b. split; [reflexivity|].
  apply app_inv_head in E. injection E as E. exact E.
Qed.
Lemma no_Q a b r : cfine a -> cfine b -> render a <> render b ++ txt "Q_" ++ r.
Proof.
  intros A B E. assert (P : parse (render a) = parse (render b ++ 81 :: 95 :: r)) by (rewrite E; reflexivity).
  rewrite parse_render, parse_app_mark in P by (try reflexivity; first [apply A|apply B]).
  apply (own2_81 a); [apply A|]. rewrite P. apply in_or_app. right. left. reflexivity.
Qed.
Definition glob (m : list text) (x : text) : text := gen_mod m ++ txt "Q_" ++ x.
Lemma glob_one c x : glob [c] x = gen_name (Name c) ++ txt "Q_" ++ x.
Proof. reflexivity. Qed.
Lemma glob_cons c d m x : glob (c :: d :: m) x = gen_name (Name c) ++ txt "Q_" ++ glob (d :: m) x.
Proof. unfold glob. change (gen_mod (c :: d :: m)) with (gen_name (Name c) ++ txt "Q_" ++ gen_mod (d :: m)). rewrite <- !app_assoc. reflexivity. Qed.
Lemma gen_name_inj a b : good a = true -> good b = true -> gen_name a = gen_name b -> a = b.
Proof.
  intros A B E. apply nstr_inj; [exact A|exact B|]. unfold gen_name in E. rewrite !nstr_render in *. apply gen_inj; [apply good_fine; exact A|apply good_fine; exact B|exact E].
Qed.
Lemma glob_inj m m' a b : forallb clean m = true -> forallb clean m' = true -> m <> [] -> m' <> [] -> cfine a -> cfine b ->
  glob m (render a) = glob m' (render b) -> m = m' /\ render a = render b.
Proof.
  revert m'. induction m as [|c m IH]; intros m' M M' N N' A B E; [congruence|]. destruct m' as [|c' m']; [congruence|].
  apply andb_true_iff in M as [M1 M2]. apply andb_true_iff in M' as [M1' M2'].
  destruct (name_cfine (Name c) M1) as (lc & Fc & Ec). destruct (name_cfine (Name c') M1') as (lc' & Fc' & Ec').
  assert (J : gen_name (Name c) = gen_name (Name c') -> c = c').
  { intros Q. apply gen_name_inj in Q; [injection Q as Q; exact Q|exact M1|exact M1']. }
  destruct m as [|d m], m' as [|d' m'].
  - rewrite !glob_one, Ec, Ec' in E. apply cut_render in E as [E1 E2]; [|assumption..]. split; [|exact E2]. rewrite (J ltac:(congruence)). reflexivity.
  - exfalso. rewrite glob_one, glob_cons, Ec, Ec' in E. apply cut_render in E as [E1 E2]; [|assumption..].
    destruct (name_cfine (Name d')) as (ld & Fd & Ed); [apply andb_true_iff in M2' as [M2' _]; exact M2'|].
    destruct m' as [|e m']; [rewrite glob_one in E2|rewrite glob_cons in E2]; rewrite Ed in E2; exact (no_Q _ _ _ A Fd E2).
  - exfalso. rewrite glob_one, glob_cons, Ec, Ec' in E. apply cut_render in E as [E1 E2]; [|assumption..].
    destruct (name_cfine (Name d)) as (ld & Fd & Ed); [apply andb_true_iff in M2 as [M2 _]; exact M2|]. symmetry in E2.
    destruct m as [|e m]; [rewrite glob_one in E2|rewrite glob_cons in E2]; rewrite Ed in E2; exact (no_Q _ _ _ B Fd E2).
  - rewrite !glob_cons, Ec, Ec' in E. apply cut_render in E as [E1 E2]; [|assumption..].
    destruct (IH (d' :: m') M2 M2' ltac:(discriminate) ltac:(discriminate) A B E2) as [I1 I2]. split; [|exact I2]. rewrite (J ltac:(congruence)), I1. reflexivity.
Qed.
(** How C names start. *)
Lemma cfine_start l r : cfine l -> match render l ++ r with 36 :: _ => False | 66 :: 95 :: _ => ~ (exists q, l = Ch 66 :: Ch 95 :: q) | _ => True end.
Proof.
  intros [S O N]. destruct l as [|[c|u] l]; [congruence| |]; apply andb_true_iff in O as [O _].
  - cbn [render flat_map render1 app]. assert (c <> 36) by (intros ->; discriminate O). do 37 (destruct c as [|c]; [first [exact I|congruence]|]).
    do 29 (destruct c as [|c]; [exact I|]). destruct c as [|c]; [|exact I]. destruct (flat_map render1 l ++ r) as [|d q]; [exact I|].
    do 95 (destruct d as [|d]; [exact I|]). destruct d as [|d]; [|exact I]. intros (q' & E). injection E as ->. discriminate S.
  - cbn [render flat_map render1 app]. assert (u <> 36 /\ u <> 66) as [? ?] by (split; intros ->; discriminate O). do 37 (destruct u as [|u]; [first [exact I|congruence]|]).
    do 29 (destruct u as [|u]; [exact I|]). destruct u as [|u]; [congruence|exact I].
Qed.
Lemma cfine_not_prim l r s : cfine l -> render l ++ r <> txt "$" ++ s.
Proof.
  intros [S O N] E. destruct l as [|[c|u] l]; [congruence| |]; apply andb_true_iff in O as [O _]; injection E as E _; subst; discriminate O.
Qed.
Lemma cfine_not_builtin l r s : cfine l -> (r = [] \/ exists q, r = txt "Q_" ++ q) -> render l ++ r <> txt "B_" ++ s.
Proof.
  intros F R E. pose proof F as [S O N].
  assert (P : parse (render l ++ r) = Mark 66 :: parse s) by (rewrite E; reflexivity).
  assert (Q : exists t, parse (render l ++ r) = l ++ t).
  { destruct R as [->|(q & ->)]; [exists []; rewrite !app_nil_r; apply parse_render; exact S|].
    exists (Mark 81 :: parse q). apply (parse_app_mark l 81 q S eq_refl). }
  destruct Q as [t Q]. rewrite Q in P. destruct l as [|x l]; [congruence|]. injection P as -> _. discriminate O.
Qed.
Lemma glob_start m x : forallb clean m = true -> m <> [] -> exists l r, cfine l /\ glob m x = render l ++ txt "Q_" ++ r.
Proof.
  intros M N. destruct m as [|c m]; [congruence|]. apply andb_true_iff in M as [M _]. destruct (name_cfine (Name c) M) as (l & F & E).
  exists l. destruct m as [|d m]; [exists x; rewrite glob_one, E; auto|exists (glob (d :: m) x); rewrite glob_cons, E; auto].
Qed.
Lemma global_good m n : good_q (Global m n) = true -> m <> [] /\ forallb clean m = true /\ good n = true.
Proof. cbn [good_q]. destruct m; [discriminate|]. intros H. apply andb_true_iff in H as [H1 H2]. repeat split; [discriminate|exact H1|exact H2]. Qed.
Lemma gen_qname_inj p q : good_q p = true -> good_q q = true -> gen_qname p = gen_qname q -> p = q.
Proof.
  assert (LP : forall n, good n = true -> exists l, cfine l /\ gen_name n = render l) by exact name_cfine.
  assert (LG : forall n, good n = true -> exists l, cfine l /\ mk_cident (nstr n) = render l).
  { intros n G. rewrite nstr_render. exact (mk_cfine _ (good_fine n G)). }
  assert (NP : forall n m k, good_q (Global m n) = true -> gen_qname (Global m n) <> txt "$" ++ k).
  { intros n m k G E. apply global_good in G as (N & M & _). destruct (glob_start m (mk_cident (nstr n)) M N) as (l & r & F & Q).
    change (gen_qname (Global m n)) with (glob m (mk_cident (nstr n))) in E. rewrite Q in E. exact (cfine_not_prim _ _ _ F E). }
  assert (NB : forall n m k, good_q (Global m n) = true -> gen_qname (Global m n) <> txt "B_" ++ k).
  { intros n m k G E. apply global_good in G as (N & M & _). destruct (glob_start m (mk_cident (nstr n)) M N) as (l & r & F & Q).
    change (gen_qname (Global m n)) with (glob m (mk_cident (nstr n))) in E. rewrite Q in E. exact (cfine_not_builtin _ _ _ F (or_intror (ex_intro _ r eq_refl)) E). }
  assert (LPn : forall n k, good n = true -> gen_name n <> txt "$" ++ k).
  { intros n k G E. destruct (LP n G) as (l & F & Q). rewrite Q, <- (app_nil_r (render l)) in E. exact (cfine_not_prim _ _ _ F E). }
  assert (LBn : forall n k, good n = true -> gen_name n <> txt "B_" ++ k).
  { intros n k G E. destruct (LP n G) as (l & F & Q). rewrite Q, <- (app_nil_r (render l)) in E. exact (cfine_not_builtin _ _ _ F (or_introl eq_refl) E). }
  assert (LGl : forall n m k, good n = true -> good_q (Global m k) = true -> gen_name n <> gen_qname (Global m k)).
  { intros n m k G H E. apply global_good in H as (N & M & _). destruct (glob_start m (mk_cident (nstr k)) M N) as (l & r & F & Q).
    change (gen_qname (Global m k)) with (glob m (mk_cident (nstr k))) in E. rewrite Q in E. destruct (LP n G) as (l' & F' & Q'). rewrite Q' in E. exact (no_Q _ _ _ F' F E). }
  intros P Q E. destruct p as [a|a|m a|a], q as [b|b|m' b|b]; try (cbn [gen_qname] in E; discriminate E).
  - f_equal. apply nstr_inj; [exact P|exact Q|]. cbn [gen_qname] in E. apply app_inv_head in E. exact E.
  - exfalso. symmetry in E. exact (NP _ _ _ Q E).
  - exfalso. symmetry in E. exact (LPn _ _ Q E).
  - f_equal. apply nstr_inj; [exact P|exact Q|]. cbn [gen_qname] in E. apply app_inv_head in E. exact E.
  - exfalso. symmetry in E. exact (NB _ _ _ Q E).
  - exfalso. symmetry in E. exact (LBn _ _ Q E).
  - exfalso. exact (NP _ _ _ P E).
  - exfalso. exact (NB _ _ _ P E).
  - apply global_good in P as (N & M & G). apply global_good in Q as (N' & M' & G').
    destruct (LG a G) as (la & Fa & Ea). destruct (LG b G') as (lb & Fb & Eb).
    change (glob m (mk_cident (nstr a)) = glob m' (mk_cident (nstr b))) in E. rewrite Ea, Eb in E.
    apply glob_inj in E as [-> E]; [|assumption..]. f_equal. apply nstr_inj; [exact G|exact G'|]. rewrite !nstr_render. apply mk_inj; [apply good_fine; exact G|apply good_fine; exact G'|].
    rewrite <- !nstr_render. congruence.
  - exfalso. symmetry in E. exact (LGl _ _ _ Q P E).
  - exfalso. exact (LPn _ _ P E).
  - exfalso. exact (LBn _ _ P E).
  - exfalso. exact (LGl _ _ _ P Q E).
  - f_equal. apply gen_name_inj; [exact P|exact Q|exact E].
Qed.

(** ** Identifiers. *)
Lemma start_char c : c_start c = true -> c_char c = true. Proof. unfold c_char. intros ->. reflexivity. Qed.
Lemma hex_chars c : forallb c_char (hex c) = true.
Proof.
  unfold hex. rewrite !forallb_app. apply andb_true_iff. split; [reflexivity|]. apply andb_true_iff. split; [|reflexivity].
  apply forallb_forall. intros x I. pose proof (hex_plain c) as F. rewrite Forall_forall in F. apply (plain_facts x (F x I)).
Qed.
Lemma hex_start c : exists r, hex c = 88 :: r. Proof. eexists. reflexivity. Qed.
Lemma esc_chars s : forallb c_char (esc s) = true.
Proof.
  induction s as [|c s IH]; [reflexivity|]. cbn [esc flat_map]. change (flat_map _ s) with (esc s). rewrite forallb_app, IH, andb_true_r.
  destruct (c_char c) eqn:E; [cbn [forallb]; rewrite E; reflexivity|apply hex_chars].
Qed.
Lemma mk_identifier s : s <> [] -> identifier (mk_cident s).
Proof.
  intros N. unfold mk_cident. do 4 (match goal with |- identifier (if ?b then _ else _) => destruct b; [split; reflexivity|] end).
  destruct s as [|c s]; [congruence|]. destruct (c_start c) eqn:E.
  - cbn [app identifier]. split; [exact E|apply esc_chars].
  - destruct (hex_start c) as [r R]. pose proof (hex_chars c) as H. rewrite R in *. cbn [app identifier]. apply andb_true_iff in H as [_ H].
    change (forallb c_char r = true) in H. split; [reflexivity|]. rewrite forallb_app, H. apply esc_chars.
Qed.
Lemma identifier_app a b : identifier a -> forallb c_char b = true -> identifier (a ++ b).
Proof. destruct a as [|c a]; [intros []|]. intros [S F] B. cbn [app identifier]. split; [exact S|]. rewrite forallb_app, F, B. reflexivity. Qed.
Lemma identifier_chars a : identifier a -> forallb c_char a = true.
Proof. destruct a as [|c a]; [intros []|]. intros [S F]. cbn [forallb]. rewrite (start_char c S), F. reflexivity. Qed.
Lemma kw_identifier s : identifier s -> identifier (un_ckeyword s).
Proof. intros I. unfold un_ckeyword. destruct (existsb _ _); [|exact I]. apply identifier_chars in I. split; [reflexivity|]. rewrite forallb_app. rewrite I. reflexivity. Qed.
Lemma mod_identifier m x : Forall (fun c => c <> []) m -> identifier x -> identifier (gen_mod m ++ txt "Q_" ++ x).
Proof.
  intros F I. pose proof (identifier_chars x I) as X. induction F as [|c m N F IH]; [split; [reflexivity|rewrite forallb_app, X; reflexivity]|].
  assert (C : identifier (gen_name (Name c))) by (apply kw_identifier, mk_identifier; exact N).
  destruct m as [|d m].
  - apply identifier_app; [exact C|]. rewrite forallb_app, X. reflexivity.
  - change (identifier (glob (c :: d :: m) x)). rewrite glob_cons. apply identifier_app; [exact C|]. apply identifier_chars in IH. rewrite forallb_app. change (glob (d :: m) x) with (gen_mod (d :: m) ++ txt "Q_" ++ x). rewrite IH. reflexivity.
Qed.
Lemma local_not_keyword s : ~ In (un_ckeyword s) c_keywords.
Proof.
  unfold un_ckeyword. change (existsb (text_eqb s) rws) with (is_kw s). destruct (is_kw s) eqn:K.
  - intros I. assert (F : forallb (fun k => negb (hd 0 k =? 65)) c_keywords = true) by (vm_compute; reflexivity). rewrite forallb_forall in F. discriminate (F _ I).
  - intros I. assert (F : forallb is_kw c_keywords = true) by (vm_compute; reflexivity). rewrite forallb_forall in F. rewrite (F _ I) in K. discriminate K.
Qed.
Lemma global_not_keyword m x : ~ In (gen_mod m ++ txt "Q_" ++ x) c_keywords.
Proof.
  intros I. assert (F : forallb (fun k => negb (existsb (Nat.eqb 81) k)) c_keywords = true) by (vm_compute; reflexivity). rewrite forallb_forall in F.
  specialize (F _ I). rewrite !existsb_app in F. change (existsb (Nat.eqb 81) (txt "Q_")) with true in F. rewrite orb_true_r in F. discriminate F.
Qed.

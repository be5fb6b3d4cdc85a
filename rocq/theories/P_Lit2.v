(** Literals: the parsers. *)
From Coq Require Import List ZArith Bool Lia ZifyBool.
From Verif Require Import S_Lit M_Lit P_Lit.
Import ListNotations.
Open Scope Z_scope.

Definition same_start (s : list Z) (us : list unit_) : Prop :=
  line_next s = false ->
  (forall p : Z -> bool, p 92 = false -> p 34 = false -> p 39 = false -> hd_is p (rends us) = hd_is p s) /\
  (hex_next s = false -> not_x us).
Lemma ucn_scalar : forall x, ucn x -> scalar x.
Proof. intros x H. unfold ucn, scalar in *. lia. Qed.
Lemma small_scalar : forall x, 0 <= x < 128 -> scalar x /\ utf8 x = [x].
Proof. intros x H. split; [unfold scalar; lia|]. unfold utf8. replace (x <? 128) with true by lia. reflexivity. Qed.
Lemma hd_rest : forall p s q rest, p q = false -> hd_is p s = false -> hd_is p (s ++ q :: rest) = false.
Proof. intros p [|c s] q rest Q H; [exact Q|exact H]. Qed.
Lemma hexes_all : forall k l ds s, forallb hex_digit ds = true -> length ds = k -> hexes k l (ds ++ s) = Some (92 :: l :: ds, s).
Proof. intros k l ds s F L. unfold hexes. rewrite take_all by (try exact F; lia). rewrite L, Nat.eqb_refl. reflexivity. Qed.
Lemma octs_all : forall ds s, forallb oct_digit ds = true -> (1 <= length ds <= 3)%nat -> number 8 ds < 256 ->
  ((length ds < 3)%nat -> hd_is oct_digit s = false) -> octs (ds ++ s) = Some (92 :: ds, s).
Proof.
  intros ds s F L V H. unfold octs. rewrite take_all by (try exact F; try lia; exact H).
  replace (Nat.eqb (length ds) 3 && hd_is (fun c => 51 <? c) ds) with false; [reflexivity|]. symmetry.
  destruct ds as [|a [|b [|c [|d ds]]]]; cbn [length] in L; try reflexivity.
  cbn [length Nat.eqb andb hd_is]. cbn [forallb] in F. apply andb_prop in F. destruct F as [A F]. apply andb_prop in F. destruct F as [B F]. apply andb_prop in F. destruct F as [C _].
  apply digit_oct in B, C. pose proof (digit_oct a A). unfold number in V. cbn [fold_left] in V. unfold oct_digit in A. unfold digit at 1 in V. replace (a <=? 57) with true in V by lia. lia.
Qed.
Lemma oct_other : forall d, oct_digit d = true -> d <> 34 /\ d <> 39 /\ d <> 120 /\ d <> 117 /\ d <> 85 /\ d <> 10 /\ d <> 92 /\ single d = false.
Proof.
  intros d H. unfold oct_digit in H. repeat split; try lia. unfold single. cbn [existsb]. lia.
Qed.
Ltac ev := change (92 =? 92) with true; change (92 =? 34) with false; change (92 =? 39) with false; change (92 =? 10) with false; change (92 =? 123) with false; change (92 =? 125) with false; cbn [orb]; cbv iota.

Lemma str_units : forall q, q = 34 \/ q = 39 -> forall s v, means true q s v -> exists us,
  (forall n rest, (length s < n)%nat -> parse_str n q (s ++ q :: rest) = Some (rends us, rest)) /\
  good us /\ flat_map bytes us = utf8s v /\ Forall scalar v /\ same_start s us.
Proof.
  intros q Q s v H. induction H as [|c s v SC C1 C2 C3 C4 C5 C6 H IH|c s v C H IH|s v H IH|c x s v SX X H IH|a b s v A B V H IH|ds s v F L V E X H IH|ds s v F L X H IH|ds s v F L V X H IH];
    try destruct IH as (us & P & G & B1 & FS & ST).
  - exists []. split; [|repeat split; auto]. intros n rest N. destruct n; [lia|]. cbn [app parse_str]. rewrite Z.eqb_refl. reflexivity.
  - exists (UC c :: us). specialize (C6 eq_refl). split; [|split; [|split; [|split]]].
    + intros n rest N. destruct n; [lia|]. cbn [length] in N. cbn [app parse_str]. replace (c =? q) with false by lia. replace ((c =? 123) || (c =? 125)) with false by lia.
      replace (c =? 92) with false by lia. replace (c =? 10) with false by lia. rewrite P by lia. reflexivity.
    + cbn [good ok]. auto.
    + cbn [flat_map bytes]. rewrite B1. reflexivity.
    + constructor; assumption.
    + intros _. split; [reflexivity|intros; exact I].
  - exists (UC c :: us). split; [|split; [|split; [|split]]].
    + intros n rest N. destruct n; [lia|]. cbn [length] in N. cbn [app parse_str]. replace (c =? q) with false by lia. replace ((c =? 123) || (c =? 125)) with true by lia.
      rewrite Z.eqb_refl. rewrite P by lia. reflexivity.
    + cbn [good ok]. repeat split; auto; lia.
    + cbn [flat_map bytes]. rewrite B1. reflexivity.
    + constructor; [unfold scalar; lia|assumption].
    + intros _. split; [reflexivity|intros; exact I].
  - exists us. split; [|split; [|split; [|split]]]; try assumption; [|intro D; discriminate D].
    intros n rest N. destruct n; [lia|]. cbn [length] in N. cbn [app parse_str]. replace (92 =? q) with false by lia. ev. unfold esc_str. replace (10 =? q) with false by lia.
    change (10 =? 120) with false. change (10 =? 117) with false. change (10 =? 85) with false. change (oct_digit 10) with false. change (single 10) with false. change (10 =? 10) with true. cbv iota.
    rewrite P by lia. reflexivity.
  - pose proof (simple_val c x SX) as XV. assert (NN : simple c <> None) by (rewrite SX; discriminate). destruct (simple_single c NN) as (S1 & S2 & S3 & S4 & S5 & S6 & S7 & _).
    destruct (small_scalar x ltac:(lia)) as [XS XU].
    assert (lead : exists u, ok u /\ bytes u = [x] /\ (rend u = [92; c] \/ rend u = [q]) /\ (forall n rest, (S (S (length s)) < n)%nat -> parse_str n q (92 :: c :: s ++ q :: rest) = Some (rend u ++ rends us, rest)) /\ not_x [u] /\ (u = US c \/ u = UC q)).
    { destruct (Z.eq_dec c q) as [->|CQ].
      - exists (UC q). split; [cbn [ok]; lia|]. split; [unfold simple in SX; destruct Q as [->| ->]; injection SX as <-; reflexivity|]. split; [right; reflexivity|]. split; [|split; [exact I|right; reflexivity]].
        intros n rest N. destruct n; [lia|]. cbn [parse_str]. replace (92 =? q) with false by lia. ev. unfold esc_str. rewrite Z.eqb_refl. rewrite P by lia. reflexivity.
      - exists (US c). split; [exact NN|]. split; [cbn [bytes]; rewrite SX; reflexivity|]. split; [left; reflexivity|]. split; [|split; [exact I|left; reflexivity]].
        intros n rest N. destruct n; [lia|]. cbn [parse_str]. replace (92 =? q) with false by lia. ev. unfold esc_str. replace (c =? q) with false by lia.
        replace (c =? 120) with false by lia. replace (c =? 117) with false by lia. replace (c =? 85) with false by lia. rewrite S5, S1. rewrite P by lia. reflexivity. }
    destruct lead as (u & U1 & U2 & U3 & U4_ & U5 & U6). exists (u :: us). split; [|split; [|split; [|split]]].
    + intros n rest N. cbn [length] in N. apply U4_. lia.
    + cbn [good]. split; [exact U1|]. split; [|exact G]. destruct U6 as [->| ->]; [|exact I]. intros ->. destruct (X eq_refl eq_refl) as [X1 X2]. apply ST; assumption.
    + cbn [flat_map]. rewrite U2, B1. unfold utf8s. cbn [flat_map]. rewrite XU. reflexivity.
    + constructor; assumption.
    + intros _. split; [|intros; destruct U6 as [->| ->]; exact I]. intros p P1 P2 P3. rewrite rends_cons. cbn [hd_is]. destruct U3 as [->| ->]; cbn [app hd_is]; [reflexivity|]. destruct Q as [->| ->]; congruence.
  - specialize (V eq_refl). pose proof (number_hex2 a b A B) as NV. destruct (small_scalar _ (conj (proj1 NV) V)) as [XS XU]. exists (UX a b :: us). split; [|split; [|split; [|split]]].
    + intros n rest N. destruct n; [lia|]. cbn [length] in N. cbn [app parse_str]. replace (92 =? q) with false by lia. ev. unfold esc_str. replace (120 =? q) with false by lia. change (120 =? 120) with true. cbv iota.
      change (a :: b :: s ++ q :: rest) with ([a; b] ++ (s ++ q :: rest)). rewrite hexes_all; [|cbn; rewrite A, B; reflexivity|reflexivity]. rewrite P by lia. reflexivity.
    + cbn [good ok]. auto.
    + cbn [flat_map bytes]. rewrite B1. unfold utf8s. cbn [flat_map]. rewrite XU. reflexivity.
    + constructor; assumption.
    + intros _. split; [reflexivity|intro D; discriminate D].
  - destruct (X eq_refl) as [X1 X2]. pose proof (number_oct ds F) as NV. destruct (small_scalar _ (conj NV X1)) as [XS XU]. destruct (ST X2) as [ST1 _]. exists (UO ds :: us). split; [|split; [|split; [|split]]].
    + intros n rest N. destruct n; [lia|]. cbn [length] in N. rewrite app_length in N. cbn [app]. rewrite <- app_assoc. destruct ds as [|d ds]; [cbn in L; lia|]. cbn [parse_str]. replace (92 =? q) with false by lia. ev.
      assert (D8 : oct_digit d = true) by (cbn [forallb] in F; apply andb_prop in F; tauto). destruct (oct_other d D8) as (D1 & D2 & D3 & D4 & D5 & D6 & D7 & D9).
      cbn [app]. unfold esc_str. replace (d =? q) with false by lia. replace (d =? 120) with false by lia. replace (d =? 117) with false by lia. replace (d =? 85) with false by lia. rewrite D8.
      change (d :: ds ++ s ++ q :: rest) with ((d :: ds) ++ (s ++ q :: rest)). rewrite octs_all; [|exact F|exact L|exact V|intro N3; apply hd_rest; [destruct Q as [->| ->]; reflexivity|exact (E N3)]].
      rewrite P by (cbn [length] in N; lia). reflexivity.
    + cbn [good ok]. repeat split; auto; try lia. intro N3. rewrite ST1 by reflexivity. exact (E N3).
    + cbn [flat_map bytes]. rewrite B1. unfold utf8s. cbn [flat_map]. rewrite XU. reflexivity.
    + constructor; assumption.
    + intros _. split; [reflexivity|intros; exact I].
  - specialize (X eq_refl). exists (U4 ds :: us). split; [|split; [|split; [|split]]].
    + intros n rest N. destruct n; [lia|]. cbn [length] in N. rewrite app_length in N. cbn [app parse_str]. rewrite <- app_assoc. replace (92 =? q) with false by lia. ev. unfold esc_str. replace (117 =? q) with false by lia.
      change (117 =? 120) with false. change (117 =? 117) with true. cbv iota. rewrite hexes_all by assumption. rewrite P by lia. reflexivity.
    + cbn [good ok]. auto.
    + cbn [flat_map bytes]. rewrite B1. reflexivity.
    + constructor; [apply ucn_scalar, X|assumption].
    + intros _. split; [reflexivity|intros; exact I].
  - specialize (X eq_refl). exists (U8 ds :: us). split; [|split; [|split; [|split]]].
    + intros n rest N. destruct n; [lia|]. cbn [length] in N. rewrite app_length in N. cbn [app parse_str]. rewrite <- app_assoc. replace (92 =? q) with false by lia. ev. unfold esc_str. replace (85 =? q) with false by lia.
      change (85 =? 120) with false. change (85 =? 117) with false. change (85 =? 85) with true. cbv iota. rewrite hexes_all by assumption. rewrite P by lia. reflexivity.
    + cbn [good ok]. auto.
    + cbn [flat_map bytes]. rewrite B1. reflexivity.
    + constructor; [apply ucn_scalar, X|assumption].
    + intros _. split; [reflexivity|intros; exact I].
Qed.
Lemma str_ok : forall q s v rest, q = 34 \/ q = 39 -> means true q s v -> ~ In 0 v -> str_literal q (s ++ q :: rest) = Some (Chars v, rest).
Proof.
  intros q s v rest Q H N. destruct (str_units q Q s v H) as (us & P & G & B & F & _). unfold str_literal, literal. rewrite P by (rewrite app_length; cbn [length]; lia).
  unfold run_str. rewrite c_text by exact G. rewrite B. cbn [option_map]. rewrite to_str_utf8 by assumption. reflexivity.
Qed.

(** ** Bytes. *)
Lemma good_h_cons : forall u us, match u with UO _ => hd_is dec_digit (rends us) = false | _ => True end -> good_h us -> good_h (u :: us).
Proof.
  intros u us H G a ds b E. destruct a as [|x a]; cbn [app] in E; injection E as E1 E2; subst; [exact H|]. apply (G a ds b eq_refl).
Qed.
Lemma bytes_units : forall q, q = 34 \/ q = 39 -> forall s v, bmeans true q s v -> exists us,
  (forall n rest, (length s < n)%nat -> parse_bytes n q (s ++ q :: rest) = Some (rends us, rest)) /\
  good us /\ good_h us /\ Forall no_u us /\ flat_map bytes us = v /\ length us = length v /\ same_start s us.
Proof.
  intros q Q s v H. induction H as [|c s v SC C1 C2 C3 C6 H IH|s v H IH|c x s v SX X H IH|a b s v A B H IH|ds s v F L V E X H IH];
    try destruct IH as (us & P & G & GH & NU & B1 & LN & ST).
  - exists []. split; [|repeat split; auto].
    + intros n rest N. destruct n; [lia|]. cbn [app parse_bytes]. rewrite Z.eqb_refl. reflexivity.
    + intros a ds b E. destruct a; discriminate E.
  - exists (UC c :: us). specialize (C6 eq_refl). destruct (small_scalar c SC) as [XS XU]. split; [|split; [|split; [|split; [|split; [|split]]]]].
    + intros n rest N. destruct n; [lia|]. cbn [length] in N. cbn [app parse_bytes]. replace (c =? q) with false by lia.
      replace (c =? 92) with false by lia. replace (c =? 10) with false by lia. replace (c <? 128) with true by lia. rewrite P by lia. reflexivity.
    + cbn [good ok]. auto.
    + apply good_h_cons; [exact I|exact GH].
    + constructor; [exact I|exact NU].
    + cbn [flat_map bytes]. rewrite B1, XU. reflexivity.
    + cbn [length]. lia.
    + intros _. split; [reflexivity|intros; exact I].
  - exists us. split; [|repeat (split; try assumption)]; [|intros; discriminate|intros; discriminate].
    intros n rest N. destruct n; [lia|]. cbn [length] in N. cbn [app parse_bytes]. replace (92 =? q) with false by lia. ev. cbn [esc_bytes]. change (10 =? 10) with true. cbv iota. rewrite P by lia. reflexivity.
  - pose proof (simple_val c x SX) as XV. assert (NN : simple c <> None) by (rewrite SX; discriminate). destruct (simple_single c NN) as (S1 & S2 & S3 & S4 & S5 & S6 & S7 & _).
    exists (US c :: us). split; [|split; [|split; [|split; [|split; [|split]]]]].
    + intros n rest N. destruct n; [lia|]. cbn [length] in N. cbn [app parse_bytes]. replace (92 =? q) with false by lia. ev. cbn [esc_bytes]. replace (c =? 10) with false by lia. rewrite S1. rewrite P by lia. reflexivity.
    + cbn [good ok]. split; [exact NN|]. split; [|exact G]. intros ->. destruct (X eq_refl eq_refl) as [X1 X2]. apply ST; assumption.
    + apply good_h_cons; [exact I|exact GH].
    + constructor; [exact I|exact NU].
    + cbn [flat_map bytes]. rewrite SX, B1. reflexivity.
    + cbn [length]. lia.
    + intros _. split; [reflexivity|intros; exact I].
  - exists (UX a b :: us). split; [|split; [|split; [|split; [|split; [|split]]]]].
    + intros n rest N. destruct n; [lia|]. cbn [length] in N. cbn [app parse_bytes]. replace (92 =? q) with false by lia. ev. cbn [esc_bytes]. change (120 =? 10) with false. change (single 120) with false. change (120 =? 120) with true. cbv iota.
      change (a :: b :: s ++ q :: rest) with ([a; b] ++ (s ++ q :: rest)). rewrite hexes_all; [|cbn; rewrite A, B; reflexivity|reflexivity]. rewrite P by lia. reflexivity.
    + cbn [good ok]. auto.
    + apply good_h_cons; [exact I|exact GH].
    + constructor; [exact I|exact NU].
    + cbn [flat_map bytes]. rewrite B1. reflexivity.
    + cbn [length]. lia.
    + intros _. split; [reflexivity|intro D; discriminate D].
  - destruct (X eq_refl) as [X1 X2]. destruct (ST X2) as [ST1 _]. exists (UO ds :: us). split; [|split; [|split; [|split; [|split; [|split]]]]].
    + intros n rest N. destruct n; [lia|]. cbn [length] in N. rewrite app_length in N. cbn [app]. rewrite <- app_assoc. destruct ds as [|d ds]; [cbn in L; lia|]. cbn [parse_bytes]. replace (92 =? q) with false by lia. ev.
      assert (D8 : oct_digit d = true) by (cbn [forallb] in F; apply andb_prop in F; tauto). destruct (oct_other d D8) as (D1 & D2 & D3 & D4 & D5 & D6 & D7 & D9).
      cbn [app esc_bytes]. replace (d =? 10) with false by lia. rewrite D9. replace (d =? 120) with false by lia. rewrite D8.
      change (d :: ds ++ s ++ q :: rest) with ((d :: ds) ++ (s ++ q :: rest)). rewrite octs_all; [|exact F|exact L|exact V|intro N3; apply hd_rest; [destruct Q as [->| ->]; reflexivity|exact (E N3)]].
      rewrite P by (cbn [length] in N; lia). reflexivity.
    + cbn [good ok]. repeat split; auto; try lia. intro N3. rewrite ST1 by reflexivity. exact (E N3).
    + apply good_h_cons; [|exact GH]. rewrite ST1 by reflexivity. exact X1.
    + constructor; [exact I|exact NU].
    + cbn [flat_map bytes]. rewrite B1. reflexivity.
    + cbn [length]. lia.
    + intros _. split; [reflexivity|intros; exact I].
Qed.
Lemma bytes_ok : forall q s v rest, q = 34 \/ q = 39 -> bmeans true q s v -> bytes_literal q (s ++ q :: rest) = Some (Bytes v, rest).
Proof.
  intros q s v rest Q H. destruct (bytes_units q Q s v H) as (us & P & G & GH & NU & B & LN & _). unfold bytes_literal, literal. rewrite P by (rewrite app_length; cbn [length]; lia).
  unfold run_bytes. rewrite c_text by exact G. destruct (split_units us G) as (uss & -> & E & F). rewrite h_all by (rewrite ?E; assumption). rewrite E, LN, B.
  replace (Z.of_nat (length v) <=? Z.of_nat (length v) + 1) with true by lia. rewrite Nat2Z.id, firstn_app, firstn_all, Nat.sub_diag. cbn [firstn option_map]. rewrite app_nil_r. reflexivity.
Qed.

(** ** Raw strings. *)
Lemma no_x_not : forall us, Forall no_x us -> not_x us.
Proof. intros [|u us] F; [exact I|]. inversion F; subst. destruct u; auto. Qed.
Lemma raw_units : forall q, q = 34 \/ q = 39 -> forall s v, rmeans true q s v -> exists us,
  (forall n rest, (length s < n)%nat -> parse_raw n q (s ++ q :: rest) = Some (rends us, rest)) /\
  good us /\ Forall no_x us /\ flat_map bytes us = utf8s v /\ Forall scalar v.
Proof.
  intros q Q s v H. induction H as [|c s v SC C1 C2 C3 C6 H IH|c s v SC X H IH]; try destruct IH as (us & P & G & NX & B1 & FS).
  - exists []. split; [|repeat split; auto]. intros n rest N. destruct n; [lia|]. cbn [app parse_raw]. rewrite Z.eqb_refl. reflexivity.
  - exists (UC c :: us). specialize (C6 eq_refl). split; [|split; [|split; [|split]]].
    + intros n rest N. destruct n; [lia|]. cbn [length] in N. cbn [app parse_raw]. replace (c =? q) with false by lia.
      replace (c =? 92) with false by lia. replace (c =? 10) with false by lia. rewrite P by lia. reflexivity.
    + cbn [good ok]. auto.
    + constructor; [exact I|exact NX].
    + cbn [flat_map bytes]. rewrite B1. reflexivity.
    + constructor; assumption.
  - destruct (X eq_refl) as [X1 X2].
    assert (lead : exists u, ok u /\ no_x u /\ match u with UC _ => True | US c => c <> 92 | _ => False end /\ bytes u = utf8 c /\ forall n rest, (S (S (length s)) < n)%nat -> parse_raw n q (92 :: c :: s ++ q :: rest) = Some (92 :: 92 :: rend u ++ rends us, rest)).
    { destruct (Z.eq_dec c 10) as [->|C10]; [|destruct (Z.eq_dec c 39) as [->|C39]; [|destruct (Z.eq_dec c 34) as [->|C34]]].
      - exists (US 110). repeat split; try discriminate. intros n rest N. destruct n; [lia|]. cbn [parse_raw]. replace (92 =? q) with false by lia. ev. cbn [esc_raw]. change (10 =? 10) with true. cbv iota. rewrite P by lia. reflexivity.
      - exists (US 39). repeat split; try discriminate. intros n rest N. destruct n; [lia|]. cbn [parse_raw]. replace (92 =? q) with false by lia. ev. cbn [esc_raw]. change (39 =? 10) with false. change ((39 =? 39) || (39 =? 34)) with true. cbv iota. rewrite P by lia. reflexivity.
      - exists (US 34). repeat split; try discriminate. intros n rest N. destruct n; [lia|]. cbn [parse_raw]. replace (92 =? q) with false by lia. ev. cbn [esc_raw]. change (34 =? 10) with false. change ((34 =? 39) || (34 =? 34)) with true. cbv iota. rewrite P by lia. reflexivity.
      - exists (UC c). repeat split; try discriminate; try assumption. intros n rest N. destruct n; [lia|]. cbn [parse_raw]. replace (92 =? q) with false by lia. ev. cbn [esc_raw]. replace (c =? 10) with false by lia. replace ((c =? 39) || (c =? 34)) with false by lia.
        destruct n; [lia|]. cbn [parse_raw]. replace (c =? q) with false by lia. replace (c =? 92) with false by lia. replace (c =? 10) with false by lia. rewrite P by lia. reflexivity. }
    destruct lead as (u & U1 & U2 & U3 & U4_ & U5). exists (US 92 :: u :: us). split; [|split; [|split; [|split]]].
    + intros n rest N. cbn [length] in N. cbn [app]. rewrite U5 by lia. reflexivity.
    + cbn [good]. split; [discriminate|]. split; [intros _; apply no_x_not; constructor; assumption|]. split; [exact U1|]. split; [|exact G].
      destruct u; try exact I; try contradiction. 
    + constructor; [exact I|constructor; assumption].
    + cbn [flat_map]. rewrite U4_, B1. reflexivity.
    + constructor; [unfold scalar; lia|constructor; assumption].
Qed.
Lemma raw_ok : forall q s v rest, q = 34 \/ q = 39 -> rmeans true q s v -> ~ In 0 v -> raw_literal q (s ++ q :: rest) = Some (Chars v, rest).
Proof.
  intros q s v rest Q H N. destruct (raw_units q Q s v H) as (us & P & G & _ & B & F). unfold raw_literal, literal. rewrite P by (rewrite app_length; cbn [length]; lia).
  unfold run_str. rewrite c_text by exact G. rewrite B. cbn [option_map]. rewrite to_str_utf8 by assumption. reflexivity.
Qed.

(** C77: random numbers. *)
From Coq Require Import String.
From Verif Require Import Base P_Base P_Bmh M_Bigint S_Bigint P_BigStr M_Http M_Random S_Random T_Bigint P_Random.
From Coq Require Import ZifyBool ZifyNat.
Open Scope Z_scope.

(** randint(min, max), when it returns, returns a number from min up to but not including max, whatever rand()
    returned, and has used at least one of its values. *)
Theorem C77_range : forall min max rs v rest, whole min -> whole max -> min < max -> max - min < 2 ^ 63 -> Forall raw rs -> randint min max rs = Ok (v, rest) ->
  min <= v < max /\ exists used, rs = used ++ rest /\ used <> [].
Proof. exact randint_range. Qed.
Print Assumptions C77_range.

(** Every number of the range has the same count of values of rand() that give it. *)
Theorem C77_even : forall min max v, whole min -> whole max -> min < max -> max - min < 2 ^ 63 -> min <= v < max ->
  exists L, NoDup L /\ Forall raw L /\ zlen L = RAND_MAX / (max - min) /\ forall r rs, raw r -> (In r L <-> randint min max (r :: rs) = Ok (v, rs)).
Proof. intros min max v Hm HM L W Hv. eexists. exact (raws_ok min max v Hm HM L W Hv). Qed.
Print Assumptions C77_even.

(** At least half of the values of rand() are taken; the others are passed over. *)
Theorem C77_half : forall min max, whole min -> whole max -> 0 < max - min <= RAND_MAX ->
  exists e, RAND_MAX + 1 <= 2 * e /\ forall r rs, raw r ->
    (r < e -> exists v, randint min max (r :: rs) = Ok (v, rs)) /\ (e <= r -> randint min max (r :: rs) = randint min max rs).
Proof.
  intros min max Hm HM H. exists (bound (max - min)). split.
  - destruct (bound_range (max - min) ltac:(lia)) as [_ B]. assert (1 <= RAND_MAX / (max - min)) by (apply Z.div_le_lower_bound; lia). unfold bound in *. nia.
  - intros r rs Hr. unfold raw, RAND_MAX in *. split; intros C.
    + eexists. apply randint_one; [assumption|assumption|lia|lia|lia].
    + apply randint_skip; [assumption|assumption|lia|lia|lia].
Qed.
Print Assumptions C77_half.

(** The wrong way round is a ValueError. *)
Theorem C77_order : forall min max rs, max < min -> randint min max rs = Exn ValueError.
Proof. intros min max rs H. unfold randint. assert (E : (max <? min) = true) by lia. rewrite E. reflexivity. Qed.
Print Assumptions C77_order.
Example C77_case : whole (-3) /\ whole 3 /\ Forall raw [2147483646; 20] /\ randint (-3) 3 [2147483646; 20] = Ok (-1, []).
Proof. split; [unfold whole; lia|]. split; [unfold whole; lia|]. split; [repeat constructor; vm_compute; congruence|vm_compute; reflexivity]. Qed.

(** Three gaps: a range wider than RAND_MAX is never done; an empty range divides by zero; a range that does not
    fit 64 bits gives min every time. *)
Theorem C77_refuted :
  (forall min max rs, whole min -> whole max -> RAND_MAX < max - min < 2 ^ 63 -> Forall raw rs -> randint min max rs = NoFuel) /\
  (forall n rs, randint n n rs = UB) /\
  (forall r rs, 0 <= r < RAND_MAX -> randint (- 2 ^ 63) (2 ^ 63 - 1) (r :: rs) = Ok (- 2 ^ 63, rs)).
Proof.
  split; [|split].
  - intros min max rs Hm HM W F. rewrite randint_eq by (unfold RAND_MAX in *; auto; lia). assert (E : bound (max - min) = 0) by (unfold bound; rewrite Z.div_small by (unfold RAND_MAX in *; lia); reflexivity).
    rewrite E, spin_never; [reflexivity|]. eapply Forall_impl; [|exact F]. unfold raw. intros; lia.
  - intros n rs. unfold randint. rewrite Z.ltb_irrefl, Z.sub_diag. reflexivity.
  - intros r rs H. unfold randint. change (2 ^ 63 - 1 <? - 2 ^ 63) with false. change (wrapS 64 (2 ^ 63 - 1 - - 2 ^ 63)) with (-1). change (wrapS 64 (Z.quot RAND_MAX (-1) * -1)) with RAND_MAX. cbn [Z.eqb]. cbn [spin].
    assert (E : (RAND_MAX <=? r) = false) by lia. rewrite E. cbn [bindr]. assert (Q : Z.rem r (-1) = 0) by (change (-1) with (- (1)); rewrite Z.rem_opp_r by lia; apply Z.rem_1_r). rewrite Q. reflexivity.
Qed.
Print Assumptions C77_refuted.

(** choice() returns an element of the list, every one can be returned, and an empty list is a ValueError. *)
Theorem C77_choice : forall (A : Type) (l : list A), zlen l <= RAND_MAX ->
  (forall rs x rest, Forall raw rs -> choice l rs = Ok (x, rest) -> In x l) /\
  (forall x, In x l -> exists r, raw r /\ forall rs, choice l (r :: rs) = Ok (x, rs)) /\
  (l = [] -> forall rs, choice l rs = Exn ValueError).
Proof.
  intros A l W. split; [|split].
  - intros rs x rest F E. apply choice_ok in E as (i & G & _); [|unfold RAND_MAX in W; lia|exact F]. apply (zget_in _ _ _ G).
  - intros x H. destruct (in_zget _ _ H) as [i G]. apply (choice_reach l i x G W).
  - intros -> rs. reflexivity.
Qed.
Print Assumptions C77_choice.

(** randstr(n) has n characters, letters and digits; every such text can come. *)
Lemma chars_ok c : In c CHARS <-> letter_or_digit c.
Proof.
  split.
  - intros H. assert (G : forallb (fun c => (65 <=? c) && (c <=? 90) || (97 <=? c) && (c <=? 122) || (48 <=? c) && (c <=? 57)) CHARS = true) by (vm_compute; reflexivity).
    rewrite forallb_forall in G. specialize (G c H). unfold letter_or_digit. lia.
  - intros H. assert (G : forallb (fun c => existsb (Z.eqb c) CHARS) (map Z.of_nat (seq 65 26 ++ seq 97 26 ++ seq 48 10)) = true) by (vm_compute; reflexivity). rewrite forallb_forall in G.
    specialize (G c). assert (I : In c (map Z.of_nat (seq 65 26 ++ seq 97 26 ++ seq 48 10))).
    { apply in_map_iff. exists (Z.to_nat c). unfold letter_or_digit in H. split; [lia|]. rewrite !in_app_iff, !in_seq. lia. }
    apply G in I. apply existsb_exists in I as (y & Hy & E). assert (c = y) by lia. subst. exact Hy.
Qed.
Theorem C77_randstr :
  (forall n rs t rest, Forall raw rs -> randstr n rs = Ok (t, rest) -> zlen t = Z.max 0 n /\ Forall letter_or_digit t) /\
  (forall t, Forall letter_or_digit t -> exists us, Forall raw us /\ forall rs, randstr (zlen t) (us ++ rs) = Ok (t, rs)).
Proof.
  split.
  - intros n rs t rest F E. apply choices_ok in E as (L & I & _); [|vm_compute; congruence|exact F]. split; [unfold zlen; lia|]. eapply Forall_impl; [|exact I]. intros c. apply chars_ok.
  - intros t F. destruct (choices_reach CHARS t) as (us & Fu & E); [vm_compute; congruence|eapply Forall_impl; [|exact F]; intros c; apply chars_ok|]. exists us. split; [exact Fu|]. intros rs. unfold randstr, zlen. rewrite Nat2Z.id. apply E.
Qed.
Print Assumptions C77_randstr.

(** sample(l, k) is k elements of l from k different places, and every choice of places, in every order, can come. *)
Theorem C77_sample : forall (A : Type) (l : list A) k, zlen l <= RAND_MAX ->
  (0 <= k <= zlen l -> forall rs vs rest, Forall raw rs -> sample l k rs = Ok (vs, rest) ->
     exists ps, NoDup ps /\ zlen ps = k /\ Forall2 (fun p v => zget l p = Some v) ps vs) /\
  (forall ps vs, NoDup ps -> zlen ps = k -> Forall2 (fun p v => zget l p = Some v) ps vs -> exists us, Forall raw us /\ forall rs, sample l k (us ++ rs) = Ok (vs, rs)) /\
  (k < 0 \/ zlen l < k -> forall rs, sample l k rs = Exn ValueError).
Proof.
  intros A l k W. destruct (indices_ok l) as (D & L & I). split; [|split].
  - intros H rs vs rest F. unfold sample. assert (E : negb ((0 <=? k) && (k <=? zlen l)) = false) by lia. rewrite E. intros S.
    apply sample_loop_ok in S as (ps & Dp & Lp & _ & F2); [|rewrite L; unfold RAND_MAX in W; lia|exact D|exact F]. exists ps. split; [exact Dp|]. split; [unfold zlen; lia|exact F2].
  - intros ps vs Dp Lp F2. assert (Ip : incl ps (map Z.of_nat (seq 0 (List.length l)))).
    { intros p Hp. apply I. clear -F2 Hp. induction F2 as [|q v ps vs G _ IH]; [destruct Hp|]. destruct Hp as [-> | Hp]; [apply (zget_lt _ _ _ G)|auto]. }
    destruct (sample_loop_reach l ps _ vs ltac:(rewrite L; exact W) Dp Ip F2) as (us & Fu & E). exists us. split; [exact Fu|]. intros rs. unfold sample.
    assert (B : zlen ps <= zlen l). { apply NoDup_incl_length in Ip; [|exact Dp]. rewrite map_length, seq_length in Ip. unfold zlen. lia. } pose proof (zlen_nn ps).
    assert (E2 : negb ((0 <=? k) && (k <=? zlen l)) = false) by lia. rewrite E2. replace (Z.to_nat k) with (List.length ps) by (unfold zlen in Lp; lia). apply E.
  - intros H rs. unfold sample. assert (E : negb ((0 <=? k) && (k <=? zlen l)) = true) by lia. rewrite E. reflexivity.
Qed.
Print Assumptions C77_sample.
(** So not in their original order, as its description says. *)
Theorem C77_sample_refuted : exists rs, Forall raw rs /\ sample [10; 20; 30] 2 rs = Ok ([30; 10], []).
Proof. exists [2; 0]. split; [repeat constructor; vm_compute; congruence|vm_compute; reflexivity]. Qed.
Print Assumptions C77_sample_refuted.

(** rand_bigint(n) has at most n digits. *)
Theorem C77_bigint : forall n rs v rest, 0 < n -> Forall raw rs -> rand_bigint n rs = Ok (v, rest) -> - 10 ^ n < v < 10 ^ n.
Proof.
  intros n rs v rest Hn F. unfold rand_bigint. destruct (n <=? 0) eqn:E0; [lia|]. destruct (choice _ rs) as [[s r]| | |] eqn:E1; try discriminate. cbn [bindr].
  destruct (choices _ _ r) as [[ds r']| | |] eqn:E2; try discriminate. cbn [bindr]. apply choice_ok in E1 as (i & G & _ & F2); [|reflexivity|exact F]. apply zget_in in G.
  apply choices_ok in E2 as (Ld & Id & _); [|reflexivity|exact F2]. assert (Nd : ds <> []) by (intros ->; cbn in Ld; lia).
  destruct (digits_value ds Id Nd) as (w & N & B & Lc & Fc). assert (Lz : zlen ds = n) by (unfold zlen; lia). rewrite Lz in *. cbn [List.concat]. set (t := List.concat ds) in *.
  assert (Nz : forall u, u = [] \/ u = lit "-" -> ~ In 0 (u ++ t)). { intros u Hu C. apply in_app_or in C as [C|C]; [destruct Hu as [-> | ->]; cbn in C; lia|]. rewrite Forall_forall in Fc. apply Fc in C. lia. }
  assert (NP : ~ has_prefix t). { intros (p & r0 & b & A & (c & -> & Gc)). rewrite A in Fc. inversion Fc as [|? ? _ F1]; subst. inversion F1; subst. lia. }
  assert (W : forall u sgn, sign_text u sgn -> written (u ++ t) None sgn 10 t w). { intros u sgn T. exists [], u, []. cbn [app]. split; [reflexivity|]. split; [constructor|]. split; [exact T|]. split; [exact N|]. split; [lia|]. right. auto. }
  destruct G as [<-|[<-|[]]].
  - rewrite (C53_parse_partial _ None 1 10 t w); [cbn [bindr]; intros Ev; assert (Hv := f_equal (fun r => match r with Ok (x, _) => x | _ => v end) Ev); cbv beta iota in Hv; lia|apply Nz; auto|apply (W [] 1); left; auto|discriminate].
  - destruct (Z.eq_dec (zlen t mod 18) 0) as [M|M].
    + rewrite (proj1 C53_parse_refuted _ None 10 t w 18); [cbn [bindr]; intros Ev; assert (Hv := f_equal (fun r => match r with Ok (x, _) => x | _ => v end) Ev); cbv beta iota in Hv; lia|apply Nz; auto|apply (W (lit "-") (-1)); right; split; reflexivity|split; [lia|split; reflexivity || (vm_compute; congruence)]|exact M].
    + rewrite (C53_parse_partial _ None (-1) 10 t w); [cbn [bindr]; intros Ev; assert (Hv := f_equal (fun r => match r with Ok (x, _) => x | _ => v end) Ev); cbv beta iota in Hv; lia|apply Nz; auto|apply (W (lit "-") (-1)); right; split; reflexivity|].
      intros _ p D. apply (dpw 10 p ltac:(lia)) in D. subst p. exact M.
Qed.
Print Assumptions C77_bigint.
(** With a multiple of 18 digits it is never negative. *)
Theorem C77_bigint_refuted : forall n rs v rest, 0 < n -> n mod 18 = 0 -> Forall raw rs -> rand_bigint n rs = Ok (v, rest) -> 0 <= v.
Proof.
  intros n rs v rest Hn Hm F. unfold rand_bigint. destruct (n <=? 0) eqn:E0; [lia|]. destruct (choice _ rs) as [[s r]| | |] eqn:E1; try discriminate. cbn [bindr].
  destruct (choices _ _ r) as [[ds r']| | |] eqn:E2; try discriminate. cbn [bindr]. apply choice_ok in E1 as (i & G & _ & F2); [|reflexivity|exact F]. apply zget_in in G.
  apply choices_ok in E2 as (Ld & Id & _); [|reflexivity|exact F2]. assert (Nd : ds <> []) by (intros ->; cbn in Ld; lia).
  destruct (digits_value ds Id Nd) as (w & N & B & Lc & Fc). assert (Lz : zlen ds = n) by (unfold zlen; lia). rewrite Lz in *. cbn [List.concat]. set (t := List.concat ds) in *.
  assert (Nz : forall u, u = [] \/ u = lit "-" -> ~ In 0 (u ++ t)). { intros u Hu C. apply in_app_or in C as [C|C]; [destruct Hu as [-> | ->]; cbn in C; lia|]. rewrite Forall_forall in Fc. apply Fc in C. lia. }
  assert (NP : ~ has_prefix t). { intros (p & r0 & b & A & (c & -> & Gc)). rewrite A in Fc. inversion Fc as [|? ? _ F1]; subst. inversion F1; subst. lia. }
  assert (W : forall u sgn, sign_text u sgn -> written (u ++ t) None sgn 10 t w). { intros u sgn T. exists [], u, []. cbn [app]. split; [reflexivity|]. split; [constructor|]. split; [exact T|]. split; [exact N|]. split; [lia|]. right. auto. }
  destruct G as [<-|[<-|[]]].
  - rewrite (C53_parse_partial _ None 1 10 t w); [cbn [bindr]; intros Ev; assert (Hv := f_equal (fun r => match r with Ok (x, _) => x | _ => v end) Ev); cbv beta iota in Hv; lia|apply Nz; auto|apply (W [] 1); left; auto|discriminate].
  - rewrite (proj1 C53_parse_refuted _ None 10 t w 18); [cbn [bindr]; intros Ev; assert (Hv := f_equal (fun r => match r with Ok (x, _) => x | _ => v end) Ev); cbv beta iota in Hv; lia|apply Nz; auto|apply (W (lit "-") (-1)); right; split; reflexivity|split; [lia|split; reflexivity || (vm_compute; congruence)]|rewrite Lc; exact Hm].
Qed.
Print Assumptions C77_bigint_refuted.
Example C77_bigint_case : exists rs, Forall raw rs /\ rand_bigint 18 rs = Ok (111111111111111111, []) /\ rand_bigint 2 [1; 4; 2] = Ok (-42, []).
Proof. exists (repeat 1 19). split; [apply Forall_forall; intros x Hx; apply repeat_spec in Hx; subst x; unfold raw, RAND_MAX; lia|]. split; vm_compute; reflexivity. Qed.

(** rand_list(n): fewer than n numbers, each from -n up to but not including n. *)
Theorem C77_list : forall n rs xs rest, 0 < n < 2 ^ 62 -> Forall raw rs -> rand_list n rs = Ok (xs, rest) -> zlen xs < n /\ Forall (fun x => - n <= x < n) xs.
Proof.
  intros n rs xs rest Hn F. unfold rand_list. destruct (n <=? 0) eqn:E0; [lia|]. destruct (randint 0 n rs) as [[k r]| | |] eqn:E; try discriminate. cbn [bindr]. intros H.
  apply randint_range in E as (B & u & -> & _); [|unfold whole; lia|unfold whole; lia|lia|lia|exact F]. apply Forall_app in F as [_ F]. apply rand_ints_ok in H as [L G]; [|exact Hn|exact F]. split; [unfold zlen; lia|exact G].
Qed.
Print Assumptions C77_list.
Example C77_list_case : Forall raw [2; 0; 9] /\ rand_list 5 [2; 0; 9] = Ok ([-5; 4], []).
Proof. split; [repeat constructor; vm_compute; congruence|vm_compute; reflexivity]. Qed.

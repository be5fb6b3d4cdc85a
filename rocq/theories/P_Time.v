(** Time: arithmetic and digits. *)
From Coq Require Import String Ascii.
From Verif Require Import Base P_Base M_Int M_Bigint S_Bigint M_Http P_Http2 P_Http5 M_Time S_Time.
From Coq Require Import ZifyBool ZifyNat.
Local Notation llen := List.length.

Definition M63 := 9223372036854775808.
Definition M64 := 18446744073709551616.
Lemma w64 z : exists k, norm TInt (prom TInt z) = z + k * M64 /\ - M63 <= norm TInt (prom TInt z) < M63.
Proof.
  cbn [norm prom signed psigned bits pbits]. unfold wrapS. change (2 ^ (64 - 1)) with M63. change (2 ^ 64) with M64.
  set (a := (z + M63) mod M64). pose proof (Z.mod_pos_bound (z + M63) M64 ltac:(unfold M64; lia)) as Ha. fold a in Ha.
  replace ((a - M63 + M63) mod M64) with a by (rewrite Z.sub_add; symmetry; apply Z.mod_small; lia).
  exists (- ((z + M63) / M64)). pose proof (Z.div_mod (z + M63) M64 ltac:(unfold M64; lia)) as D. fold a in D. unfold M63, M64 in *. lia.
Qed.
Lemma add_spec a b : exists k, add_ a b = a + b + k * M64 /\ - M63 <= add_ a b < M63.
Proof. apply w64. Qed.
Lemma sub_spec a b : exists k, sub_ a b = a - b + k * M64 /\ - M63 <= sub_ a b < M63.
Proof. apply w64. Qed.
Lemma mul_spec a b : exists k, mul_ a b = a * b + k * M64 /\ - M63 <= mul_ a b < M63.
Proof. apply w64. Qed.
Lemma w64_id z : - M63 <= z < M63 -> norm TInt (prom TInt z) = z.
Proof. intros H. destruct (w64 z) as (k & E & B). unfold M63, M64 in *. lia. Qed.
Lemma add_ok a b : - M63 <= a + b < M63 -> add_ a b = a + b.
Proof. apply w64_id. Qed.
Lemma sub_ok a b : - M63 <= a - b < M63 -> sub_ a b = a - b.
Proof. apply w64_id. Qed.
Lemma mul_ok a b : - M63 <= a * b < M63 -> mul_ a b = a * b.
Proof. apply w64_id. Qed.
Lemma quot_bound a b : 1 <= b -> - M63 <= a < M63 -> - M63 <= Z.quot a b < M63.
Proof.
  intros Hb Ha. destruct (Z.le_gt_cases 0 a) as [H|H].
  - rewrite Z.quot_div_nonneg by lia. pose proof (Z.div_pos a b H ltac:(lia)). pose proof (Z.div_le_upper_bound a b a ltac:(lia) ltac:(nia)). lia.
  - replace a with (- (- a)) by lia. rewrite Z.quot_opp_l by lia. rewrite Z.quot_div_nonneg by lia. pose proof (Z.div_pos (- a) b ltac:(lia) ltac:(lia)). pose proof (Z.div_le_upper_bound (- a) b (- a) ltac:(lia) ltac:(nia)). lia.
Qed.
Lemma div_ok a b : 1 <= b -> 0 <= a < M63 -> div_ a b = a / b.
Proof. intros Hb Ha. unfold div_. rewrite w64_id by (apply quot_bound; unfold M63 in *; lia). apply Z.quot_div_nonneg; lia. Qed.
Lemma mod_ok a b : 1 <= b -> 0 <= a < M63 -> mod_ a b = a mod b.
Proof.
  intros Hb Ha. unfold mod_. rewrite Z.rem_mod_nonneg by lia. apply w64_id. pose proof (Z.mod_pos_bound a b ltac:(lia)). pose proof (Z.mod_le a b ltac:(lia) ltac:(lia)). unfold M63 in *. lia.
Qed.
(** The operators of M_Int.v are these. *)
Lemma div_int a b : 1 < b -> i_floordiv TInt a b = Ok (div_ a b) /\ i_mod TInt a b = Ok (mod_ a b).
Proof.
  intros Hb. unfold i_floordiv, i_mod, c_div, c_rem, c_div_ok. assert (E : (b =? 0) = false) by lia. assert (E2 : (b =? -1) = false) by lia. rewrite E, E2. rewrite andb_false_r. cbn [negb andb mapr bindr]. split; reflexivity.
Qed.

Definition Q18 := 1000000000000000000.
Lemma atto_const : ATTO = Q18 /\ 10 ^ 18 = Q18.
Proof. split; reflexivity. Qed.

Lemma inst_add_ok i d : proper_i i -> proper_d d -> representable (atto_i i + atto_d d) ->
  proper_i (inst_add i d) /\ atto_i (inst_add i d) = atto_i i + atto_d d /\ i_clk (inst_add i d) = i_clk i.
Proof.
  intros [Hs Ha] [Ds Da] R. unfold representable, atto_i, atto_d, proper_i, inst_add in *. cbn [i_sec i_att i_clk]. change ATTO with Q18. change (10 ^ 18) with Q18 in *. change (2 ^ 63) with M63 in *.
  rewrite (add_ok (i_att i) (d_att d)) by (unfold M63, Q18 in *; lia). set (s := i_att i + d_att d) in *. rewrite div_ok, mod_ok by (unfold M63, Q18, s in *; lia).
  pose proof (Z.div_mod s Q18 ltac:(unfold Q18; lia)) as D. pose proof (Z.mod_pos_bound s Q18 ltac:(unfold Q18; lia)) as B.
  destruct (add_spec (i_sec i) (d_sec d)) as (k1 & E1 & B1). destruct (add_spec (add_ (i_sec i) (d_sec d)) (s / Q18)) as (k2 & E2 & B2). rewrite E1 in E2 at 2.
  set (q := s / Q18) in *. set (r := s mod Q18) in *. set (x := add_ (add_ _ _) _) in *. clearbody q r x. unfold s, M63, M64, Q18 in *. clear s. assert (Z : k1 + k2 = 0) by lia. split; [lia|split; [lia|reflexivity]].
Qed.
Lemma borrow_ok s1 a1 s2 a2 : - M63 <= s1 < M63 -> - M63 <= s2 < M63 -> 0 <= a1 < Q18 -> 0 <= a2 < Q18 -> - M63 * Q18 <= (s1 * Q18 + a1) - (s2 * Q18 + a2) < M63 * Q18 ->
  let a := sub_ a1 a2 in let s := sub_ s1 s2 in
  let s' := if a <? 0 then sub_ s 1 else s in let a' := if a <? 0 then add_ a Q18 else a in
  - M63 <= s' < M63 /\ 0 <= a' < Q18 /\ s' * Q18 + a' = (s1 * Q18 + a1) - (s2 * Q18 + a2).
Proof.
  intros S1 S2 A1 A2 R. cbv zeta. rewrite (sub_ok a1 a2) by (unfold M63, Q18 in *; lia). destruct (sub_spec s1 s2) as (k1 & E1 & B1).
  destruct (a1 - a2 <? 0) eqn:E.
  - rewrite add_ok by (unfold M63, Q18 in *; lia). destruct (sub_spec (sub_ s1 s2) 1) as (k2 & E2 & B2). rewrite E1 in E2 at 2. unfold M63, M64, Q18 in *. lia.
  - unfold M63, M64, Q18 in *. lia.
Qed.
Lemma inst_sub_ok i d : proper_i i -> proper_d d -> representable (atto_i i - atto_d d) ->
  proper_i (inst_sub i d) /\ atto_i (inst_sub i d) = atto_i i - atto_d d /\ i_clk (inst_sub i d) = i_clk i.
Proof.
  intros [Hs Ha] [Ds Da] R. pose proof (borrow_ok (i_sec i) (i_att i) (d_sec d) (d_att d) Hs Ds Ha Da R) as (A & B & C). unfold proper_i, atto_i, atto_d, inst_sub. change ATTO with Q18.
  destruct (sub_ (i_att i) (d_att d) <? 0); cbn [i_sec i_att i_clk]; auto.
Qed.
Lemma inst_since_ok i j : proper_i i -> proper_i j -> representable (atto_i i - atto_i j) ->
  proper_d (inst_since i j) /\ atto_d (inst_since i j) = atto_i i - atto_i j /\ d_clk (inst_since i j) = i_clk i.
Proof.
  intros [Hs Ha] [Ds Da] R. pose proof (borrow_ok (i_sec i) (i_att i) (i_sec j) (i_att j) Hs Ds Ha Da R) as (A & B & C). unfold proper_d, atto_d, atto_i, inst_since. change ATTO with Q18.
  destruct (sub_ (i_att i) (i_att j) <? 0); cbn [d_sec d_att d_clk]; auto.
Qed.
Lemma atto_inj i j : proper_i i -> proper_i j -> atto_i i = atto_i j -> i_sec i = i_sec j /\ i_att i = i_att j.
Proof. unfold proper_i, atto_i. change (10 ^ 18) with Q18. unfold Q18. lia. Qed.

(** ** Digits. *)
Lemma numeral_zeros k t v : numeral 10 t v -> numeral 10 (repeat 48 k ++ t) v.
Proof.
  intros H. induction H as [c v Hd Hv|s v c x Hs IH Hd Hx].
  - induction k as [|k IH]; [constructor; assumption|]. cbn [repeat app].
    assert (G : forall n, numeral 10 (48 :: repeat 48 n) 0).
    { induction n as [|n IHn]; [apply num_one; [unfold digit; lia|lia]|]. replace (48 :: repeat 48 (S n)) with ((48 :: repeat 48 n) ++ [48]) by (exact (eq_sym (f_equal (cons 48) (repeat_cons n 48)))). change 0 with (0 * 10 + 0). apply num_more; [assumption|unfold digit; lia|lia]. }
    change (48 :: repeat 48 k ++ [c]) with ((48 :: repeat 48 k) ++ [c]). replace v with (0 * 10 + v) by lia. apply num_more; auto.
  - rewrite app_assoc. apply num_more; assumption.
Qed.
Lemma sprint_len fuel : forall n k, (0 < k)%nat -> (k <= fuel)%nat -> 0 <= n < 10 ^ Z.of_nat k -> (llen (sprint fuel n) <= k)%nat.
Proof.
  induction fuel as [|fuel IH]; intros n k Hk Hf H; [lia|]. cbn [sprint]. destruct (n <? 10) eqn:E; [cbn; lia|]. rewrite app_length. cbn [llen].
  destruct k as [|k]; [lia|]. rewrite Nat2Z.inj_succ, Z.pow_succ_r in H by lia. destruct k as [|k]; [change (10 ^ Z.of_nat 0) with 1 in H; lia|].
  assert (n / 10 < 10 ^ Z.of_nat (S k)) by (apply Z.div_lt_upper_bound; lia). pose proof (Z.div_pos n 10 ltac:(lia) ltac:(lia)). specialize (IH (n / 10) (S k) ltac:(lia) ltac:(lia) ltac:(lia)). lia.
Qed.
Lemma pad_ok k n : (0 < k <= 18)%nat -> 0 <= n < 10 ^ Z.of_nat k -> fixed k n (pad k n).
Proof.
  intros Hk H. unfold pad. destruct (n <? 0) eqn:E; [lia|]. rewrite Z.abs_eq by lia. cbn [app llen]. rewrite Nat.sub_0_r.
  assert (L : (llen (sprintf_lu n) <= k)%nat) by (apply sprint_len; lia).
  assert (10 ^ Z.of_nat k <= 10 ^ 18) by (apply Z.pow_le_mono_r; lia). change (10 ^ 18) with Q18 in *.
  split; [apply numeral_zeros; apply (str_nat_ok n); change (2 ^ 63) with M63; unfold M63, Q18 in *; lia|]. rewrite app_length, repeat_length. lia.
Qed.
Lemma sprint_digits fuel : forall n, 0 <= n -> Forall (fun c => 48 <= c <= 57) (sprint fuel n).
Proof.
  induction fuel as [|fuel IH]; intros n H; [constructor|]. cbn [sprint]. destruct (n <? 10) eqn:E; [repeat constructor; lia|]. pose proof (Z.mod_pos_bound n 10 ltac:(lia)). apply Forall_app. split; [apply IH; apply Z.div_pos; lia|repeat constructor; lia].
Qed.
Lemma sprint_ne fuel n : (0 < fuel)%nat -> sprint fuel n <> [].
Proof. destruct fuel; [lia|]. intros _. cbn [sprint]. destruct (n <? 10); [discriminate|]. intros C. apply app_eq_nil in C as [_ C]. discriminate. Qed.
Lemma sprint_head fuel : forall n, 0 < n < 10 ^ Z.of_nat fuel -> (0 < fuel)%nat -> hd 0 (sprint fuel n) <> 48.
Proof.
  induction fuel as [|fuel IH]; intros n H Hf; [lia|]. rewrite Nat2Z.inj_succ, Z.pow_succ_r in H by lia. cbn [sprint]. destruct (n <? 10) eqn:E; [cbn [hd]; lia|].
  destruct fuel as [|fuel]; [change (10 ^ Z.of_nat 0) with 1 in H; lia|].
  assert (n / 10 < 10 ^ Z.of_nat (S fuel)) by (apply Z.div_lt_upper_bound; lia). assert (0 < n / 10) by (apply Z.div_str_pos; lia).
  specialize (IH (n / 10) ltac:(lia) ltac:(lia)). pose proof (sprint_ne (S fuel) (n / 10) ltac:(lia)) as N. destruct (sprint (S fuel) (n / 10)); [congruence|exact IH].
Qed.
Lemma sprint_lead fuel n : 0 <= n < 10 ^ Z.of_nat fuel -> (0 < fuel)%nat -> hd 0 (sprint fuel n) <> 48 \/ llen (sprint fuel n) = 1%nat.
Proof.
  intros H Hf. destruct (Z.eq_dec n 0) as [-> | N]; [right; destruct fuel; [lia|reflexivity]|]. left. apply sprint_head; lia.
Qed.
Lemma dec_ok n : - M63 <= n < M63 -> decimal n (dec n).
Proof.
  intros H. unfold dec, decimal. exists (sprintf_lu (Z.abs n)), (Z.abs n). assert (B : 0 <= Z.abs n < 10 ^ Z.of_nat 20) by (change (10 ^ Z.of_nat 20) with 100000000000000000000; unfold M63 in *; lia).
  split; [apply sprint_ok; [lia|exact B]|]. split; [apply sprint_digits; lia|]. split; [apply sprint_lead; [exact B|lia]|].
  destruct (n <? 0) eqn:E; [right|left]; (split; [lia|split; [lia|]]); [rewrite Z.abs_neq by lia|rewrite Z.abs_eq by lia]; reflexivity.
Qed.

(** Equal up to wrapping. *)
Definition cong (x y : Z) : Prop := exists k, x = y + k * M64.
Lemma cong_refl x : cong x x.
Proof. exists 0. lia. Qed.
Lemma cong_add a b x y : cong a x -> cong b y -> cong (add_ a b) (x + y).
Proof. intros [k ->] [l ->]. destruct (add_spec (x + k * M64) (y + l * M64)) as (n & -> & _). exists (k + l + n). lia. Qed.
Lemma cong_mul a x c : cong a x -> cong (mul_ a c) (x * c).
Proof. intros [k ->]. destruct (mul_spec (x + k * M64) c) as (n & -> & _). exists (k * c + n). ring. Qed.
Lemma cong_eq x y : - M63 <= x < M63 -> - M63 <= y < M63 -> cong x y -> x = y.
Proof. intros Hx Hy [k ->]. unfold M63, M64 in *. lia. Qed.
Lemma inst_same a b : i_sec a = i_sec b -> i_att a = i_att b -> i_clk a = i_clk b -> a = b.
Proof. destruct a as [a1 a2 a3], b as [b1 b2 b3]. cbn [i_sec i_att i_clk]. intros -> -> ->. reflexivity. Qed.
Lemma atto_d_inj i j : proper_d i -> proper_d j -> atto_d i = atto_d j -> d_sec i = d_sec j /\ d_att i = d_att j.
Proof. unfold proper_d, atto_d. change (10 ^ 18) with Q18. unfold Q18. lia. Qed.
Lemma rep_i i : proper_i i -> representable (atto_i i).
Proof. unfold proper_i, representable, atto_i. change (10 ^ 18) with Q18. unfold Q18. lia. Qed.
Lemma rep_d i : proper_d i -> representable (atto_d i).
Proof. unfold proper_d, representable, atto_d. change (10 ^ 18) with Q18. unfold Q18. lia. Qed.
Lemma rep_eq x y : x = y -> representable y -> representable x.
Proof. intros ->. auto. Qed.
Lemma there_back a b c d : a = b + c -> d = a - c -> d = b.
Proof. lia. Qed.
Lemma back_there a b c d : a = b + c -> d = a - b -> d = c.
Proof. lia. Qed.
Lemma add_range a b : - M63 <= add_ a b < M63.
Proof. destruct (add_spec a b) as (k & _ & B). exact B. Qed.

(** ** Texts. *)
Lemma point_ok s a k q : 0 <= s < M63 -> 0 <= a < 10 ^ Z.of_nat k -> (0 < k <= 18)%nat -> q = 1 -> with_point k (s * 10 ^ Z.of_nat k + a) (dec s ++ [46] ++ pad k a).
Proof.
  intros Hs Ha Hk _. exists (dec s), (pad k a). split; [reflexivity|]. rewrite Z.div_add_l, Z.div_small by lia. rewrite Z.add_0_r, (Z.add_comm (s * _) a), Z.mod_add, Z.mod_small by lia. split; [apply dec_ok; unfold M63 in *; lia|apply pad_ok; assumption].
Qed.
Lemma frac_ok s a k q : 0 <= s < M63 -> 0 <= a < Q18 -> (0 < k <= 18)%nat -> 1 <= q -> q * 10 ^ Z.of_nat k = Q18 ->
  with_point k ((s * Q18 + a) / q) (dec s ++ [46] ++ pad k (div_ a q)).
Proof.
  intros Hs Ha Hk Hq E. rewrite div_ok by (unfold M63, Q18 in *; lia).
  replace ((s * Q18 + a) / q) with (s * 10 ^ Z.of_nat k + a / q) by (rewrite <- E; replace (s * (q * 10 ^ Z.of_nat k)) with (s * 10 ^ Z.of_nat k * q) by ring; rewrite Z.div_add_l by lia; reflexivity).
  apply point_ok with (q := 1); auto. split; [apply Z.div_pos; lia|apply Z.div_lt_upper_bound; lia].
Qed.
Lemma num_fun base t v w : base <= 36 -> numeral base t v -> numeral base t w -> v = w.
Proof. intros B H1 H2. apply (P_BigStr.numeral_iff base t v B) in H1 as (_ & _ & ->). apply (P_BigStr.numeral_iff base t w B) in H2 as (_ & _ & ->). reflexivity. Qed.
Lemma fixed_fun k a b t : fixed k a t -> fixed k b t -> a = b.
Proof. intros [H _] [G _]. apply (num_fun 10 t a b); [lia|assumption|assumption]. Qed.
Lemma app_len_inj {A} (a b c d : list A) : llen a = llen b -> a ++ c = b ++ d -> a = b /\ c = d.
Proof. revert b. induction a as [|x a IH]; intros [|y b] L E; try discriminate; [auto|]. cbn in *. injection E as -> E. destruct (IH b ltac:(lia) E) as [-> ->]. auto. Qed.
Lemma zone_ok z : eastern z -> zone_text z (str_offset z).
Proof.
  intros [Hz Hm]. unfold str_offset, zone_text. destruct (z =? 0) eqn:E0; [left; split; [lia|reflexivity]|]. right. split; [lia|].
  assert (E1 : (0 <? z) = true) by lia. rewrite E1. rewrite (div_ok z), (mod_ok z) by (unfold M63 in *; lia). pose proof (Z.mod_pos_bound z 3600 ltac:(lia)) as B. pose proof (Z.div_mod z 3600 ltac:(lia)) as D.
  rewrite (div_ok (z mod 3600)) by (unfold M63 in *; lia). assert (Q : 0 <= z / 3600 < 100) by (split; [apply Z.div_pos; lia|apply Z.div_lt_upper_bound; lia]).
  assert (R : 0 <= z mod 3600 / 60 < 60) by (split; [apply Z.div_pos; lia|apply Z.div_lt_upper_bound; lia]).
  assert (S : z mod 3600 = 60 * (z mod 3600 / 60)). { pose proof (Z.div_mod (z mod 3600) 60 ltac:(lia)) as D2. assert (z mod 3600 mod 60 = 0); [|lia]. rewrite D in Hm. replace (3600 * (z / 3600) + z mod 3600) with (z mod 3600 + (60 * (z / 3600)) * 60) in Hm by lia. rewrite Z.mod_add in Hm by lia. exact Hm. }
  exists (z / 3600), (z mod 3600 / 60), (pad 2 (z / 3600)), (pad 2 (z mod 3600 / 60)).
  split; [apply pad_ok; [lia|change (10 ^ Z.of_nat 2) with 100; lia]|]. split; [apply pad_ok; [lia|change (10 ^ Z.of_nat 2) with 100; lia]|]. split; [exact R|]. split; [lia|].
  destruct (0 <? z mod 3600) eqn:E2; [right; split; [lia|reflexivity]|left; split; [lia|rewrite app_nil_r; reflexivity]].
Qed.
Lemma zone_inj x y t : zone_text x t -> zone_text y t -> x = y.
Proof.
  intros [[-> ->] | (Hx & h & m & th & tm & Fh & Fm & Rm & -> & Hx2)] [[-> E] | (Hy & h' & m' & th' & tm' & Fh' & Fm' & Rm' & -> & Hy2)]; try reflexivity.
  - destruct Hy2 as [[_ E]|[_ E]]; discriminate E.
  - subst t. destruct Hx2 as [[_ E]|[_ E]]; discriminate E.
  - pose proof (proj2 Fh) as L1. pose proof (proj2 Fh') as L2. destruct Hx2 as [[-> ->] | [Pm ->]], Hy2 as [[-> E] | [Pm' E]].
    + injection E as ->. rewrite (fixed_fun _ _ _ _ Fh Fh'). reflexivity.
    + apply (f_equal (@llen Z)) in E. rewrite !app_length in E. cbn in E. lia.
    + apply (f_equal (@llen Z)) in E. rewrite !app_length in E. cbn in E. lia.
    + injection E as E. destruct (app_len_inj _ _ _ _ (eq_trans L1 (eq_sym L2)) E) as [-> E2]. injection E2 as ->. rewrite (fixed_fun _ _ _ _ Fh Fh'), (fixed_fun _ _ _ _ Fm Fm'). reflexivity.
Qed.
Lemma month_at m : 1 <= m <= 12 -> exists s, month_name m s /\ name_at MNTHS (sub_ m 1) = Ok (lit s).
Proof.
  intros H. rewrite sub_ok by (unfold M63; lia).
  assert (D : m = 1 \/ m = 2 \/ m = 3 \/ m = 4 \/ m = 5 \/ m = 6 \/ m = 7 \/ m = 8 \/ m = 9 \/ m = 10 \/ m = 11 \/ m = 12) by lia.
  unfold month_name. repeat (destruct D as [-> | D]); try subst m; eexists; (split; [|reflexivity]); cbn [In]; tauto.
Qed.
Lemma day_at d : 0 <= d <= 6 -> exists s, day_name d s /\ name_at WKDAYS d = Ok (lit s).
Proof.
  intros H. assert (D : d = 0 \/ d = 1 \/ d = 2 \/ d = 3 \/ d = 4 \/ d = 5 \/ d = 6) by lia.
  unfold day_name. repeat (destruct D as [-> | D]); try subst d; eexists; (split; [|reflexivity]); cbn [In]; tauto.
Qed.

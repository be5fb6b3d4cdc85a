(** C75: instants and durations.  C76: their texts. *)
From Coq Require Import String Ascii.
From Verif Require Import Base P_Base M_Int M_Bigint S_Bigint P_BigStr P_Bytes3 M_Http M_Time S_Time P_Time.
From Coq Require Import ZifyBool ZifyNat.
Open Scope Z_scope.

(** C75: adding, subtracting and the difference are exact to the attosecond, whenever the seconds
    of the result fit 64 bits; what they make is again less than a second of attoseconds. *)
Theorem C75_add : forall i d, proper_i i -> proper_d d -> representable (atto_i i + atto_d d) ->
  proper_i (inst_add i d) /\ atto_i (inst_add i d) = atto_i i + atto_d d /\ i_clk (inst_add i d) = i_clk i.
Proof. exact inst_add_ok. Qed.
Print Assumptions C75_add.
Theorem C75_sub : forall i d, proper_i i -> proper_d d -> representable (atto_i i - atto_d d) ->
  proper_i (inst_sub i d) /\ atto_i (inst_sub i d) = atto_i i - atto_d d /\ i_clk (inst_sub i d) = i_clk i.
Proof. exact inst_sub_ok. Qed.
Print Assumptions C75_sub.
Theorem C75_since : forall i j, proper_i i -> proper_i j -> representable (atto_i i - atto_i j) ->
  proper_d (inst_since i j) /\ atto_d (inst_since i j) = atto_i i - atto_i j /\ d_clk (inst_since i j) = i_clk i.
Proof. exact inst_since_ok. Qed.
Print Assumptions C75_since.
Definition ck := Clk false [] 0 0 0 0.
Example C75_case : let i := Inst 5 (7 * 10 ^ 17) ck in let d := Dur (-3) (6 * 10 ^ 17) ck in
  proper_i i /\ proper_d d /\ representable (atto_i i + atto_d d) /\ inst_add i d = Inst 3 (3 * 10 ^ 17) ck /\ inst_sub i d = Inst 8 (10 ^ 17) ck.
Proof. cbv zeta. unfold proper_i, proper_d, representable, atto_i, atto_d. cbn [i_sec i_att d_sec d_att]. repeat match goal with |- _ /\ _ => split end; vm_compute; congruence. Qed.

(** Going there and back. *)
Theorem C75_inverse : forall i d, proper_i i -> proper_d d -> representable (atto_i i + atto_d d) ->
  inst_sub (inst_add i d) d = i /\ atto_d (inst_since (inst_add i d) i) = atto_d d /\ d_sec (inst_since (inst_add i d) i) = d_sec d /\ d_att (inst_since (inst_add i d) i) = d_att d.
Proof.
  intros i d Hi Hd R. destruct (inst_add_ok i d Hi Hd R) as (P & A & C). set (k := inst_add i d) in *. clearbody k.
  assert (R2 : representable (atto_i k - atto_d d)) by (apply (rep_eq _ (atto_i i)); [lia|apply rep_i; exact Hi]).
  assert (R3 : representable (atto_i k - atto_i i)) by (apply (rep_eq _ (atto_d d)); [lia|apply rep_d; exact Hd]).
  destruct (inst_sub_ok k d P Hd R2) as (P2 & A2 & C2). destruct (inst_since_ok k i P Hi R3) as (P3 & A3 & C3).
  pose proof (there_back _ _ _ _ A A2) as E2. pose proof (back_there _ _ _ _ A A3) as E3. split.
  - destruct (atto_inj _ _ P2 Hi E2) as [X Y]. rewrite C in C2. apply inst_same; assumption.
  - split; [exact E3|]. apply (atto_d_inj _ _ P3 Hd E3).
Qed.
Print Assumptions C75_inverse.
Theorem C75_there : forall i j, proper_i i -> proper_i j -> representable (atto_i i - atto_i j) -> let k := inst_add j (inst_since i j) in
  i_sec k = i_sec i /\ i_att k = i_att i /\ i_clk k = i_clk j.
Proof.
  intros i j Hi Hj R k. destruct (inst_since_ok i j Hi Hj R) as (P & A & C). unfold k. clear k. set (d := inst_since i j) in *. clearbody d.
  assert (E : atto_i j + atto_d d = atto_i i) by lia.
  destruct (inst_add_ok j d Hj P (rep_eq _ _ E (rep_i i Hi))) as (P2 & A2 & C2). rewrite E in A2. destruct (atto_inj _ _ P2 Hi A2) as [X Y]. split; [exact X|split; [exact Y|exact C2]].
Qed.
Print Assumptions C75_there.

(** The order of instants is that of their attoseconds. *)
Theorem C75_order : forall i j, proper_i i -> proper_i j ->
  (inst_eq i j = true <-> atto_i i = atto_i j) /\ (inst_ne i j = true <-> atto_i i <> atto_i j) /\ (inst_lt i j = true <-> atto_i i < atto_i j) /\
  (inst_le i j = true <-> atto_i i <= atto_i j) /\ (inst_gt i j = true <-> atto_i i > atto_i j) /\ (inst_ge i j = true <-> atto_i i >= atto_i j).
Proof.
  intros i j [S1 A1] [S2 A2]. unfold inst_ne, inst_le, inst_gt, inst_ge, inst_le, inst_lt, inst_eq, atto_i. change (10 ^ 18) with Q18 in *. unfold Q18 in *.
  repeat match goal with |- _ /\ _ => split end; lia.
Qed.
Print Assumptions C75_order.

(** Whole seconds, milli-, micro- and nanoseconds since 1970, rounded down, if 64 bits hold them. *)
Lemma unix_ok s a p q : 1 <= p -> 1 <= q -> p * q = Q18 -> 0 <= a < Q18 -> - M63 <= (s * Q18 + a) / q < M63 -> - M63 <= s < M63 ->
  add_ (mul_ s p) (div_ a q) = (s * Q18 + a) / q.
Proof.
  intros Hp Hq H Ha F Fs. rewrite div_ok by (unfold M63, Q18 in *; lia). assert (E : (s * Q18 + a) / q = s * p + a / q) by (rewrite <- H, Z.mul_assoc, Z.div_add_l by lia; reflexivity). rewrite E in *.
  destruct (mul_spec s p) as (k1 & E1 & B1). destruct (add_spec (mul_ s p) (a / q)) as (k2 & E2 & B2). rewrite E1 in E2 at 2. unfold M63, M64 in *. lia.
Qed.
Theorem C75_unix : forall i, proper_i i ->
  unix_s i = atto_i i / 10 ^ 18 /\
  (- 2 ^ 63 <= atto_i i / 10 ^ 15 < 2 ^ 63 -> unix_ms i = atto_i i / 10 ^ 15) /\
  (- 2 ^ 63 <= atto_i i / 10 ^ 12 < 2 ^ 63 -> unix_us i = atto_i i / 10 ^ 12) /\
  (- 2 ^ 63 <= atto_i i / 10 ^ 9 < 2 ^ 63 -> unix_ns i = atto_i i / 10 ^ 9).
Proof.
  intros i [S A]. unfold atto_i, unix_s, unix_ms, unix_us, unix_ns in *. split; [rewrite Z.div_add_l, Z.div_small by lia; lia|].
  split; [|split]; intros F; apply unix_ok; auto; vm_compute; congruence.
Qed.
Print Assumptions C75_unix.
Example C75_unix_case : let i := Inst 1700000000 (123456789 * 10 ^ 9 + 5) ck in proper_i i /\ unix_ns i = 1700000000123456789 /\ unix_ms (Inst (-1) (5 * 10 ^ 17) ck) = -500.
Proof. cbv zeta. unfold proper_i. cbn [i_sec i_att]. repeat match goal with |- _ /\ _ => split end; vm_compute; congruence. Qed.

(** A duration of weeks, days, hours, minutes, seconds and attoseconds is their sum. *)
Theorem C75_parts : forall w d h m s a c, let t := w * 604800 + d * 86400 + h * 3600 + m * 60 + s in - 2 ^ 63 <= t < 2 ^ 63 ->
  d_sec (from_parts w d h m s a c) = t /\ atto_d (from_parts w d h m s a c) = t * 10 ^ 18 + a /\ d_clk (from_parts w d h m s a c) = c /\
  (0 <= a < 10 ^ 18 -> proper_d (from_parts w d h m s a c)).
Proof.
  intros w d h m s a c t F. assert (E : d_sec (from_parts w d h m s a c) = t).
  { unfold from_parts. cbn [d_sec]. apply cong_eq; [apply add_range| exact F|]. unfold t.
    replace (w * 604800) with (w * 7 * 24 * 60 * 60) by lia. replace (d * 86400) with (d * 24 * 60 * 60) by lia. replace (h * 3600) with (h * 60 * 60) by lia.
    repeat (apply cong_add || apply cong_mul || apply cong_refl). }
  split; [exact E|]. unfold atto_d, proper_d. rewrite E. split; [reflexivity|]. split; [reflexivity|]. intros Ha. split; [exact F|exact Ha].
Qed.
Print Assumptions C75_parts.

(** Nothing carries attoseconds beyond a second: taking such a duration away leaves a negative number of them. *)
Theorem C75_parts_refuted : exists i d, proper_i i /\ d = from_parts 0 0 0 0 0 (3 * 10 ^ 18) (i_clk i) /\ i_att (inst_sub i d) < 0.
Proof.
  exists (Inst 5 0 ck), (from_parts 0 0 0 0 0 (3 * 10 ^ 18) ck). unfold proper_i. cbn [i_sec i_att i_clk]. repeat match goal with |- _ /\ _ => split end; vm_compute; congruence.
Qed.
Print Assumptions C75_parts_refuted.
(** Beyond 64 bits of seconds time turns back. *)
Theorem C75_wrap_refuted : exists i d, proper_i i /\ proper_d d /\ 0 < atto_d d /\ inst_lt (inst_add i d) i = true.
Proof.
  exists (Inst (2 ^ 63 - 1) 0 ck), (Dur 1 0 ck). unfold proper_i, proper_d, atto_d. cbn [i_sec i_att d_sec d_att]. repeat match goal with |- _ /\ _ => split end; vm_compute; congruence.
Qed.
Print Assumptions C75_wrap_refuted.

(** Which clocks can be compared: readings of monotonic clocks of one incarnation, or of real-time clocks
    of one standard and one way of being set. *)
Theorem C75_comparable : forall a b, comparable a b = true <->
  k_mono a = k_mono b /\ (k_mono a = true -> k_incarnation a = k_incarnation b) /\ (k_mono a = false -> k_standard a = k_standard b /\ k_sync a = k_sync b).
Proof.
  intros a b. unfold comparable. destruct (k_mono a), (k_mono b).
  - rewrite Z.eqb_eq. intuition congruence.
  - intuition congruence.
  - intuition congruence.
  - rewrite andb_true_iff, Z.eqb_eq, P_Bytes3.beq_ok. intuition congruence.
Qed.
Print Assumptions C75_comparable.
(** The order of instants does not ask: readings of different clocks are ordered all the same. *)
Theorem C75_order_refuted : exists i j, proper_i i /\ proper_i j /\ inst_comparable i j = false /\ inst_lt i j = true.
Proof.
  exists (Inst 1 0 (Clk true [] 7 0 0 0)), (Inst 2 0 (Clk true [] 8 0 0 0)). unfold proper_i. cbn [i_sec i_att]. repeat match goal with |- _ /\ _ => split end; vm_compute; congruence.
Qed.
Print Assumptions C75_order_refuted.

(** A stopwatch counts on the monotonic clock as long as that is the same one, whatever happens to the
    real-time clock meanwhile; after that it counts on the real-time clock, or fails if it is the precise one. *)
Theorem C75_watch : forall m0 r0 m r,
  (comparable (i_clk m) (i_clk m0) = true -> proper_i m -> proper_i m0 -> representable (atto_i m - atto_i m0) ->
     atto_d (elapsed m0 r0 m r) = atto_i m - atto_i m0 /\ precise_elapsed m0 m = Ok (elapsed m0 r0 m r)) /\
  (comparable (i_clk m) (i_clk m0) = false -> proper_i r -> proper_i r0 -> representable (atto_i r - atto_i r0) ->
     atto_d (elapsed m0 r0 m r) = atto_i r - atto_i r0 /\ precise_elapsed m0 m = Exn RuntimeError).
Proof.
  intros m0 r0 m r. unfold elapsed, precise_elapsed, inst_comparable. split; intros C H H0 R; rewrite C; cbn [negb]; (split; [|reflexivity]).
  - apply (inst_since_ok m m0 H H0 R).
  - apply (inst_since_ok r r0 H H0 R).
Qed.
Print Assumptions C75_watch.
Example C75_watch_case : let c := Clk true [] 7 0 0 0 in let m0 := Inst 10 999 c in let m := Inst 12 5 c in
  comparable (i_clk m) (i_clk m0) = true /\ proper_i m /\ proper_i m0 /\ representable (atto_i m - atto_i m0) /\ elapsed m0 (Inst 0 0 ck) m (Inst (-5) 0 ck) = Dur 1 (10 ^ 18 - 994) c.
Proof. cbv zeta. unfold proper_i, representable, atto_i. cbn [i_sec i_att]. repeat match goal with |- _ /\ _ => split end; vm_compute; congruence. Qed.

(** C76: an instant or duration that is not negative is written as seconds, a point and exactly 18, 3, 6 or 9
    digits, rounded down. *)
Theorem C76_str : forall s a, 0 <= s < 2 ^ 63 -> 0 <= a < 10 ^ 18 -> let v := s * 10 ^ 18 + a in
  with_point 18 v (str_att s a) /\ with_point 3 (v / 10 ^ 15) (str_ms s a) /\ with_point 6 (v / 10 ^ 12) (str_us s a) /\ with_point 9 (v / 10 ^ 9) (str_ns s a).
Proof.
  intros s a Hs Ha v. change (2 ^ 63) with M63 in Hs. change (10 ^ 18) with Q18 in Ha.
  split; [apply (point_ok s a 18 1); [exact Hs|exact Ha|lia|reflexivity]|].
  split; [apply (frac_ok s a 3); [exact Hs|exact Ha|lia|lia|reflexivity]|].
  split; [apply (frac_ok s a 6); [exact Hs|exact Ha|lia|lia|reflexivity]|].
  apply (frac_ok s a 9); [exact Hs|exact Ha|lia|lia|reflexivity].
Qed.
Print Assumptions C76_str.
(** Before the origin the fraction counts up from the second below: half a second before is "-1.500". *)
Theorem C76_str_refuted : str_ms (-1) (5 * 10 ^ 17) = lit "-1.500" /\ (-1 * 10 ^ 18 + 5 * 10 ^ 17) / 10 ^ 15 = -500.
Proof. split; vm_compute; reflexivity. Qed.
Print Assumptions C76_str_refuted.

(** In weeks, days, hours, minutes, seconds and nanoseconds. *)
Theorem C76_human : forall d, proper_d d -> 0 <= d_sec d -> exists w dd h m s n tw td th tm ts tn,
  str_human d = tw ++ lit "w " ++ td ++ lit "d " ++ th ++ lit "h " ++ tm ++ lit "m " ++ ts ++ lit "s " ++ tn ++ lit "ns" /\
  decimal w tw /\ decimal dd td /\ decimal h th /\ decimal m tm /\ decimal s ts /\ decimal n tn /\
  0 <= w /\ 0 <= dd < 7 /\ 0 <= h < 24 /\ 0 <= m < 60 /\ 0 <= s < 60 /\ 0 <= n < 10 ^ 9 /\
  (((w * 7 + dd) * 24 + h) * 60 + m) * 60 + s = d_sec d /\ n = d_att d / 10 ^ 9.
Proof.
  intros d [Hs Ha] Hn. change (2 ^ 63) with M63 in Hs. change (10 ^ 18) with Q18 in Ha. set (x := d_sec d) in *. set (a := d_att d) in *.
  pose proof (Z.mod_pos_bound x 604800 ltac:(lia)) as B1. pose proof (Z.mod_pos_bound x 86400 ltac:(lia)) as B2. pose proof (Z.mod_pos_bound x 3600 ltac:(lia)) as B3. pose proof (Z.mod_pos_bound x 60 ltac:(lia)) as B4.
  exists (x / 604800), (x mod 604800 / 86400), (x mod 86400 / 3600), (x mod 3600 / 60), (x mod 60), (a / 10 ^ 9).
  assert (Bw : 0 <= x / 604800 <= x) by (split; [apply Z.div_pos; lia|apply Z.div_le_upper_bound; lia]).
  assert (Bd : 0 <= x mod 604800 / 86400 < 7) by (split; [apply Z.div_pos; lia|apply Z.div_lt_upper_bound; lia]).
  assert (Bh : 0 <= x mod 86400 / 3600 < 24) by (split; [apply Z.div_pos; lia|apply Z.div_lt_upper_bound; lia]).
  assert (Bm : 0 <= x mod 3600 / 60 < 60) by (split; [apply Z.div_pos; lia|apply Z.div_lt_upper_bound; lia]).
  assert (Bn : 0 <= a / 10 ^ 9 < 10 ^ 9) by (change (10 ^ 9) with 1000000000; unfold Q18 in *; split; [apply Z.div_pos; lia|apply Z.div_lt_upper_bound; lia]).
  exists (dec (x / 604800)), (dec (x mod 604800 / 86400)), (dec (x mod 86400 / 3600)), (dec (x mod 3600 / 60)), (dec (x mod 60)), (dec (a / 10 ^ 9)). split.
  { unfold str_human. fold x. fold a. rewrite !(mod_ok x) by (unfold M63 in *; lia). rewrite !(div_ok x) by (unfold M63 in *; lia). rewrite (div_ok (x mod 604800)), (div_ok (x mod 86400)), (div_ok (x mod 3600)), (div_ok a) by (unfold M63, Q18 in *; lia). reflexivity. }
  repeat match goal with |- decimal _ _ /\ _ => split; [apply dec_ok; unfold M63 in *; lia|] end.
  assert (E : (((x / 604800 * 7 + x mod 604800 / 86400) * 24 + x mod 86400 / 3600) * 60 + x mod 3600 / 60) * 60 + x mod 60 = x).
  { clear - Hn. pose proof (Z.div_mod x 604800 ltac:(lia)). pose proof (Z.div_mod (x mod 604800) 86400 ltac:(lia)). pose proof (Z.div_mod (x mod 86400) 3600 ltac:(lia)). pose proof (Z.div_mod (x mod 3600) 60 ltac:(lia)).
    assert (M1 : x mod 604800 mod 86400 = x mod 86400) by (symmetry; apply Znumtheory.Zmod_div_mod; [lia|lia|exists 7; lia]).
    assert (M2 : x mod 86400 mod 3600 = x mod 3600) by (symmetry; apply Znumtheory.Zmod_div_mod; [lia|lia|exists 24; lia]).
    assert (M3 : x mod 3600 mod 60 = x mod 60) by (symmetry; apply Znumtheory.Zmod_div_mod; [lia|lia|exists 60; lia]). lia. }
  split; [lia|]. split; [exact Bd|]. split; [exact Bh|]. split; [exact Bm|]. split; [exact B4|]. split; [exact Bn|]. split; [exact E|reflexivity].
Qed.
Print Assumptions C76_human.
Example C76_human_case : let d := Dur (8 * 86400 + 3661) (5 * 10 ^ 8) ck in proper_d d /\ str_human d = lit "1w 1d 1h 1m 1s 0ns" /\ str_ms 12 (45 * 10 ^ 15) = lit "12.045".
Proof. cbv zeta. unfold proper_d. cbn [d_sec d_att]. repeat match goal with |- _ /\ _ => split end; vm_compute; congruence. Qed.

(** Zones east of Greenwich, in whole minutes. *)
Theorem C76_zone : forall z, eastern z -> zone_text z (str_offset z).
Proof. exact zone_ok. Qed.
Print Assumptions C76_zone.
(** West of it the minus is written twice and the minutes are lost. *)
Theorem C76_zone_refuted : str_offset (- 4 * 3600) = lit "--4" /\ str_offset (- 4 * 3600 - 30 * 60) = lit "--4" /\ str_offset (5 * 3600 + 30 * 60) = lit "+05:30".
Proof. repeat match goal with |- _ /\ _ => split end; vm_compute; reflexivity. Qed.
Print Assumptions C76_zone_refuted.

(** The layout of ISO 8601. *)
Definition iso_zone (z : option Z) (t : list Z) : Prop := match z with Some z => zone_text z t | None => t = [] end.
Definition known_zone (t : datetime) : Prop := match t_zone t with Some z => eastern z | None => True end.
Theorem C76_iso : forall t, calendar t -> known_zone t -> exists y mo d h mi s f z,
  str_iso8601 t = y ++ lit "-" ++ mo ++ lit "-" ++ d ++ lit "T" ++ h ++ lit ":" ++ mi ++ lit ":" ++ s ++ lit "." ++ f ++ z /\
  fixed 4 (t_year t) y /\ fixed 2 (t_month t) mo /\ fixed 2 (t_day t) d /\ fixed 2 (t_hour t) h /\ fixed 2 (t_minute t) mi /\ fixed 2 (t_second t) s /\
  fixed 9 (t_att t / 10 ^ 9) f /\ iso_zone (t_zone t) z.
Proof.
  intros t (Y & Mo & D & H & Mi & S & A & W) Z.
  exists (pad 4 (t_year t)), (pad 2 (t_month t)), (pad 2 (t_day t)), (pad 2 (t_hour t)), (pad 2 (t_minute t)), (pad 2 (t_second t)), (pad 9 (t_att t / 10 ^ 9)), (match t_zone t with Some off => str_offset off | None => [] end).
  change (10 ^ 18) with Q18 in A. change (10 ^ 4) with 10000 in Y.
  split; [unfold str_iso8601; rewrite div_ok by (unfold M63, Q18 in *; lia); reflexivity|].
  assert (Fr : 0 <= t_att t / 10 ^ 9 < 10 ^ Z.of_nat 9) by (change (10 ^ Z.of_nat 9) with 1000000000; change (10 ^ 9) with 1000000000; unfold Q18 in *; split; [apply Z.div_pos; lia|apply Z.div_lt_upper_bound; lia]).
  split; [apply pad_ok; [lia|change (10 ^ Z.of_nat 4) with 10000; lia]|].
  do 5 (split; [apply pad_ok; [lia|change (10 ^ Z.of_nat 2) with 100; lia]|]). split; [apply pad_ok; [lia|exact Fr]|].
  unfold iso_zone, known_zone in *. destruct (t_zone t); [apply zone_ok; exact Z|reflexivity].
Qed.
Print Assumptions C76_iso.
(** No two moments that differ by a nanosecond or more, or in their zone, have the same text. *)
Theorem C76_iso_inj : forall t u, calendar t -> known_zone t -> calendar u -> known_zone u -> str_iso8601 t = str_iso8601 u ->
  t_year t = t_year u /\ t_month t = t_month u /\ t_day t = t_day u /\ t_hour t = t_hour u /\ t_minute t = t_minute u /\ t_second t = t_second u /\
  t_att t / 10 ^ 9 = t_att u / 10 ^ 9 /\ t_zone t = t_zone u.
Proof.
  intros t u Ct Zt Cu Zu E. destruct (C76_iso t Ct Zt) as (y & mo & d & h & mi & s & f & z & E1 & F1 & F2 & F3 & F4 & F5 & F6 & F7 & F8).
  destruct (C76_iso u Cu Zu) as (y' & mo' & d' & h' & mi' & s' & f' & z' & E2 & G1 & G2 & G3 & G4 & G5 & G6 & G7 & G8). rewrite E1, E2 in E. clear E1 E2.
  repeat match goal with E : ?a ++ ?b = ?c ++ ?e |- _ => let L := fresh in assert (L : List.length a = List.length c) by (first [reflexivity|
    match goal with X : fixed ?k _ a, Y : fixed ?k _ c |- _ => rewrite (proj2 X), (proj2 Y); reflexivity end]); apply (app_len_inj _ _ _ _ L) in E as [? E]; clear L; subst end.
  pose proof (fixed_fun _ _ _ _ F1 G1). pose proof (fixed_fun _ _ _ _ F2 G2). pose proof (fixed_fun _ _ _ _ F3 G3). pose proof (fixed_fun _ _ _ _ F4 G4). pose proof (fixed_fun _ _ _ _ F5 G5). pose proof (fixed_fun _ _ _ _ F6 G6). pose proof (fixed_fun _ _ _ _ F7 G7).
  repeat (split; [assumption|]). subst. unfold iso_zone in *. destruct (t_zone t) as [a|], (t_zone u) as [b|]; [f_equal; eapply zone_inj; eassumption| | |reflexivity].
  - subst. destruct F8 as [[_ C]|(_ & ? & ? & ? & ? & _ & _ & _ & _ & [[_ C]|[_ C]])]; discriminate C.
  - subst. destruct G8 as [[_ C]|(_ & ? & ? & ? & ? & _ & _ & _ & _ & [[_ C]|[_ C]])]; discriminate C.
Qed.
Print Assumptions C76_iso_inj.
Definition moment := DT (Some 7200) 2024 2 29 23 59 60 (123 * 10 ^ 15) 4.
Example C76_iso_case : calendar moment /\ known_zone moment /\ str_iso8601 moment = lit "2024-02-29T23:59:60.123000000+02".
Proof. unfold calendar, known_zone, eastern. cbn [t_zone t_year t_month t_day t_hour t_minute t_second t_att t_weekday moment]. repeat match goal with |- _ /\ _ => split end; vm_compute; congruence. Qed.

(** The date of HTTP. *)
Theorem C76_rfc1123 : forall t, calendar t -> exists wd mn d y h mi s,
  str_rfc1123 t = Ok (lit wd ++ lit ", " ++ d ++ lit " " ++ lit mn ++ lit " " ++ y ++ lit " " ++ h ++ lit ":" ++ mi ++ lit ":" ++ s ++ lit " GMT") /\
  day_name (t_weekday t) wd /\ month_name (t_month t) mn /\ fixed 2 (t_day t) d /\ fixed 4 (t_year t) y /\ fixed 2 (t_hour t) h /\ fixed 2 (t_minute t) mi /\ fixed 2 (t_second t) s.
Proof.
  intros t (Y & Mo & D & H & Mi & S & A & W). destruct (day_at (t_weekday t) W) as (wd & N1 & E1). destruct (month_at (t_month t) Mo) as (mn & N2 & E2). change (10 ^ 4) with 10000 in Y.
  exists wd, mn, (pad 2 (t_day t)), (pad 4 (t_year t)), (pad 2 (t_hour t)), (pad 2 (t_minute t)), (pad 2 (t_second t)).
  split; [unfold str_rfc1123; rewrite E1; cbn [bindr]; rewrite E2; reflexivity|]. split; [exact N1|]. split; [exact N2|].
  split; [apply pad_ok; [lia|change (10 ^ Z.of_nat 2) with 100; lia]|]. split; [apply pad_ok; [lia|change (10 ^ Z.of_nat 4) with 10000; lia]|].
  do 2 (split; [apply pad_ok; [lia|change (10 ^ Z.of_nat 2) with 100; lia]|]). apply pad_ok; [lia|change (10 ^ Z.of_nat 2) with 100; lia].
Qed.
Print Assumptions C76_rfc1123.
(** It says GMT for every zone. *)
Theorem C76_rfc1123_refuted : calendar moment /\ t_zone moment = Some 7200 /\ str_rfc1123 moment = Ok (lit "Thu, 29 Feb 2024 23:59:60 GMT").
Proof. split; [apply C76_iso_case|]. split; vm_compute; reflexivity. Qed.
Print Assumptions C76_rfc1123_refuted.

(** str_asctime names the month after, and fails in December. *)
Theorem C76_asctime_refuted : forall t, calendar t ->
  (t_month t = 12 -> str_asctime t = Exn IndexError) /\
  (t_month t < 12 -> exists wd mn rest, str_asctime t = Ok (lit wd ++ lit " " ++ lit mn ++ lit " " ++ rest) /\ day_name (t_weekday t) wd /\ month_name (t_month t + 1) mn).
Proof.
  intros t (Y & Mo & D & H & Mi & S & A & W). unfold str_asctime.
  assert (DW : exists wd, day_name (t_weekday t) wd /\ exists l, name_at WEEKDAYS (t_weekday t) = Ok l /\ firstn 3 l = lit wd).
  { set (d := t_weekday t) in *. clearbody d. assert (C : d = 0 \/ d = 1 \/ d = 2 \/ d = 3 \/ d = 4 \/ d = 5 \/ d = 6) by lia. unfold day_name. repeat (destruct C as [-> | C]); try subst d; eexists; (split; [cbn [In]; auto 10|]); eexists; (split; [reflexivity|reflexivity]). }
  destruct DW as (wd & N1 & l & E1 & F1). rewrite E1. cbn [bindr]. split; [intros ->; reflexivity|]. intros Hm.
  assert (MW : exists mn, month_name (t_month t + 1) mn /\ exists l, name_at MONTHS (t_month t) = Ok l /\ firstn 3 l = lit mn).
  { set (m := t_month t) in *. clearbody m. assert (C : m = 1 \/ m = 2 \/ m = 3 \/ m = 4 \/ m = 5 \/ m = 6 \/ m = 7 \/ m = 8 \/ m = 9 \/ m = 10 \/ m = 11) by lia. unfold month_name. repeat (destruct C as [-> | C]); try subst m; eexists; (split; [cbn [In]; auto 15|]); eexists; (split; [reflexivity|reflexivity]). }
  destruct MW as (mn & N2 & l2 & E2 & F2). rewrite E2. cbn [bindr]. exists wd, mn. eexists. split; [rewrite F1, F2; reflexivity|split; assumption].
Qed.
Print Assumptions C76_asctime_refuted.
Example C76_asctime_case : calendar moment /\ t_month moment < 12 /\ str_asctime moment = Ok (lit "Thu Mar 29 23:59:60 2024").
Proof. split; [apply C76_iso_case|]. split; vm_compute; reflexivity. Qed.

(** normalize_slice selects the documented positions. *)
From Verif Require Import Base M_Slice S_Slice P_Base.
From Coq Require Import Sorted.
Ltac Zify.zify_post_hook ::= Z.to_euclidean_division_equations.

(** The positions visited by the loops of list.c: start, start+step, ... *)
Definition progression (start step : Z) (n : nat) : list Z :=
  map (fun j => start + Z.of_nat j * step) (seq 0 n).

Lemma positions_rev n : rev (positions n) = map (fun j => Z.of_nat n - 1 - Z.of_nat j) (seq 0 n).
Proof.
  apply list_ext. intros i. unfold positions.
  rewrite ne_rev, !ne_map, !ne_seq, map_length, seq_length.
  destruct (i <? n)%nat eqn:E; [|reflexivity].
  destruct (n - 1 - i <? n)%nat eqn:E2; [|lia]. cbn [option_map]. f_equal. lia.
Qed.

Lemma in_positions n x : In x (positions n) <-> 0 <= x < Z.of_nat n.
Proof.
  unfold positions. rewrite in_map_iff. split.
  - intros (j & <- & Hj). apply in_seq in Hj. lia.
  - intros H. exists (Z.to_nat x). split; [lia|]. apply in_seq. lia.
Qed.

Lemma in_progression start step n x :
  In x (progression start step n) <-> exists j, 0 <= j < Z.of_nat n /\ x = start + j * step.
Proof.
  unfold progression. rewrite in_map_iff. split.
  - intros (j & <- & Hj). apply in_seq in Hj. exists (Z.of_nat j). lia.
  - intros (j & Hj & ->). exists (Z.to_nat j). split; [rewrite Z2Nat.id; lia|]. apply in_seq. lia.
Qed.

Lemma forward_progression (n : nat) start stop k :
  0 < k -> 0 <= start <= Z.of_nat n -> 0 <= stop <= Z.of_nat n ->
  filter (fun i => (start <=? i) && (i <? stop) && ((i - start) mod k =? 0)) (positions n)
  = progression start k
      (Z.to_nat (if stop <=? start then 0
                 else Z.quot (stop - start) k + (if Z.rem (stop - start) k =? 0 then 0 else 1))).
Proof.
  intros Hk Hs Ht.
  apply (sorted_ext Z.lt).
  - lia.
  - lia.
  - apply StronglySorted_filter, StronglySorted_map_seq. lia.
  - apply StronglySorted_map_seq. intros i j Hij. nia.
  - intros x. rewrite filter_In, in_positions, in_progression.
    destruct (stop <=? start) eqn:E.
    + split; [lia|]. intros (j & Hj & _). lia.
    + rewrite Z.quot_div_nonneg, Z.rem_mod_nonneg by lia.
      split.
      * intros [Hx Hb]. apply andb_true_iff in Hb as [Hb Hm].
        exists ((x - start) / k).
        assert (x - start = k * ((x - start) / k)) by (apply Z_div_exact_full_2; lia).
        set (q := (x - start) / k) in *.
        assert (0 <= q) by nia.
        split; [|lia]. split; [lia|].
        pose proof (Z.div_mod (stop - start) k ltac:(lia)) as D.
        pose proof (Z.mod_pos_bound (stop - start) k ltac:(lia)) as B.
        set (Q := (stop - start) / k) in *. set (R := (stop - start) mod k) in *.
        destruct (R =? 0) eqn:ER; nia.
      * intros (j & Hj & ->).
        pose proof (Z.div_mod (stop - start) k ltac:(lia)) as D.
        pose proof (Z.mod_pos_bound (stop - start) k ltac:(lia)) as B.
        set (Q := (stop - start) / k) in *. set (R := (stop - start) mod k) in *.
        replace (start + j * k - start) with (j * k) by lia.
        rewrite Z.mod_mul by lia.
        destruct (R =? 0) eqn:ER; nia.
Qed.

Lemma backward_progression (n : nat) start stop k :
  k < 0 -> -1 <= start <= Z.of_nat n - 1 -> -1 <= stop <= Z.of_nat n - 1 ->
  filter (fun i => (stop <? i) && (i <=? start) && ((start - i) mod (- k) =? 0)) (rev (positions n))
  = progression start k
      (Z.to_nat (if start <=? stop then 0
                 else Z.quot (stop - start) k + (if Z.rem (stop - start) k =? 0 then 0 else 1))).
Proof.
  intros Hk Hs Ht.
  apply (sorted_ext (fun x y => y < x)).
  - lia.
  - lia.
  - rewrite positions_rev. apply StronglySorted_filter, StronglySorted_map_seq. lia.
  - apply StronglySorted_map_seq. intros i j Hij. nia.
  - intros x. rewrite filter_In, <- in_rev, in_positions, in_progression.
    destruct (start <=? stop) eqn:E.
    + split; [lia|]. intros (j & Hj & _). lia.
    + replace (Z.quot (stop - start) k) with ((start - stop) / (- k)).
      2:{ replace (stop - start) with (- (start - stop)) by lia.
          replace k with (- - k) at 2 by lia.
          rewrite Z.quot_opp_opp by lia. rewrite Z.quot_div_nonneg by lia. reflexivity. }
      replace (Z.rem (stop - start) k =? 0) with ((start - stop) mod (- k) =? 0).
      2:{ replace (stop - start) with (- (start - stop)) by lia.
          replace k with (- - k) at 2 by lia.
          rewrite Z.rem_opp_opp by lia. rewrite Z.rem_mod_nonneg by lia.
          destruct ((start - stop) mod - k); reflexivity. }
      set (m := - k) in *.
      split.
      * intros [Hx Hb]. apply andb_true_iff in Hb as [Hb Hm].
        exists ((start - x) / m).
        assert (start - x = m * ((start - x) / m)) by (apply Z_div_exact_full_2; lia).
        set (q := (start - x) / m) in *.
        assert (0 <= q) by nia.
        split; [|nia]. split; [lia|].
        pose proof (Z.div_mod (start - stop) m ltac:(lia)) as D.
        pose proof (Z.mod_pos_bound (start - stop) m ltac:(lia)) as B.
        set (Q := (start - stop) / m) in *. set (R := (start - stop) mod m) in *.
        destruct (R =? 0) eqn:ER; nia.
      * intros (j & Hj & ->).
        pose proof (Z.div_mod (start - stop) m ltac:(lia)) as D.
        pose proof (Z.mod_pos_bound (start - stop) m ltac:(lia)) as B.
        set (Q := (start - stop) / m) in *. set (R := (start - stop) mod m) in *.
        replace (start - (start + j * k)) with (j * m) by (unfold m; lia).
        rewrite Z.mod_mul by lia.
        replace (j * k) with (- (j * m)) by (unfold m; lia).
        destruct (R =? 0) eqn:ER; nia.
Qed.

(** What the loops in list.c rely on. *)
Lemma normalize_forward (n : nat) s :
  0 < step_of s ->
  exists start stop slen,
    normalize_slice s (Z.of_nat n) = Ok (start, stop, step_of s, slen) /\
    select n s = Some (progression start (step_of s) (Z.to_nat slen)) /\
    0 <= slen <= Z.of_nat n /\ 0 <= start <= Z.of_nat n /\ 
    (0 < slen -> start + (slen - 1) * step_of s < Z.of_nat n).
Proof.
  intros Hk. unfold normalize_slice, select. fold (step_of s).
  destruct (step_of s =? 0) eqn:E0; [lia|].
  destruct (0 <? step_of s) eqn:E1; [|lia].
  set (k := step_of s) in *. set (N := Z.of_nat n) in *.
  set (start := match sl_start s with None => 0 | Some x => clamp_bound N k x end).
  set (stop := match sl_stop s with None => N | Some x => clamp_bound N k x end).
  assert (Hb : forall x, clamp_bound N k x = clampZ 0 N (from_end N x)).
  { intros x. unfold clamp_bound, clampZ, from_end. rewrite E1.
    destruct (0 <=? x) eqn:?; destruct (x <? N) eqn:?; destruct (x <? 0) eqn:?;
      destruct (- N <? x) eqn:?; lia. }
  assert (Hs : 0 <= start <= N).
  { unfold start. destruct (sl_start s); [rewrite Hb; unfold clampZ|]; lia. }
  assert (Ht : 0 <= stop <= N).
  { unfold stop. destruct (sl_stop s); [rewrite Hb; unfold clampZ|]; lia. }
  exists start, stop,
    (if stop <=? start then 0 else Z.quot (stop - start) k + (if Z.rem (stop - start) k =? 0 then 0 else 1)).
  split; [|split; [|split; [|split]]].
  - do 2 f_equal. destruct (stop <=? start) eqn:?; destruct (k <? 0) eqn:?; cbn [andb orb]; try reflexivity; lia.
  - f_equal. unfold select_forward. fold N.
    transitivity (filter (fun i => (start <=? i) && (i <? stop) && ((i - start) mod k =? 0)) (positions n)).
    { unfold start, stop. destruct (sl_start s), (sl_stop s); rewrite ?Hb; reflexivity. }
    apply forward_progression; assumption.
  - destruct (stop <=? start) eqn:E; [lia|].
    rewrite Z.quot_div_nonneg, Z.rem_mod_nonneg by lia.
    pose proof (Z.div_mod (stop - start) k ltac:(lia)) as D.
    pose proof (Z.mod_pos_bound (stop - start) k ltac:(lia)) as B.
    set (Q := (stop - start) / k) in *. set (R := (stop - start) mod k) in *.
    destruct (R =? 0) eqn:ER; nia.
  - exact Hs.
  - destruct (stop <=? start) eqn:E; [lia|].
    rewrite Z.quot_div_nonneg, Z.rem_mod_nonneg by lia.
    pose proof (Z.div_mod (stop - start) k ltac:(lia)) as D.
    pose proof (Z.mod_pos_bound (stop - start) k ltac:(lia)) as B.
    set (Q := (stop - start) / k) in *. set (R := (stop - start) mod k) in *.
    destruct (R =? 0) eqn:ER; nia.
Qed.

Lemma normalize_backward (n : nat) s :
  step_of s < 0 -> bound_ok n (sl_start s) -> bound_ok n (sl_stop s) -> (0 < n)%nat ->
  exists start stop slen,
    normalize_slice s (Z.of_nat n) = Ok (start, stop, step_of s, slen) /\
    select n s = Some (progression start (step_of s) (Z.to_nat slen)) /\
    0 <= slen <= Z.of_nat n /\ 0 <= start < Z.of_nat n /\
    (0 < slen -> 0 <= start + (slen - 1) * step_of s).
Proof.
  intros Hk B1 B2 Hn. unfold normalize_slice, select. fold (step_of s).
  destruct (step_of s =? 0) eqn:E0; [lia|].
  destruct (0 <? step_of s) eqn:E1; [lia|].
  set (k := step_of s) in *. set (N := Z.of_nat n) in *.
  set (start := match sl_start s with None => N - 1 | Some x => clamp_bound N k x end).
  set (stop := match sl_stop s with None => -1 | Some x => clamp_bound N k x end).
  assert (Hb : forall x, - N <= x -> clamp_bound N k x = clampZ (-1) (N - 1) (from_end N x)
                          /\ 0 <= clamp_bound N k x).
  { intros x Hx. unfold clamp_bound, clampZ, from_end. rewrite E1.
    destruct (0 <=? x) eqn:?; destruct (x <? N) eqn:?; destruct (x <? 0) eqn:?;
      destruct (- N <? x) eqn:?; lia. }
  assert (Hs : 0 <= start <= N - 1).
  { unfold start. unfold bound_ok in B1. destruct (sl_start s) as [z|]; [|lia].
    destruct (Hb z B1) as [-> ?]. unfold clampZ in *; lia. }
  assert (Ht : -1 <= stop <= N - 1).
  { unfold stop. unfold bound_ok in B2. destruct (sl_stop s) as [z|]; [|lia].
    destruct (Hb z B2) as [-> ?]. unfold clampZ in *; lia. }
  exists start, stop,
    (if start <=? stop then 0 else Z.quot (stop - start) k + (if Z.rem (stop - start) k =? 0 then 0 else 1)).
  assert (EQ : start <=? stop = false ->
     Z.quot (stop - start) k + (if Z.rem (stop - start) k =? 0 then 0 else 1)
     = (start - stop) / (- k) + (if (start - stop) mod (- k) =? 0 then 0 else 1)).
  { intros E. f_equal.
    - replace (stop - start) with (- (start - stop)) by lia.
      replace k with (- - k) at 1 by lia.
      rewrite Z.quot_opp_opp by lia. rewrite Z.quot_div_nonneg by lia. reflexivity.
    - replace (stop - start) with (- (start - stop)) by lia.
      replace k with (- - k) at 1 by lia.
      rewrite Z.rem_opp_opp by lia. rewrite Z.rem_mod_nonneg by lia.
      destruct ((start - stop) mod - k); reflexivity. }
  split; [|split; [|split; [|split]]].
  - do 2 f_equal. destruct (start <=? stop) eqn:?; destruct (k <? 0) eqn:?; cbn [andb orb]; try reflexivity; lia.
  - f_equal. unfold select_backward. fold N.
    transitivity (filter (fun i => (stop <? i) && (i <=? start) && ((start - i) mod (- k) =? 0)) (rev (positions n))).
    { unfold start, stop. unfold bound_ok in B1, B2.
      destruct (sl_start s) as [z1|]; [rewrite <- (proj1 (Hb z1 B1))|];
      destruct (sl_stop s) as [z2|]; try rewrite <- (proj1 (Hb z2 B2)); reflexivity. }
    apply backward_progression; lia.
  - destruct (start <=? stop) eqn:E; [lia|]. rewrite EQ by reflexivity.
    set (m := - k) in *.
    pose proof (Z.div_mod (start - stop) m ltac:(lia)) as D.
    pose proof (Z.mod_pos_bound (start - stop) m ltac:(lia)) as B.
    set (Q := (start - stop) / m) in *. set (R := (start - stop) mod m) in *.
    destruct (R =? 0) eqn:ER; nia.
  - lia.
  - destruct (start <=? stop) eqn:E; [lia|]. rewrite EQ by reflexivity.
    assert (exists m, k = - m) as [m ->] by (exists (- k); lia).
    rewrite Z.opp_involutive.
    pose proof (Z.div_mod (start - stop) m ltac:(lia)) as D.
    pose proof (Z.mod_pos_bound (start - stop) m ltac:(lia)) as B.
    set (Q := (start - stop) / m) in *. set (R := (start - stop) mod m) in *.
    destruct (R =? 0) eqn:ER; nia.
Qed.

Lemma normalize_step0 n s : step_of s = 0 -> normalize_slice s n = Exn ValueError.
Proof. intros H. unfold normalize_slice. fold (step_of s). rewrite H. reflexivity. Qed.

From Verif Require Import Base M_Iter S_Iter P_Base P_Slice.
From Coq Require Import Sorted.

(** ** range *)
Lemma range_produces nxt step n :
  inS 64 step -> (forall i, 0 <= i < Z.of_nat n -> inS 64 (nxt + step + i * step)) ->
  Z.of_nat n < 2 ^ 63 ->
  forall w, wrapS 64 (w + step) = wrapS 64 (nxt + step) ->
  produces range_next (mkRange w step (Z.of_nat n)) (progression (nxt + step) step n).
Proof.
  intros Hs. revert nxt. induction n as [|n IH]; intros nxt Hr Hn w Hw.
  - constructor. reflexivity.
  - assert (E0 : inS 64 (nxt + step)).
    { replace (nxt + step) with (nxt + step + 0 * step) by lia. apply Hr. lia. }
    assert (E : progression (nxt + step) step (S n) = (nxt + step) :: progression (nxt + step + step) step n).
    { unfold progression. cbn [seq map]. f_equal; [lia|].
      rewrite <- seq_shift, map_map. apply map_ext. intros j. lia. }
    rewrite E. econstructor.
    + unfold range_next. cbn [r_remaining r_nxt r_step].
      destruct (Z.of_nat (S n) <=? 0) eqn:E1; [lia|]. rewrite Hw, wrapS_id by (try assumption; lia).
      replace (Z.of_nat (S n) - 1) with (Z.of_nat n) by lia. reflexivity.
    + apply (IH (nxt + step)).
      * intros i Hi. replace (nxt + step + step + i * step) with (nxt + step + (i + 1) * step) by ring.
        apply Hr. lia.
      * lia.
      * reflexivity.
Qed.

Lemma range_nil r : r_remaining r <= 0 -> produces range_next r [].
Proof. intros H. constructor. unfold range_next. destruct (_ <=? 0) eqn:?; [reflexivity|lia]. Qed.

Lemma wrap_back a s : wrapS 64 (wrapS 64 (a - s) + s) = wrapS 64 a.
Proof.
  unfold wrapS. f_equal.
  replace ((a - s + 2 ^ (64 - 1)) mod 2 ^ 64 - 2 ^ (64 - 1) + s + 2 ^ (64 - 1))
    with ((a - s + 2 ^ (64 - 1)) mod 2 ^ 64 + s) by lia.
  rewrite Zplus_mod_idemp_l. f_equal. lia.
Qed.

Lemma quot_ceil_abs d s : s <> 0 ->
  Z.abs (Z.quot d s + (if Z.rem d s =? 0 then 0 else 1)) <= Z.abs d.
Proof.
  intros Hs. pose proof (Z.quot_rem (Z.abs d) (Z.abs s) ltac:(lia)) as D.
  rewrite Z.quot_abs, Z.rem_abs in D by assumption.
  set (Q := Z.quot d s) in *. set (R := Z.rem d s) in *.
  assert (Z.abs Q <= Z.abs s * Z.abs Q).
  { rewrite <- (Z.mul_1_l (Z.abs Q)) at 1. apply Z.mul_le_mono_nonneg_r; lia. }
  destruct (R =? 0) eqn:E; lia.
Qed.

Lemma range_correct a b s :
  inS 64 a -> inS 64 b -> inS 64 s -> inS 64 (b - a) -> b - a <> - 2 ^ 63 -> s <> 0 ->
  ~ overshoot a b s ->
  exists r xs, range_init a (Some b) (Some s) = Ok r /\ produces range_next r xs /\ is_range a b s xs.
Proof.
  intros Ha Hb Hs Hd Hmin Hs0 Hov. unfold range_init.
  destruct (s =? 0) eqn:E0; [lia|].
  rewrite (wrapS_id 64 (b - a)) by (try assumption; lia).
  destruct ((b - a =? - 2 ^ 63) && (s =? -1)) eqn:E1; [lia|].
  set (q := Z.quot (b - a) s + (if Z.rem (b - a) s =? 0 then 0 else 1)).
  assert (Hq : Z.abs q <= Z.abs (b - a)).
  { unfold q. apply quot_ceil_abs. assumption. }
  assert (Hqr : inS 64 q /\ q < 2 ^ 63).
  { unfold inS in *. change (2 ^ (64 - 1)) with (2 ^ 63) in *. lia. }
  rewrite (wrapS_id 64 q) by (try lia; tauto).
  eexists.
  destruct (Z_lt_dec 0 s) as [Hpos|Hneg].
  - (* upward *)
    destruct (Z_lt_dec b a) as [Hba|Hba].
    + (* empty: b - a <= -s *)
      exists []. split; [reflexivity|]. split.
      * apply range_nil. cbn [r_remaining]. unfold q.
        pose proof (Z.quot_rem' (b - a) s) as D.
        pose proof (Z.rem_bound_pos_neg (b - a) s ltac:(lia) ltac:(lia)) as B.
        set (Q := Z.quot (b - a) s) in *. set (R := Z.rem (b - a) s) in *.
        assert (b - a <= - s) by (unfold overshoot in Hov; lia).
        assert (Q <= -1).
        { destruct (Z_lt_dec Q 0); [lia|].
          assert (0 <= s * Q) by (apply Z.mul_nonneg_nonneg; lia). lia. }
        destruct (R =? 0); lia.
      * split; [intros _|lia]. split; [constructor|]. intros x. split; [intros []|lia].
    + exists (progression a s (Z.to_nat q)). split; [reflexivity|].
      assert (Hq0 : 0 <= q /\ (0 < q -> a + (q - 1) * s < b) /\ b <= a + q * s).
      { unfold q. rewrite Z.quot_div_nonneg, Z.rem_mod_nonneg by lia.
        pose proof (Z.div_mod (b - a) s ltac:(lia)) as D.
        pose proof (Z.mod_pos_bound (b - a) s ltac:(lia)) as B.
        set (Q := (b - a) / s) in *. set (R := (b - a) mod s) in *.
        destruct (R =? 0) eqn:ER; nia. }
      split.
      * replace a with (a - s + s) at 2 by lia.
        replace q with (Z.of_nat (Z.to_nat q)) at 1 by lia.
        apply range_produces.
        -- assumption.
        -- intros i Hi. rewrite Z2Nat.id in Hi by lia.
           assert (0 <= i * s <= (q - 1) * s).
           { split; [apply Z.mul_nonneg_nonneg|apply Z.mul_le_mono_nonneg_r]; lia. }
           unfold inS in *. lia.
        -- lia.
        -- replace (a - s + s) with a by lia. apply wrap_back.
      * split; [intros _|lia]. split.
        -- apply StronglySorted_map_seq. intros i j Hij. nia.
        -- intros x. rewrite in_progression. split.
           ++ intros (j & Hj & ->). split; [nia|].
              replace (a + j * s - a) with (j * s) by ring. apply Z.mod_mul. lia.
           ++ intros [Hx Hm]. exists ((x - a) / s).
              assert (x - a = s * ((x - a) / s)) by (apply Z_div_exact_full_2; lia).
              set (j := (x - a) / s) in *. split; [|lia]. split; nia.
  - (* downward *)
    assert (exists m, s = - m /\ 0 < m) as (m & -> & Hm) by (exists (- s); lia).
    destruct (Z_lt_dec a b) as [Hba|Hba].
    + exists []. split; [reflexivity|]. split.
      * apply range_nil. cbn [r_remaining]. unfold q.
        pose proof (Z.quot_rem' (b - a) (- m)) as D.
        pose proof (Z.rem_bound_neg_pos (b - a) (- m) ltac:(lia) ltac:(lia)) as B.
        set (Q := Z.quot (b - a) (- m)) in *. set (R := Z.rem (b - a) (- m)) in *.
        assert (m <= b - a) by (unfold overshoot in Hov; lia).
        assert (Q <= -1).
        { destruct (Z_lt_dec Q 0); [lia|].
          assert (0 <= m * Q) by (apply Z.mul_nonneg_nonneg; lia). lia. }
        destruct (R =? 0); lia.
      * split; [lia|]. intros _. split; [constructor|]. intros x. split; [intros []|lia].
    + exists (progression a (- m) (Z.to_nat q)). split; [reflexivity|].
      assert (EQ : q = (a - b) / m + (if (a - b) mod m =? 0 then 0 else 1)).
      { unfold q. f_equal.
        - replace (b - a) with (- (a - b)) by lia. rewrite Z.quot_opp_opp by lia.
          rewrite Z.quot_div_nonneg by lia. reflexivity.
        - replace (b - a) with (- (a - b)) by lia. rewrite Z.rem_opp_opp by lia.
          rewrite Z.rem_mod_nonneg by lia. destruct ((a - b) mod m); reflexivity. }
      assert (Hq0 : 0 <= q /\ (0 < q -> b < a - (q - 1) * m) /\ a - q * m <= b).
      { rewrite EQ.
        pose proof (Z.div_mod (a - b) m ltac:(lia)) as D.
        pose proof (Z.mod_pos_bound (a - b) m ltac:(lia)) as B.
        set (Q := (a - b) / m) in *. set (R := (a - b) mod m) in *.
        destruct (R =? 0) eqn:ER; nia. }
      clear EQ.
      split.
      * replace a with (a - - m + - m) at 2 by lia.
        replace q with (Z.of_nat (Z.to_nat q)) at 1 by lia.
        apply range_produces.
        -- assumption.
        -- intros i Hi. rewrite Z2Nat.id in Hi by lia.
           assert (0 <= i * m <= (q - 1) * m).
           { split; [apply Z.mul_nonneg_nonneg|apply Z.mul_le_mono_nonneg_r]; lia. }
           unfold inS in *. lia.
        -- lia.
        -- replace (a - - m + - m) with a by lia. apply wrap_back.
      * split; [lia|]. intros _. rewrite Z.opp_involutive. split.
        -- apply StronglySorted_map_seq. intros i j Hij. nia.
        -- intros x. rewrite in_progression. split.
           ++ intros (j & Hj & ->). split; [nia|].
              replace (a - (a + j * - m)) with (j * m) by ring. apply Z.mod_mul. lia.
           ++ intros [Hx Hmod]. exists ((a - x) / m).
              assert (a - x = m * ((a - x) / m)) by (apply Z_div_exact_full_2; lia).
              set (j := (a - x) / m) in *. split; [|nia]. split; nia.
Qed.

(** ** adapters *)
Section Ad.
Context {S1 S2 A B : Type}.

Lemma enumerate_produces (nx : next_fn S1 A) s xs n :
  produces nx s xs -> inS 64 n -> inS 64 (n + zlen xs) ->
  produces (enumerate_next nx) (s, n) (combine (map (fun i => n + Z.of_nat i) (seq 0 (length xs))) xs).
Proof.
  intros H. revert n. induction H as [s H|s x s' xs H HP IH]; intros n Hn Hb.
  - constructor. unfold enumerate_next. cbn [fst]. rewrite H. reflexivity.
  - cbn [length seq map combine]. replace (n + Z.of_nat 0) with n by lia.
    econstructor.
    + unfold enumerate_next. cbn [fst snd]. rewrite H. reflexivity.
    + unfold zlen in *. cbn [length] in Hb.
      rewrite wrapS_id by (try lia; unfold inS in *; lia).
      rewrite <- seq_shift, map_map.
      replace (map (fun i => n + Z.of_nat (S i)) (seq 0 (length xs)))
        with (map (fun i => n + 1 + Z.of_nat i) (seq 0 (length xs))).
      * apply IH; unfold inS in *; lia.
      * apply map_ext. intros. lia.
Qed.

Lemma map_produces (nx : next_fn S1 A) (f : A -> B) s xs :
  produces nx s xs -> produces (map_next nx f) s (map f xs).
Proof.
  induction 1 as [s H|s x s' xs H HP IH]; cbn [map]; econstructor; unfold map_next; try rewrite H; eauto.
Qed.

Lemma zip_produces (nx1 : next_fn S1 A) (nx2 : next_fn S2 B) s1 xs :
  produces nx1 s1 xs -> forall s2 ys, produces nx2 s2 ys ->
  produces (zip_next nx1 nx2) (s1, s2) (combine xs ys).
Proof.
  induction 1 as [s H|s x s' xs H HP IH]; intros s2 ys H2; cbn [combine].
  - constructor. unfold zip_next. cbn [fst]. rewrite H. reflexivity.
  - destruct H2 as [s2 H2|s2 y s2' ys H2 HP2].
    + constructor. unfold zip_next. cbn [fst snd]. rewrite H, H2. reflexivity.
    + econstructor; [|apply IH; eassumption]. unfold zip_next. cbn [fst snd]. rewrite H, H2. reflexivity.
Qed.

(** filter: enough fuel is the number of remaining elements plus one. *)
Lemma filter_next_spec (nx : next_fn S1 A) p s xs :
  produces nx s xs -> forall fuel, (length xs < fuel)%nat ->
  match filter p xs with
  | [] => filter_next fuel nx p s = Exn StopIteration
  | y :: ys => exists s' xs', filter_next fuel nx p s = Ok (y, s') /\
                 produces nx s' xs' /\ (length xs' < length xs)%nat /\ filter p xs' = ys
  end.
Proof.
  induction 1 as [s H|s x s' xs H HP IH]; intros fuel Hf.
  - destruct fuel; [lia|]. cbn. rewrite H. reflexivity.
  - destruct fuel as [|fuel]; [lia|]. cbn [filter filter_next length] in *. rewrite H.
    destruct (p x).
    + exists s', xs. auto.
    + specialize (IH fuel ltac:(lia)). destruct (filter p xs) as [|y ys]; [assumption|].
      destruct IH as (s2 & xs2 & ? & ? & ? & ?). exists s2, xs2. repeat split; try assumption. lia.
Qed.

Lemma filter_produces (nx : next_fn S1 A) p s xs fuel :
  produces nx s xs -> (length xs < fuel)%nat ->
  produces (filter_next fuel nx p) s (filter p xs).
Proof.
  remember (length xs) as n eqn:E. assert (Hle : (length xs <= n)%nat) by lia. clear E.
  revert s xs Hle. induction n as [|n IH]; intros s xs Hle HP Hf.
  - destruct xs; [|cbn in Hle; lia]. cbn. constructor.
    pose proof (filter_next_spec nx p s [] HP fuel ltac:(cbn; lia)) as H. cbn in H. rewrite H. reflexivity.
  - pose proof (filter_next_spec nx p s xs HP fuel ltac:(lia)) as H.
    destruct (filter p xs) as [|y ys].
    + constructor. rewrite H. reflexivity.
    + destruct H as (s' & xs' & E & HP' & Hl & <-). econstructor; [rewrite E; reflexivity|].
      apply IH; [lia|assumption|lia].
Qed.
End Ad.

Section Co.
Context {S1 A : Type}.
Variable nx : next_fn S1 A.

Lemma consume_spec {R} (upd : R -> A -> R) s xs :
  produces nx s xs -> forall fuel r, (length xs < fuel)%nat ->
  consume nx fuel upd s r = Ok (fold_left upd xs r).
Proof.
  induction 1 as [s H|s x s' xs H HP IH]; intros fuel r Hf; (destruct fuel as [|fuel]; [lia|]);
    cbn [consume fold_left length] in *; rewrite H; [reflexivity|]. apply IH. lia.
Qed.

Lemma fold_max_greatest (lt : A -> A -> bool) (W : weak_order lt) xs v :
  greatest lt (v :: xs) (fold_left (fun v n => if lt v n then n else v) xs v).
Proof.
  revert v. induction xs as [|x xs IH]; intros v; cbn [fold_left].
  - split; [left; reflexivity|]. intros y [<-|[]]. apply W.
  - specialize (IH (if lt v x then x else v)). destruct IH as [I1 I2].
    set (m := fold_left _ xs (if lt v x then x else v)) in *. split.
    + destruct I1 as [E|I1]; [|right; right; assumption].
      rewrite <- E. destruct (lt v x); [right; left|left]; reflexivity.
    + assert (Hv : lt m (if lt v x then x else v) = false) by (apply I2; left; reflexivity).
      destruct W as [Wi Wt Wn].
      intros y [<-|[<-|Hy]].
      * destruct (lt v x) eqn:E; [|assumption].
        apply Wn with x; [assumption|]. destruct (lt x v) eqn:E2; [|reflexivity].
        pose proof (Wt _ _ _ E E2) as E3. rewrite Wi in E3. discriminate.
      * destruct (lt v x) eqn:E; [assumption|]. apply Wn with v; assumption.
      * apply I2. right. assumption.
Qed.

Lemma fold_min_least (lt : A -> A -> bool) (W : weak_order lt) xs v :
  least lt (v :: xs) (fold_left (fun v n => if lt n v then n else v) xs v).
Proof.
  assert (W' : weak_order (fun x y => lt y x)).
  { destruct W as [Wi Wt Wn]. split; eauto. }
  exact (fold_max_greatest (fun x y => lt y x) W' xs v).
Qed.

Lemma fold_max_opt (lt : A -> A -> bool) xs v :
  fold_left (fun r n => match r with None => Some n | Some v => if lt v n then Some n else Some v end) xs (Some v)
  = Some (fold_left (fun v n => if lt v n then n else v) xs v).
Proof.
  revert v; induction xs as [|x xs IH]; intros v; cbn [fold_left]; [reflexivity|].
  destruct (lt v x); apply IH.
Qed.

Lemma max_spec (lt : A -> A -> bool) (W : weak_order lt) s xs fuel :
  produces nx s xs -> (length xs < fuel)%nat ->
  match xs with
  | [] => b_max nx lt fuel s None = Exn ValueError
  | _ => exists m, b_max nx lt fuel s None = Ok m /\ greatest lt xs m
  end.
Proof.
  intros HP Hf. unfold b_max. rewrite (consume_spec _ s xs HP) by assumption.
  destruct xs as [|x xs]; [reflexivity|]. cbn [fold_left]. rewrite fold_max_opt.
  eexists; split; [reflexivity|]. apply fold_max_greatest. assumption.
Qed.

Lemma max_default_empty (lt : A -> A -> bool) s fuel d :
  produces nx s [] -> (0 < fuel)%nat -> b_max nx lt fuel s (Some d) = Ok d.
Proof.
  intros HP Hf. unfold b_max. rewrite (consume_spec _ s [] HP) by assumption. reflexivity.
Qed.

Lemma min_spec (lt gt : A -> A -> bool) (W : weak_order lt) (Hgt : forall x y, gt x y = lt y x) s xs fuel d :
  produces nx s xs -> (length xs < fuel)%nat ->
  match xs with
  | [] => b_min nx gt fuel s d = (match d with Some v => Ok v | None => Exn ValueError end)
  | _ => exists m, b_min nx gt fuel s d = Ok m /\ least lt xs m
  end.
Proof.
  intros HP Hf. unfold b_min. rewrite (consume_spec _ s xs HP) by assumption.
  destruct xs as [|x xs]; [reflexivity|]. cbn [fold_left]. rewrite fold_max_opt.
  eexists; split; [reflexivity|].
  replace (fold_left (fun v n => if gt v n then n else v) xs x) with (fold_left (fun v n => if lt n v then n else v) xs x).
  - apply fold_min_least. assumption.
  - clear -Hgt. revert x. induction xs as [|y xs IH]; intros x; cbn [fold_left]; [reflexivity|].
    rewrite Hgt. apply IH.
Qed.

Lemma max_def_spec (lt : A -> A -> bool) (W : weak_order lt) s xs fuel d :
  produces nx s xs -> (length xs < fuel)%nat ->
  exists m, b_max_def nx lt fuel s d = Ok m /\ greatest lt (d :: xs) m.
Proof.
  intros HP Hf. unfold b_max_def. rewrite (consume_spec _ s xs HP) by assumption.
  eexists; split; [reflexivity|]. apply fold_max_greatest. assumption.
Qed.

Lemma sum_spec add zero s xs fuel st :
  produces nx s xs -> (length xs < fuel)%nat ->
  b_sum nx fuel add zero s st = Ok (fold_left add xs (match st with Some v => v | None => zero end)).
Proof. intros HP Hf. unfold b_sum. apply (consume_spec _ s xs HP). assumption. Qed.
End Co.

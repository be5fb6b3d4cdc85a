(** The upper half of tim sort, for any notion of "sorted piece" [SS] and "same elements" [SP]
    that the merges, insertions and run counting respect. *)
From Verif Require Import Base M_Timsort P_Base P_TimArr.
Local Open Scope nat_scope.

Section Runs.
Context {A : Type}.
Variable lt eq : A -> A -> bool.
Variable SS : list A -> Prop.
Variable SP : list A -> list A -> Prop.
Hypothesis SS_nil : SS [].
Hypothesis SSg_one : forall x, SS [x].
Hypothesis SP_refl : forall xs, SP xs xs.
Hypothesis SP_trans : forall xs ys zs, SP xs ys -> SP ys zs -> SP xs zs.
Hypothesis SP_app : forall xs ys xs' ys', SP xs xs' -> SP ys ys' -> SP (xs ++ ys) (xs' ++ ys').
Hypothesis SP_length : forall xs ys, SP xs ys -> length xs = length ys.
Hypothesis merge_spec : forall p xs ys s a b,
  r_start a = length p -> r_len a = length xs -> r_len b = length ys -> SS xs -> SS ys ->
  exists zs, merge lt eq (p ++ xs ++ ys ++ s) a b = Ok (p ++ zs ++ s) /\ SS zs /\ SP zs (xs ++ ys).
Hypothesis insertion_spec : forall n p so rest s fuel off i,
  length rest = n -> off = length p -> i = length so -> 1 <= i -> length so + length rest < fuel ->
  SS so ->
  exists zs, insertion_loop lt eq n fuel off i (p ++ so ++ rest ++ s) = Ok (p ++ zs ++ s) /\ SS zs /\
    SP zs (so ++ rest).
Hypothesis count_run_spec : forall fuel p rest size,
  size = length p + length rest -> rest <> [] -> length rest < fuel ->
  exists rn rest', count_run lt eq fuel (p ++ rest) (length p) size = Ok (length rn, p ++ rn ++ rest') /\
    SS rn /\ 1 <= length rn /\ SP (rn ++ rest') rest.

(** ** The run stack *)
(** [stk st pre]: the runs of [st] (top first) partition [pre] into sorted pieces. *)
Fixpoint stk (st : list run) (pre : list A) : Prop :=
  match st with
  | [] => pre = []
  | r :: st' => exists p seg, pre = p ++ seg /\ SS seg /\ r_start r = length p /\ r_len r = length seg /\
                              1 <= length seg /\ stk st' p
  end.

Definition lens_of (st : list run) : list nat := map r_len st.
Definition total (l : list nat) : nat := list_sum l.

Lemma stk_total st pre : stk st pre -> total (lens_of st) = length pre.
Proof.
  revert pre. induction st as [|r st IH]; cbn; intros pre H; [subst; reflexivity|].
  destruct H as (p & seg & -> & _ & _ & -> & _ & H). specialize (IH p H). unfold total, lens_of, list_sum in *.
  rewrite app_length. lia.
Qed.
Lemma stk_pos st pre : stk st pre -> Forall (fun n => 1 <= n) (lens_of st).
Proof.
  revert pre. induction st as [|r st IH]; cbn; intros pre H; [constructor|].
  destruct H as (p & seg & -> & _ & _ & -> & ? & H). constructor; [assumption|]. eapply IH. exact H.
Qed.

Lemma merge_top b a st pre rest : stk (b :: a :: st) pre ->
  exists pre', merge lt eq (pre ++ rest) a b = Ok (pre' ++ rest) /\
    stk (mkRun (r_start a) (r_len a + r_len b) :: st) pre' /\ SP pre' pre.
Proof.
  intros (p1 & sb & -> & Sb & Hb1 & Hb2 & Hb3 & p2 & sa & -> & Sa & Ha1 & Ha2 & Ha3 & Hst).
  destruct (merge_spec p2 sa sb rest a b Ha1 Ha2 Hb2 Sa Sb) as (zs & E & Hs & Hp).
  exists (p2 ++ zs). split; [|split].
  - replace (((p2 ++ sa) ++ sb) ++ rest) with (p2 ++ sa ++ sb ++ rest) by lists. rewrite E. f_equal. lists.
  - exists p2, zs. cbn [r_start r_len]. repeat split; try assumption.
    + rewrite (SP_length _ _ Hp). lens.
    + rewrite (SP_length _ _ Hp). lens.
  - replace ((p2 ++ sa) ++ sb) with (p2 ++ (sa ++ sb)) by lists. apply SP_app; [apply SP_refl|assumption].
Qed.

Lemma merge_second d c b st pre rest : stk (d :: c :: b :: st) pre ->
  exists pre', merge lt eq (pre ++ rest) b c = Ok (pre' ++ rest) /\
    stk (d :: mkRun (r_start b) (r_len b + r_len c) :: st) pre' /\ SP pre' pre.
Proof.
  intros (p1 & sd & -> & Sd & Hd1 & Hd2 & Hd3 & Hst).
  destruct (merge_top c b st p1 (sd ++ rest) Hst) as (p1' & E & H1 & H2).
  exists (p1' ++ sd). split; [|split].
  - replace ((p1 ++ sd) ++ rest) with (p1 ++ sd ++ rest) by lists. rewrite E. f_equal. lists.
  - exists p1', sd. repeat split; try assumption. rewrite (SP_length _ _ H2). assumption.
  - apply SP_app; [assumption|apply SP_refl].
Qed.

(** The lengths grow geometrically down the stack. *)
Fixpoint tri (l : list nat) : Prop :=
  match l with
  | [] => True
  | c :: t => (match t with b :: a :: _ => b + c < a | _ => True end) /\ tri t
  end.
Definition pair (l : list nat) : Prop := match l with b :: a :: _ => b < a | _ => True end.
Definition good (l : list nat) : Prop := tri l /\ pair l.

Lemma good_tl l : good l -> good (tl l).
Proof.
  unfold good, pair. destruct l as [|c [|b [|a t]]]; cbn; try tauto. intros ((H1 & H2) & H3). split; [tauto|lia].
Qed.
Lemma tri_tl l : tri l -> tri (tl l).
Proof. destruct l; cbn; tauto. Qed.

Lemma grow n : forall t c b, length t <= n -> tri (c :: b :: t) -> c <= b ->
  (Z.of_nat c * 2 ^ Z.of_nat (Nat.div2 (length t)) <= Z.of_nat (total (c :: b :: t)))%Z.
Proof.
  induction n as [n IH] using lt_wf_ind. intros t c b Hn HT Hcb.
  destruct t as [|a [|a' t]].
  - unfold total. cbn [length Nat.div2 list_sum fold_right]. cbn. lia.
  - unfold total. cbn [length Nat.div2 list_sum fold_right]. cbn. lia.
  - cbn [length] in *. change (Nat.div2 (S (S (length t)))) with (S (Nat.div2 (length t))).
    destruct HT as (H1 & H2 & H3). cbn in H2.
    specialize (IH (n - 1) ltac:(lia) t a a' ltac:(lia) H3 ltac:(lia)).
    rewrite Nat2Z.inj_succ, Z.pow_succ_r by lia.
    assert (0 < 2 ^ Z.of_nat (Nat.div2 (length t)))%Z by (apply Z.pow_pos_nonneg; lia).
    set (P := (2 ^ Z.of_nat (Nat.div2 (length t)))%Z) in *.
    assert (2 * Z.of_nat c * P <= Z.of_nat a * P)%Z by (apply Z.mul_le_mono_nonneg_r; lia).
    unfold total in *. cbn [list_sum fold_right] in *. fold (list_sum t) in *. lia.
Qed.

Lemma depth_bound l : good l -> Forall (fun n => 1 <= n) l -> (Z.of_nat (total l) < 2 ^ 62)%Z -> length l < 127.
Proof.
  intros [HT HP] Hpos Hb. destruct l as [|c [|b t]]; [cbn; lia|cbn; lia|].
  destruct (Nat.lt_ge_cases (length (c :: b :: t)) 127) as [|Hge]; [assumption|exfalso].
  cbn [length] in Hge. cbn in HP.
  pose proof (grow (length t) t c b ltac:(lia) HT ltac:(lia)) as G.
  inversion Hpos; subst.
  assert (62 <= Nat.div2 (length t)).
  { rewrite Nat.div2_div. apply Nat.div_le_lower_bound; lia. }
  assert (2 ^ 62 <= 2 ^ Z.of_nat (Nat.div2 (length t)))%Z by (apply Z.pow_le_mono_r; lia).
  assert (1 * 2 ^ Z.of_nat (Nat.div2 (length t)) <= Z.of_nat c * 2 ^ Z.of_nat (Nat.div2 (length t)))%Z.
  { apply Z.mul_le_mono_nonneg_r; [apply Z.pow_nonneg|]; lia. }
  lia.
Qed.

(** ** Collapse *)
Lemma collapse_spec fuel size rest : forall st pre,
  length st < fuel -> stk st pre -> tri (skipn 2 (lens_of st)) ->
  exists pre' st', collapse lt eq fuel (pre ++ rest) st size = Ok (pre' ++ rest, st') /\
    stk st' pre' /\ SP pre' pre /\ good (lens_of st') /\ length st' <= length st /\
    (check_invariant st = false -> length st' < length st).
Proof.
  induction fuel as [|fuel IH]; intros st pre Hf Hst HT; [lia|].
  cbn [collapse]. destruct st as [|rd [|rc [|rb st]]].
  - exists pre, []. unfold good. cbn in *. subst. repeat split; try lia; try discriminate. apply SP_refl.
  - exists pre, [rd]. unfold good. cbn [lens_of map tri pair length]. repeat split; try lia; try discriminate; [exact Hst|apply SP_refl].
  - destruct (_ || _) eqn:E.
    + destruct (merge_top rd rc [] pre rest Hst) as (pre' & -> & H1 & H2). cbn [bindr].
      exists pre', [mkRun (r_start rc) (r_len rc + r_len rd)]. unfold good.
      cbn [lens_of map tri pair length]. repeat split; try lia; assumption.
    + exists pre, [rd; rc]. unfold good. cbn [lens_of map tri pair length].
      split; [reflexivity|]. split; [exact Hst|]. split; [apply SP_refl|].
      split; [lia|]. split; [lia|]. cbn [check_invariant]. lia.
  - set (ABC := match st with ra :: _ => r_len ra <=? r_len rb + r_len rc | [] => false end).
    destruct (negb _ && negb _) eqn:E1.
    + exists pre, (rd :: rc :: rb :: st). split; [reflexivity|]. split; [exact Hst|].
      split; [apply SP_refl|]. split.
      * unfold good. cbn [lens_of map skipn] in *. split; [|cbn; lia].
        cbn [tri] in *. split; [lia|]. split; [|exact HT].
        destruct st as [|ra st]; [exact I|]. cbn [map]. unfold ABC in E1. lia.
      * split; [lia|]. cbn [check_invariant]. lia.
    + dif (_ && _) E2.
      * destruct (merge_second rd rc rb st pre rest Hst) as (pre1 & -> & H1 & H2). cbn [bindr].
        destruct (IH (rd :: mkRun (r_start rb) (r_len rb + r_len rc) :: st) pre1)
          as (pre' & st' & -> & I1 & I2 & I3 & I4 & _).
        -- cbn [length] in *. lia.
        -- exact H1.
        -- cbn [lens_of map skipn] in *. apply (tri_tl _ HT).
        -- exists pre', st'. cbn [length] in *. repeat split; try lia; try assumption; try apply I3;
           eapply SP_trans; eassumption.
      * destruct (merge_top rd rc (rb :: st) pre rest Hst) as (pre1 & -> & H1 & H2). cbn [bindr].
        destruct (IH (mkRun (r_start rc) (r_len rc + r_len rd) :: rb :: st) pre1)
          as (pre' & st' & -> & I1 & I2 & I3 & I4 & _).
        -- cbn [length] in *. lia.
        -- exact H1.
        -- cbn [lens_of map skipn] in *. apply (tri_tl _ HT).
        -- exists pre', st'. cbn [length] in *. repeat split; try lia; try assumption; try apply I3;
           eapply SP_trans; eassumption.
Qed.

Lemma finish_spec n : forall st pre, length st < n -> st <> [] -> stk st pre ->
  exists ys, finish lt eq n pre st = Ok ys /\ SS ys /\ SP ys pre.
Proof.
  induction n as [|n IH]; intros st pre Hn Hne Hst; [lia|]. cbn [finish].
  destruct st as [|b [|a st]]; [congruence| |].
  - exists pre. split; [reflexivity|]. split; [|apply SP_refl].
    destruct Hst as (p & seg & -> & Hs & _ & _ & _ & Hp). cbn in Hp. subst. exact Hs.
  - destruct (merge_top b a st pre [] Hst) as (pre' & E & H1 & H2). rewrite !app_nil_r in E. rewrite E. cbn [bindr].
    destruct (IH (mkRun (r_start a) (r_len a + r_len b) :: st) pre') as (ys & -> & I1 & I2).
    + cbn [length] in *. lia.
    + discriminate.
    + exact H1.
    + exists ys. repeat split; [assumption|]. eapply SP_trans; eassumption.
Qed.

(** ** Push *)
Definition Done (xs : list A) (d : list A) : Prop := SS d /\ SP d xs.
(** Loop state: [d] = sorted runs ++ rest. *)
Definition St (xs d : list A) (st : list run) (curr : nat) : Prop :=
  exists pre rest, d = pre ++ rest /\ stk st pre /\ curr = length pre /\ rest <> [] /\ SP d xs.

Lemma push_spec fuel xs d st curr size minrun :
  St xs d st curr -> size = length xs -> length st < 128 -> size - curr < fuel ->
  exists r, push_next lt eq fuel d size minrun st curr = Ok r /\
    match r with
    | inl d' => Done xs d'
    | inr (d', st', curr') => St xs d' st' curr' /\ (exists r0, st' = r0 :: st) /\ curr < curr' < size
    end.
Proof.
  intros (pre & rest & -> & Hst & -> & Hne & HP) Hsz Hd Hf. unfold push_next.
  assert (Hlen : size = length pre + length rest).
  { rewrite Hsz, <- (SP_length _ _ HP), app_length. reflexivity. }
  destruct (count_run_spec fuel pre rest size Hlen Hne ltac:(lia)) as (rn & rest' & -> & S1 & L1 & P1).
  cbn [bindr]. unfold usub. dif (_ <=? size) E0; [|lia]. cbn [bindr].
  set (avail := size - length pre). set (run := if avail <? minrun then avail else minrun).
  assert (Hrun : run <= avail) by (unfold run; destruct (avail <? minrun) eqn:?; lia).
  assert (Hl1 : length rn + length rest' = length rest).
  { rewrite <- (SP_length _ _ P1), app_length. reflexivity. }
  assert (exists rn2 rest2, (if length rn <? run
     then do d2 <- insertion_sort_start lt eq fuel (length pre) (pre ++ rn ++ rest') (length rn) run; Ok (run, d2)
     else Ok (length rn, pre ++ rn ++ rest')) = Ok (length rn2, pre ++ rn2 ++ rest2) /\
     SS rn2 /\ 1 <= length rn2 /\ SP (rn2 ++ rest2) rest) as (rn2 & rest2 & E2 & S2 & L2 & P2).
  { destruct (length rn <? run) eqn:E1.
    - unfold insertion_sort_start.
      set (m := run - length rn). 
      destruct (insertion_spec m pre rn (firstn m rest') (skipn m rest') fuel (length pre) (length rn))
        as (zs & E & Hs & Hp).
      + rewrite firstn_length. unfold m, avail in *. lia.
      + reflexivity.
      + reflexivity.
      + lia.
      + rewrite firstn_length. unfold avail in *. lia.
      + assumption.
      + rewrite firstn_skipn in E. rewrite E. cbn [bindr]. exists zs, (skipn m rest').
        assert (Lz : length zs = run).
        { rewrite (SP_length _ _ Hp), app_length, firstn_length. unfold m, avail in *. lia. }
        rewrite Lz. split; [reflexivity|]. split; [assumption|]. split; [lia|].
        apply SP_trans with (rn ++ rest'); [|assumption].
        rewrite <- (firstn_skipn m rest') at 2. rewrite app_assoc. apply SP_app; [assumption|apply SP_refl].
    - exists rn, rest'. auto. }
  rewrite E2. cbn [bindr]. destruct (128 <=? length st) eqn:E3; [lia|].
  assert (Hl2 : length rn2 + length rest2 = length rest).
  { rewrite <- (SP_length _ _ P2), app_length. reflexivity. }
  assert (Hstk : stk (mkRun (length pre) (length rn2) :: st) (pre ++ rn2)).
  { exists pre, rn2. cbn [r_start r_len]. repeat split; assumption. }
  assert (HP2 : SP (pre ++ rn2 ++ rest2) xs).
  { eapply SP_trans; [|exact HP]. apply SP_app; [apply SP_refl|assumption]. }
  dif (_ =? size) E4.
  - assert (rest2 = []) as -> by (apply length0; lia). rewrite app_nil_r in *.
    destruct (finish_spec (S (length (mkRun (length pre) (length rn2) :: st)))
                (mkRun (length pre) (length rn2) :: st) (pre ++ rn2)) as (ys & -> & I1 & I2).
    + lia.
    + discriminate.
    + assumption.
    + cbn [bindr]. eexists; split; [reflexivity|]. split; [assumption|]. eapply SP_trans; eassumption.
  - eexists; split; [reflexivity|]. cbv beta iota. split; [|split].
    + exists (pre ++ rn2), rest2. repeat split.
      * lists.
      * assumption.
      * lens.
      * intros ->. cbn in Hl2. lia.
      * assumption.
    + eauto.
    + assert (rest2 <> []) by (intros ->; cbn in Hl2; lia).
      destruct rest2; [congruence|]. cbn [length] in Hl2. lia.
Qed.

(** ** Main loop *)
Definition Shape (st : list run) : Prop := length st <= 3 \/ good (tl (lens_of st)).

Lemma check_good st : check_invariant st = true -> Shape st -> good (lens_of st).
Proof.
  unfold Shape, good. intros HC HS.
  destruct st as [|c [|b [|a st]]]; cbn [lens_of map tri pair check_invariant tl] in *.
  - tauto.
  - tauto.
  - split; [tauto|lia].
  - split; [|lia]. split; [lia|]. destruct HS as [HS|HS].
    + destruct st; [cbn; tauto|cbn in HS; lia].
    + unfold good in HS. tauto.
Qed.

Lemma shape_tri st : Shape st -> tri (skipn 2 (lens_of st)).
Proof.
  unfold Shape. intros [H|[H _]].
  - destruct st as [|c [|b [|a [|z st]]]]; cbn in *; try tauto. lia.
  - destruct st as [|c [|b st]]; cbn in *; try tauto.
Qed.

Lemma good_shape st : good (lens_of st) -> Shape st.
Proof. intros H. right. apply good_tl. assumption. Qed.

Lemma sort_loop_spec fuel xs minrun : forall d st curr,
  (Z.of_nat (length xs) < 2 ^ 62)%Z -> St xs d st curr -> Shape st ->
  2 * (length xs - curr) + length st < fuel ->
  exists ys, sort_loop lt eq fuel d (length xs) minrun st curr = Ok ys /\ Done xs ys.
Proof.
  induction fuel as [|fuel IH]; intros d st curr Hsz HSt HSh Hf; [lia|].
  cbn [sort_loop]. pose proof HSt as (pre & rest & Ed & Hst & Ec & Hne & HP).
  assert (Hlen : length xs = length pre + length rest).
  { rewrite <- (SP_length _ _ HP), Ed, app_length. reflexivity. }
  destruct (check_invariant st) eqn:EC; cbn [negb].
  - pose proof (check_good st EC HSh) as HG.
    assert (Hdep : length (lens_of st) < 127).
    { apply depth_bound; [assumption|eapply stk_pos; eassumption|].
      rewrite (stk_total st pre Hst). lia. }
    unfold lens_of in Hdep. rewrite map_length in Hdep.
    destruct (push_spec (S fuel) xs d st curr (length xs) minrun HSt eq_refl ltac:(lia) ltac:(lia)) as (r & -> & Hr).
    cbn [bindr]. destruct r as [d'|[[d' st'] curr']].
    + eauto.
    + destruct Hr as (H1 & (r0 & ->) & H3). apply IH; try assumption.
      * right. cbn. exact HG.
      * cbn [length] in *. lia.
  - destruct (collapse_spec (S fuel) (length xs) rest st pre ltac:(lia) Hst (shape_tri st HSh))
      as (pre' & st' & E & I1 & I2 & I3 & I4 & I5).
    rewrite Ed, E. cbn [bindr]. specialize (I5 EC).
    apply IH; try assumption.
    + exists pre', rest. rewrite (SP_length _ _ I2). repeat split; try assumption.
      eapply SP_trans; [|exact HP]. rewrite Ed. apply SP_app; [assumption|apply SP_refl].
    + apply good_shape. assumption.
    + lia.
Qed.

Lemma tim_sort_spec fuel xs :
  (zlen xs < 2 ^ 62)%Z -> 2 * length xs + 4 < fuel ->
  exists ys, tim_sort lt eq fuel xs = Ok ys /\ SS ys /\ SP ys xs.
Proof.
  intros Hsz Hf. unfold zlen in Hsz. unfold tim_sort.
  destruct (length xs <=? 1) eqn:E1.
  - exists xs. split; [reflexivity|]. split; [|apply SP_refl].
    destruct xs as [|x [|y xs]]; [apply SS_nil|apply SSg_one|cbn in E1; lia].
  - destruct (length xs <? 64) eqn:E2.
    + unfold insertion_sort. rewrite E1. unfold insertion_sort_start.
      destruct xs as [|x xs]; [cbn in E1; lia|].
      destruct (insertion_spec (length (x :: xs) - 1) [] [x] xs [] fuel 0 1) as (zs & E & Hs & Hp).
      * cbn. lia.
      * reflexivity.
      * reflexivity.
      * lia.
      * cbn [length] in *. lia.
      * apply SSg_one.
      * cbn [app] in *. rewrite !app_nil_r in E. exists zs. auto.
    + set (minrun := compute_minrun (length xs)). clearbody minrun.
      assert (S0 : St xs xs [] 0).
      { exists [], xs. repeat split; [intros ->; cbn in E1; lia|apply SP_refl]. }
      destruct (push_spec fuel xs xs [] 0 (length xs) minrun S0 eq_refl ltac:(cbn; lia) ltac:(lia)) as (r1 & -> & H1).
      cbn [bindr]. destruct r1 as [d1|[[d1 st1] c1]]; [eexists; split; [reflexivity|exact H1]|].
      destruct H1 as (S1 & (r & ->) & C1).
      destruct (push_spec fuel xs d1 [r] c1 (length xs) minrun S1 eq_refl ltac:(cbn; lia) ltac:(lia)) as (r2 & -> & H2).
      cbn [bindr]. destruct r2 as [d2|[[d2 st2] c2]]; [eexists; split; [reflexivity|exact H2]|].
      destruct H2 as (S2 & (r' & ->) & C2).
      destruct (push_spec fuel xs d2 [r'; r] c2 (length xs) minrun S2 eq_refl ltac:(cbn; lia) ltac:(lia)) as (r3 & -> & H3).
      cbn [bindr]. destruct r3 as [d3|[[d3 st3] c3]]; [eexists; split; [reflexivity|exact H3]|].
      destruct H3 as (S3 & (r'' & ->) & C3).
      destruct (sort_loop_spec fuel xs minrun d3 [r''; r'; r] c3) as (ys & E & Hd).
      * exact Hsz.
      * exact S3.
      * left. cbn. lia.
      * cbn [length]. lia.
      * exists ys. split; [exact E|exact Hd].
Qed.

End Runs.

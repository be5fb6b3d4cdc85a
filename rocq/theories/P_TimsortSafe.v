(** Tim sort with an arbitrary comparison: memory safety, termination, permutation. *)
From Verif Require Import Base M_Timsort P_Base P_TimArr P_TimRuns.
From Coq Require Import Permutation.
Local Open Scope nat_scope.

Section P.
Context {A : Type}.
Variable lt eq : A -> A -> bool.
Notation SP := (@Permutation A).

Lemma merge_left_perm n : forall p junk ys s sto a0 xs d i j k la e,
  d = p ++ junk ++ ys ++ s -> sto = a0 ++ xs -> i = length a0 -> la = length sto ->
  length junk = length xs -> j = length p + length junk -> k = length p ->
  e = j + length ys -> n = length xs + length ys ->
  exists zs, merge_left_loop lt eq n d sto i j k la e = Ok (p ++ zs ++ s) /\ SP zs (xs ++ ys).
Proof.
  induction n as [|n IH]; intros p junk ys s sto a0 xs d i j k la e -> -> -> -> Hjx -> -> -> Hn.
  - assert (xs = []) as -> by (apply length0; lia). assert (ys = []) as -> by (apply length0; lia).
    assert (junk = []) as -> by (apply length0; cbn in Hjx; lia).
    exists []. split; [reflexivity|constructor].
  - cbn [merge_left_loop]. destruct xs as [|x xs].
    + assert (junk = []) as -> by (apply length0; cbn in Hjx; lia).
      rewrite app_nil_r, Nat.ltb_irrefl. cbn [andb]. exists ys. split; [reflexivity|apply Permutation_refl].
    + destruct junk as [|z junk]; [discriminate|]. cbn [length] in Hjx.
      destruct (length a0 <? length (a0 ++ x :: xs)) eqn:E1; [|lens]. cbn [andb].
      rewrite (aget_at (a0 ++ x :: xs) (length a0) a0 x xs eq_refl eq_refl).
      destruct ys as [|y ys].
      * dlt E2; [lens|]. cbn [bindr].
        rewrite (aset_at _ (length p) p z x (junk ++ [] ++ s)) by lists. cbn [bindr].
        destruct (IH (p ++ [x]) junk [] s (a0 ++ x :: xs) (a0 ++ [x]) xs
                     (p ++ x :: junk ++ [] ++ s) (length a0 + 1) (length p + length (z :: junk)) (length p + 1)
                     (length (a0 ++ x :: xs)) (length p + length (z :: junk) + length (@nil A)))
          as (zs & E3 & Hp); try lists; try lens.
        rewrite E3. exists (x :: zs). split; [f_equal; lists|]. apply Permutation_cons; [reflexivity|assumption].
      * dlt E2; [|lens]. cbn [bindr].
        rewrite (aget_at _ (length p + length (z :: junk)) (p ++ z :: junk) y (ys ++ s)) by (lists || lens).
        cbn [bindr]. destruct (_ <=? 0)%Z eqn:El.
        -- rewrite (aset_at _ (length p) p z x (junk ++ (y :: ys) ++ s)) by lists. cbn [bindr].
           destruct (IH (p ++ [x]) junk (y :: ys) s (a0 ++ x :: xs) (a0 ++ [x]) xs
                     (p ++ x :: junk ++ (y :: ys) ++ s) (length a0 + 1) (length p + length (z :: junk)) (length p + 1)
                     (length (a0 ++ x :: xs)) (length p + length (z :: junk) + length (y :: ys)))
             as (zs & E3 & Hp); try lists; try lens; try assumption.
           rewrite E3. exists (x :: zs). split; [f_equal; lists|].
           cbn [app]. apply Permutation_cons; [reflexivity|assumption].
        -- rewrite (aset_at _ (length p) p z y (junk ++ (y :: ys) ++ s)) by lists. cbn [bindr].
           destruct (IH (p ++ [y]) (junk ++ [y]) ys s (a0 ++ x :: xs) a0 (x :: xs)
                     (p ++ y :: junk ++ (y :: ys) ++ s) (length a0) (length p + length (z :: junk) + 1) (length p + 1)
                     (length (a0 ++ x :: xs)) (length p + length (z :: junk) + length (y :: ys)))
             as (zs & E3 & Hp); try lists; try lens; try assumption.
           rewrite E3. exists (y :: zs). split; [f_equal; lists|].
           apply Permutation_cons_app. assumption.
Qed.

Lemma merge_right_perm n : forall p xs junk s sto ys b0 d i j curr,
  d = p ++ xs ++ junk ++ s -> sto = ys ++ b0 -> i = length ys ->
  length junk = length ys -> j = length p + length xs -> curr = length p ->
  n = length xs + length ys ->
  exists zs, merge_right_loop lt eq n d sto i j curr = Ok (p ++ zs ++ s) /\ SP zs (xs ++ ys).
Proof.
  induction n as [|n IH]; intros p xs junk s sto ys b0 d i j curr -> -> -> Hjy -> -> Hn.
  - assert (xs = []) as -> by (apply length0; lia). assert (ys = []) as -> by (apply length0; lia).
    assert (junk = []) as -> by (apply length0; cbn in Hjy; lia).
    exists []. split; [reflexivity|constructor].
  - cbn [merge_right_loop]. destruct (snoc_cases ys) as [->|(ys1 & y & ->)].
    + assert (junk = []) as -> by (apply length0; cbn in Hjy; lia).
      cbn [length Nat.ltb Nat.leb andb]. exists xs. rewrite app_nil_r. split; [reflexivity|apply Permutation_refl].
    + destruct (snoc_cases junk) as [->|(junk1 & z & ->)]; [lens|].
      destruct (0 <? length (ys1 ++ [y])) eqn:E1; [|lens]. cbn [andb].
      rewrite (aget_at _ (length (ys1 ++ [y]) - 1) ys1 y b0) by (lists || lens).
      destruct (snoc_cases xs) as [->|(xs1 & x & ->)].
      * dlt E2; [lens|]. cbn [bindr].
        rewrite (aset_at _ (length p + n) (p ++ junk1) z y s) by (lists || lens). cbn [bindr].
        destruct (IH p [] junk1 (y :: s) ((ys1 ++ [y]) ++ b0) ys1 ([y] ++ b0)
                     ((p ++ junk1) ++ y :: s) (length (ys1 ++ [y]) - 1) (length p + length (@nil A)) (length p))
          as (zs & E3 & Hp); try lists; try lens; try assumption.
        rewrite E3. exists (zs ++ [y]). split; [f_equal; lists|].
        cbn [app] in *. apply Permutation_app_tail. assumption.
      * dlt E2; [|lens]. cbn [bindr].
        rewrite (aget_at _ (length p + length (xs1 ++ [x]) - 1) (p ++ xs1) x ((junk1 ++ [z]) ++ s)) by (lists || lens).
        cbn [bindr]. destruct (0 <? _)%Z eqn:El.
        -- rewrite (aset_at _ (length p + n) (p ++ (xs1 ++ [x]) ++ junk1) z x s) by (lists || lens). cbn [bindr].
           destruct (IH p xs1 ([x] ++ junk1) (x :: s) ((ys1 ++ [y]) ++ b0) (ys1 ++ [y]) b0
                     ((p ++ (xs1 ++ [x]) ++ junk1) ++ x :: s) (length (ys1 ++ [y]))
                     (length p + length (xs1 ++ [x]) - 1) (length p))
             as (zs & E3 & Hp); try lists; try lens; try assumption.
           rewrite E3. exists (zs ++ [x]). split; [f_equal; lists|].
           rewrite <- app_assoc. cbn [app].
           apply Permutation_trans with (x :: zs); [apply Permutation_sym, Permutation_cons_append|].
           apply Permutation_cons_app. assumption.
        -- rewrite (aset_at _ (length p + n) (p ++ (xs1 ++ [x]) ++ junk1) z y s) by (lists || lens). cbn [bindr].
           destruct (IH p (xs1 ++ [x]) junk1 (y :: s) ((ys1 ++ [y]) ++ b0) ys1 ([y] ++ b0)
                     ((p ++ (xs1 ++ [x]) ++ junk1) ++ y :: s) (length (ys1 ++ [y]) - 1)
                     (length p + length (xs1 ++ [x])) (length p))
             as (zs & E3 & Hp); try lists; try lens; try assumption.
           rewrite E3. exists (zs ++ [y]). split; [f_equal; lists|].
           replace ((xs1 ++ [x]) ++ ys1 ++ [y]) with (((xs1 ++ [x]) ++ ys1) ++ [y]) by lists.
           apply Permutation_app_tail. assumption.
Qed.

Lemma merge_perm p xs ys s a b :
  r_start a = length p -> r_len a = length xs -> r_len b = length ys -> True -> True ->
  exists zs, merge lt eq (p ++ xs ++ ys ++ s) a b = Ok (p ++ zs ++ s) /\ True /\ SP zs (xs ++ ys).
Proof.
  intros Ha La Lb _ _. unfold merge. rewrite Ha, La, Lb.
  destruct (length xs <? length ys) eqn:E.
  - rewrite (copy_out_at _ (length p) (length xs) p xs (ys ++ s)) by lists. cbn [bindr].
    edestruct merge_left_perm with (junk := xs) (a0 := @nil A) (ys := ys) as (zs & -> & H); try reflexivity.
    exists zs. auto.
  - rewrite (copy_out_at _ (length p + length xs) (length ys) (p ++ xs) ys s) by (lists || lens). cbn [bindr].
    edestruct merge_right_perm with (junk := ys) (b0 := @nil A) (xs := xs) as (zs & -> & H); try reflexivity.
    + rewrite app_nil_r. reflexivity.
    + exists zs. auto.
Qed.

Lemma find_loop_safe fuel (d : list A) x : forall l r,
  r - l < fuel -> l <= r < length d ->
  exists loc, find_loop lt eq fuel d x l (l + Nat.div2 (r - l)) r = Ok loc /\ loc <= r + 1.
Proof.
  induction fuel as [|fuel IH]; intros l r Hf Hlr; [lia|].
  cbn [find_loop]. set (c := l + Nat.div2 (r - l)).
  assert (Hc : l <= c <= r /\ (2 <= r - l -> l < c < r)).
  { unfold c. destruct (Nat.le_gt_cases 2 (r - l)) as [H|H].
    - pose proof (div2_bound (r - l) H). lia.
    - destruct (Nat.eq_dec (r - l) 0) as [->|]; [cbn; lia|]. replace (r - l) with 1 by lia. cbn. lia. }
  destruct (aget_in d c ltac:(lia)) as (cx & -> & Ec). cbn [bindr].
  destruct (_ <? 0)%Z eqn:E.
  - destruct (c - l <=? 1) eqn:E1; [exists c; split; [reflexivity|lia]|].
    destruct (IH l c) as (loc & -> & H2); [lia|lia|]. exists loc. split; [reflexivity|lia].
  - destruct (r - c <=? 1) eqn:E1; [exists (c + 1); split; [reflexivity|lia]|].
    destruct (IH c r) as (loc & -> & H2); [lia|lia|]. exists loc. split; [reflexivity|lia].
Qed.

Lemma find_safe fuel (so rest : list A) x : 1 <= length so -> length so < fuel ->
  exists p q, so = p ++ q /\ binary_insertion_find lt eq fuel (so ++ rest) x (length so) = Ok (length p).
Proof.
  intros H1 Hf.
  assert (exists loc, binary_insertion_find lt eq fuel (so ++ rest) x (length so) = Ok loc /\ loc <= length so)
    as (loc & E & Hl).
  { unfold binary_insertion_find, usub. destruct (1 <=? length so) eqn:E1; [|lia]. cbn [bindr].
    set (d := so ++ rest).
    assert (Hd : length so <= length d) by (unfold d; lens).
    destruct (aget_in d 0 ltac:(lia)) as (d0 & -> & E0). cbn [bindr].
    destruct (_ <? 0)%Z; [exists 0; split; [reflexivity|lia]|].
    destruct (aget_in d (length so - 1) ltac:(lia)) as (dr & -> & _). cbn [bindr].
    destruct (0 <? _)%Z; [exists (length so - 1); split; [reflexivity|lia]|].
    destruct (find_loop_safe fuel d x 0 (length so - 1)) as (loc & E & Hl); [lia|lia|].
    rewrite Nat.sub_0_r in E. cbn [Nat.add] in E. exists loc. split; [exact E|lia]. }
  exists (firstn loc so), (skipn loc so). rewrite firstn_skipn, firstn_length, E.
  split; [reflexivity|]. f_equal. lia.
Qed.

Lemma insertion_safe n : forall p so rest s fuel off i,
  length rest = n -> off = length p -> i = length so -> 1 <= i -> length so + length rest < fuel -> True ->
  exists zs, insertion_loop lt eq n fuel off i (p ++ so ++ rest ++ s) = Ok (p ++ zs ++ s) /\ True /\
    SP zs (so ++ rest).
Proof.
  induction n as [|n IH]; intros p so rest s fuel off i Hn -> -> Hi Hf _; cbn [insertion_loop].
  - apply length0 in Hn as ->. exists so. rewrite app_nil_r. split; [reflexivity|]. split; [exact I|apply Permutation_refl].
  - destruct rest as [|x rest]; [discriminate|].
    destruct (snoc_cases so) as [->|(l0 & la & Hso)]; [cbn in Hi; lia|].
    unfold usub. destruct (1 <=? length so) eqn:E1; [|lia]. cbn [bindr].
    rewrite (aget_at _ (length p + (length so - 1)) (p ++ l0) la ((x :: rest) ++ s)) by (subst so; (lists || lens)).
    cbn [bindr].
    rewrite (aget_at _ (length p + length so) (p ++ so) x (rest ++ s)) by (lists || lens).
    cbn [bindr]. destruct (_ <=? 0)%Z eqn:El.
    + destruct (IH p (so ++ [x]) rest s fuel (length p) (length so + 1)) as (zs & E & _ & Hp);
        [cbn in Hn; lia|reflexivity|lens|lia|cbn [length] in Hf; lens|exact I|].
      replace (p ++ so ++ (x :: rest) ++ s) with (p ++ (so ++ [x]) ++ rest ++ s) by lists.
      rewrite E. exists zs. split; [reflexivity|]. split; [exact I|].
      replace (so ++ x :: rest) with ((so ++ [x]) ++ rest) by lists. assumption.
    + assert (Esk : skipn (length p) (p ++ so ++ (x :: rest) ++ s) = so ++ (x :: rest) ++ s).
      { rewrite skipn_app, Nat.sub_diag, skipn_all. reflexivity. }
      rewrite Esk.
      destruct (find_safe fuel so ((x :: rest) ++ s) x Hi ltac:(lia)) as (a & b & Eab & ->).
      cbn [bindr].
      assert (Hlab : length so = length a + length b) by (rewrite Eab; lens).
      destruct (shift_spec (length so - length a) (p ++ a) b x (rest ++ s) (length p + length a)) as (g & Eg).
      { lia. }
      { lens. }
      replace (p ++ so ++ (x :: rest) ++ s) with ((p ++ a) ++ b ++ x :: rest ++ s) by (rewrite Eab; lists).
      rewrite Eg. cbn [bindr].
      rewrite (aset_at _ (length p + length a) (p ++ a) g x (b ++ rest ++ s)) by (lists || lens). cbn [bindr].
      destruct (IH p (a ++ x :: b) rest s fuel (length p) (length so + 1)) as (zs & E & _ & Hp);
        [cbn in Hn; lia|reflexivity|lens|lia|cbn [length] in Hf; lens|exact I|].
      replace ((p ++ a) ++ x :: b ++ rest ++ s) with (p ++ (a ++ x :: b) ++ rest ++ s) by lists.
      rewrite E. exists zs. split; [reflexivity|]. split; [exact I|].
      apply Permutation_trans with ((a ++ x :: b) ++ rest); [assumption|].
      rewrite Eab. replace ((a ++ b) ++ x :: rest) with ((a ++ (b ++ [x])) ++ rest) by lists.
      apply Permutation_app_tail, Permutation_app_head, Permutation_cons_append.
Qed.

Lemma scan_safe up fuel : forall (p rn rest : list A) curr last,
  curr = length p + length rn -> last + 1 = length p + length rn + length rest ->
  1 <= length rn -> curr <= last -> last - curr < fuel ->
  exists rn2 rest2, scan_run lt eq fuel up (p ++ rn ++ rest) curr last = Ok (length p + length rn2) /\
    rn ++ rest = rn2 ++ rest2 /\ length rn <= length rn2.
Proof.
  induction fuel as [|fuel IH]; intros p rn rest curr last -> Hl H1 Hc Hf; [lia|].
  cbn [scan_run]. dif (_ =? last) E.
  - exists rn, rest. repeat split. lia.
  - destruct rest as [|x rest]; [cbn in Hl; lia|].
    unfold usub. dif (1 <=? _) E1; [|lens]. cbn [bindr].
    destruct (aget_in (p ++ rn ++ x :: rest) (length p + length rn - 1) ltac:(lens)) as (a & -> & _). cbn [bindr].
    destruct (aget_in (p ++ rn ++ x :: rest) (length p + length rn) ltac:(lens)) as (b & -> & _). cbn [bindr].
    destruct (if up then _ else _) eqn:E2.
    + exists rn, (x :: rest). repeat split. lia.
    + destruct (IH p (rn ++ [x]) rest (length p + length rn + 1) last) as (rn2 & rest2 & H2 & H3 & H4);
        [lens|lens|lens|lens|lens|].
      exists rn2, rest2. split; [|split].
      * rewrite <- H2. f_equal. lists.
      * rewrite <- H3. lists.
      * lens.
Qed.

Lemma count_run_safe fuel p rest size :
  size = length p + length rest -> rest <> [] -> length rest < fuel ->
  exists rn rest', count_run lt eq fuel (p ++ rest) (length p) size = Ok (length rn, p ++ rn ++ rest') /\
    True /\ 1 <= length rn /\ SP (rn ++ rest') rest.
Proof.
  intros -> Hne Hf. unfold count_run, usub.
  destruct (length p <=? length p + length rest) eqn:E0; [|lia]. cbn [bindr].
  destruct rest as [|x rest]; [congruence|]. destruct rest as [|y rest].
  - cbn [length]. replace (length p + 1 - length p =? 1) with true by (symmetry; apply Nat.eqb_eq; lia).
    exists [x], []. repeat split; [cbn; lia|apply Permutation_refl].
  - cbn [length]. dif (_ =? 1) E1; [lia|].
    dif (2 <=? _) E2; [|lia]. cbn [bindr]. dif (1 <=? _) E3; [|lia]. cbn [bindr].
    dif (_ <=? length p) E4.
    + assert (rest = []) as -> by (apply length0; lia). cbn [length].
      rewrite (aget_at _ (length p + 2 - 2) p x [y]) by (reflexivity || lia). cbn [bindr].
      rewrite (aget_at _ (length p + 2 - 1) (p ++ [x]) y []) by (lists || lens). cbn [bindr].
      destruct (0 <? _)%Z.
      * rewrite (aset_at _ (length p + 2 - 2) p x y [y]) by (reflexivity || lia). cbn [bindr].
        rewrite (aset_at _ (length p + 2 - 1) (p ++ [y]) y x []) by (lists || lens). cbn [bindr].
        exists [y; x], []. split; [f_equal; f_equal; lists|]. split; [exact I|split; [cbn; lia|]].
        apply perm_swap.
      * exists [x; y], []. split; [reflexivity|]. split; [exact I|split; [cbn; lia|apply Permutation_refl]].
    + rewrite (aget_at _ (length p) p x (y :: rest)) by reflexivity. cbn [bindr].
      rewrite (aget_at _ (length p + 1) (p ++ [x]) y rest) by (lists || lens). cbn [bindr].
      assert (G : forall up, exists rn2 rest2,
        scan_run lt eq fuel up (p ++ x :: y :: rest) (length p + 2) (length p + S (S (length rest)) - 1) =
          Ok (length p + length rn2) /\ x :: y :: rest = rn2 ++ rest2 /\ 2 <= length rn2).
      { intros up.
        destruct (scan_safe up fuel p [x; y] rest (length p + 2) (length p + S (S (length rest)) - 1))
          as (rn & rest' & H1 & H2 & H3); cbn [length] in *; try lia.
        exists rn, rest'. auto. }
      destruct (_ <=? 0)%Z.
      * destruct (G true) as (rn & rest' & -> & H2 & H3). cbn [bindr]. rewrite H2. exists rn, rest'.
        split; [f_equal; f_equal; lia|]. split; [exact I|]. split; [lia|apply Permutation_refl].
      * destruct (G false) as (rn & rest' & -> & H2 & H3). cbn [bindr]. rewrite H2.
        rewrite (reverse_spec (length rn)); [|lia| |reflexivity|lia].
        -- cbn [bindr]. exists (rev rn), rest'. rewrite rev_length.
           split; [f_equal; f_equal; lia|]. split; [exact I|]. split; [lia|].
           apply Permutation_app_tail, Permutation_sym, Permutation_rev.
        -- apply (f_equal (@length A)) in H2. rewrite !app_length in H2. cbn [length] in *. lia.
Qed.

Lemma sorted_safe fuel xs :
  (zlen xs < 2 ^ 62)%Z -> 2 * length xs + 4 < fuel ->
  exists ys, tim_sort lt eq fuel xs = Ok ys /\ SP xs ys.
Proof.
  intros H1 H2.
  destruct (P_TimRuns.tim_sort_spec lt eq (fun _ => True) SP) with (fuel := fuel) (xs := xs) as (ys & E & _ & Hp);
    try assumption.
  - exact I.
  - intros; exact I.
  - apply Permutation_refl.
  - apply Permutation_trans.
  - intros. apply Permutation_app; assumption.
  - apply Permutation_length.
  - exact merge_perm.
  - exact insertion_safe.
  - exact count_run_safe.
  - exists ys. split; [exact E|apply Permutation_sym; exact Hp].
Qed.
End P.

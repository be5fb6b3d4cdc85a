(** Lemmas for the bytearray theorems: remaining operations. *)
From Verif Require Import Base P_Base M_Slice S_Slice P_Slice M_List S_List M_ListApi P_List S_Bytearray M_Bytearray P_Bytearray.

Lemma position_spec (xs : list Z) n :
  position xs n = let i := if n <? 0 then zlen xs + n else n in
                  if (i <? 0) || (zlen xs <=? i) then None else Some (Z.to_nat i).
Proof.
  unfold position, from_end. cbv zeta.
  replace (if n <? 0 then n + zlen xs else n) with (if n <? 0 then zlen xs + n else n) by (destruct (n <? 0); lia).
  set (i := if n <? 0 then zlen xs + n else n).
  destruct ((i <? 0) || (zlen xs <=? i)) eqn:E1; destruct ((0 <=? i) && (i <? zlen xs)) eqn:E2; try reflexivity; lia.
Qed.

Lemma getitem_brep b xs t n : BRep b xs t ->
  ba_getitem b n = match position xs n with
                   | Some p => match nth_error xs p with Some x => Ok x | None => UB end
                   | None => Exn IndexError
                   end.
Proof.
  intros HR. pose proof HR as (H1 & _). unfold ba_getitem. rewrite position_spec, H1. cbv zeta.
  set (i := if n <? 0 then zlen xs + n else n).
  destruct ((i <? 0) || (zlen xs <=? i)) eqn:E; [reflexivity|].
  destruct (cellz_rep (view b) xs i (view_rep b xs t HR)) as (x & -> & E2); [lia|]. exact E2.
Qed.

Lemma Forall_update xs p x : Forall is_byte xs -> is_byte x -> Forall is_byte (update_at xs p x).
Proof.
  intros H Hx. unfold update_at. apply Forall_app. split; [apply Forall_firstn'; assumption|].
  constructor; [assumption|apply Forall_skipn'; assumption].
Qed.

Lemma setcell_brep b xs t i v d :
  BRep b xs t -> 0 <= i < zlen xs -> is_byte v -> zset (b_buf b) i (Some v) = Some d ->
  BRep (mkBa d (b_n b) (b_cap b)) (update_at xs (Z.to_nat i) v) t.
Proof.
  intros HR Hi Hv E. pose proof HR as (H1 & H2 & H3 & H4 & H5 & H6).
  pose proof (setcell_rep (view b) xs i v d (view_rep b xs t HR) Hi E) as (R1 & R2 & R3 & R4).
  unfold view in *. cbn [data len cap] in *.
  destruct (zset_spec (b_buf b) i (Some v)) as (d2 & E2 & L2 & N2); [lia|]. rewrite E in E2. injection E2 as <-.
  assert (L : length (update_at xs (Z.to_nat i) v) = length xs) by (apply update_at_length; unfold zlen in *; lia).
  unfold BRep. cbn [b_buf b_n b_cap].
  split; [assumption|]. split; [unfold zlen in *; lia|]. split; [unfold zlen in *; lia|].
  split; [assumption|]. split; [apply Forall_update; assumption|].
  intros T. rewrite L, N2. destruct (length xs =? Z.to_nat i)%nat eqn:E1; [unfold zlen in *; lia|]. auto.
Qed.

Lemma setitem_brep b xs t n v : BRep b xs t ->
  match position xs n with
  | Some p => if (0 <=? v) && (v <=? 255)
              then exists b', ba_setitem b n v = Ok b' /\ BRep b' (update_at xs p v) t
              else ba_setitem b n v = Exn ValueError
  | None => ba_setitem b n v = Exn IndexError
  end.
Proof.
  intros HR. pose proof HR as (H1 & H2 & H3 & _). unfold ba_setitem. rewrite position_spec, H1. cbv zeta.
  set (i := if n <? 0 then zlen xs + n else n).
  destruct ((i <? 0) || (zlen xs <=? i)) eqn:E; [reflexivity|].
  destruct ((0 <=? v) && (v <=? 255)) eqn:E1; destruct ((v <? 0) || (255 <? v)) eqn:E2; try lia; [|reflexivity].
  destruct (zset_spec (b_buf b) i (Some v)) as (d & E3 & _); [lia|]. rewrite E3. cbn [orUB bindr].
  eexists; split; [reflexivity|]. rewrite <- H1. apply setcell_brep; try assumption; [lia|unfold is_byte; lia].
Qed.

Lemma delitem_brep b xs t n : BRep b xs t ->
  match position xs n with
  | Some p => exists b', ba_delitem b n = Ok b' /\ BRep b' (remove_at xs p) false
  | None => ba_delitem b n = Exn IndexError
  end.
Proof.
  intros HR. pose proof HR as (H1 & H2 & H3 & H4 & H5 & H6). unfold ba_delitem. rewrite position_spec, H1. cbv zeta.
  set (i := if n <? 0 then zlen xs + n else n).
  destruct ((i <? 0) || (zlen xs <=? i)) eqn:E; [reflexivity|].
  unfold memmove.
  destruct (blit_spec (b_buf b) (b_buf b) i (i + 1) (zlen xs - (i + 1))) as (d & -> & L & N); try lia.
  cbn [orUB bindr]. eexists; split; [reflexivity|]. unfold BRep, remove_at. cbn [b_buf b_n b_cap].
  assert (Hl : length (firstn (Z.to_nat i) xs ++ skipn (S (Z.to_nat i)) xs) = (length xs - 1)%nat).
  { rewrite app_length, firstn_length, skipn_length. unfold zlen in *. lia. }
  rewrite Hl. split; [unfold zlen in *; lia|]. split; [unfold zlen in *; lia|].
  split; [unfold zlen in *; lia|]. split.
  { intros j Hj. rewrite N, ne_app, firstn_length, ne_firstn, ne_skipn. unfold zlen in *.
    replace (Nat.min (Z.to_nat i) (length xs)) with (Z.to_nat i) by lia.
    destruct (j <? Z.to_nat i)%nat eqn:E1.
    - destruct ((Z.to_nat i <=? j)%nat && _) eqn:E2; [lia|]. apply H4. lia.
    - destruct ((Z.to_nat i <=? j)%nat && _) eqn:E2; [|lia].
      replace (Z.to_nat (i + 1) + (j - Z.to_nat i))%nat with (S (Z.to_nat i) + (j - Z.to_nat i))%nat by lia.
      apply H4. lia. }
  split; [|discriminate].
  apply Forall_app. split; [apply Forall_firstn'|apply Forall_skipn']; assumption.
Qed.

Lemma reverse_brep b xs t : BRep b xs t -> exists b', ba_reverse b = Ok b' /\ BRep b' (rev xs) t.
Proof.
  intros (H1 & H2 & H3 & H4 & H5 & H6). unfold ba_reverse. rewrite H1.
  assert (Hle : (length xs <= length (b_buf b))%nat) by (unfold zlen in *; lia).
  destruct (reverse_loop_spec (b_buf b) (length xs) Hle (length xs / 2) 0 (b_buf b)) as (d & E & L & N).
  - lia.
  - reflexivity.
  - intros j. destruct ((j <? length xs)%nat && _) eqn:E; [lia|reflexivity].
  - unfold zlen at 1 2. change 0 with (Z.of_nat 0) at 1.
    replace (Z.to_nat (Z.of_nat (length xs) / 2)) with (length xs / 2)%nat by lia.
    change (Z.of_nat 0) with 0 in *. rewrite E. cbn [bindr].
    eexists; split; [reflexivity|]. unfold BRep. cbn [b_buf b_n b_cap]. unfold zlen in *. rewrite rev_length.
    split; [lia|]. split; [lia|]. split; [lia|]. split.
    { intros i Hi. rewrite N. destruct (i <? length xs)%nat eqn:E1; [|lia].
      rewrite H4 by lia. f_equal. rewrite ne_rev. rewrite E1. reflexivity. }
    split; [apply Forall_rev; assumption|].
    intros T. rewrite N. destruct (length xs <? length xs)%nat eqn:E1; [lia|]. auto.
Qed.

Lemma bytes_at xs ps : Forall is_byte xs -> Forall is_byte (at_positions xs ps).
Proof.
  intros H. induction ps as [|p ps IH]; cbn [at_positions]; [constructor|].
  destruct (nth_error xs (Z.to_nat p)) as [x|] eqn:E; [|assumption].
  constructor; [|assumption]. rewrite Forall_forall in H. apply H. eapply nth_error_In. exact E.
Qed.

Lemma delslice_list b (xs : list Z) s start stop k slen : b_n b = zlen xs ->
  normalize_slice s (b_n b) = Ok (start, stop, k, slen) -> slen <> 0 ->
  ba_delslice b s = do l <- list_delslice (view b) s;
                    do d <- orUB (zset (data l) (len l) (Some 0)); Ok (mkBa d (len l) (b_cap b)).
Proof.
  intros H1 E Hs. unfold ba_delslice, list_delslice, view. cbn [data len cap]. rewrite E. cbn [bindr].
  destruct (slen =? 0) eqn:E1; [lia|].
  destruct (delslice_loop _ _ _ _ _) as [[d p]|e| |]; cbn [bindr]; try reflexivity.
  destruct (memmove d p _ _) as [d'|]; cbn [bindr orUB data len]; reflexivity.
Qed.

Lemma delslice_brep b xs t s : BRep b xs t -> 0 <= step_of s ->
  match select (length xs) s with
  | None => ba_delslice b s = Exn ValueError
  | Some ps => exists b', ba_delslice b s = Ok b' /\ BRep b' (drop_positions xs ps) t
  end.
Proof.
  intros HR Hk. pose proof HR as (H1 & H2 & H3 & H4 & H5 & H6).
  pose proof (delslice_rep (view b) xs s (view_rep b xs t HR) Hk) as D.
  destruct (Z.eq_dec (step_of s) 0) as [H0|H0].
  { rewrite select_step0 in * by assumption. unfold ba_delslice. rewrite H1.
    rewrite normalize_step0 by assumption. reflexivity. }
  destruct (normalize_forward (length xs) s ltac:(lia)) as (start & stop & slen & E1 & E2 & E3 & E4 & E5).
  fold (zlen xs) in E1. rewrite <- H1 in E1.
  destruct (Z.eq_dec slen 0) as [Hs|Hs].
  - rewrite E2 in *. destruct D as (l' & D1 & D2).
    unfold list_delslice in D1. unfold view in D1. cbn [len data cap] in D1. rewrite E1 in D1. cbn [bindr] in D1.
    destruct (slen =? 0) eqn:E6; [|lia]. injection D1 as <-.
    exists b. unfold ba_delslice. rewrite E1. cbn [bindr]. rewrite E6. split; [reflexivity|].
    replace (drop_positions xs (progression start (step_of s) (Z.to_nat slen))) with xs; [assumption|].
    destruct D2 as (R1 & _ & _ & R4). cbn [len data] in *.
    assert (L : length (drop_positions xs (progression start (step_of s) (Z.to_nat slen))) = length xs).
    { unfold zlen in *; lia. }
    apply list_ext. intros i. destruct (Nat.lt_ge_cases i (length xs)) as [Hi|Hi].
    + specialize (R4 i ltac:(lia)). rewrite H4 in R4 by lia. congruence.
    + rewrite !ne_none by lia. reflexivity.
  - rewrite (delslice_list b xs s start stop (step_of s) slen H1 E1 Hs).
    rewrite E2 in *. destruct D as (l' & D1 & D2). rewrite D1. cbn [bindr].
    destruct D2 as (R1 & R2 & R3 & R4).
    assert (Ldata : zlen (data l') = zlen (b_buf b)).
    { assert (C : cap l' = zlen (b_buf b)).
      { unfold list_delslice, view in D1. cbn [len data cap] in D1. rewrite E1 in D1. cbn [bindr] in D1.
        destruct (slen =? 0) eqn:E6; [lia|].
        destruct (delslice_loop _ _ _ _ _) as [[d p]|e| |]; cbn [bindr] in D1; try discriminate.
        destruct (memmove d p _ _) as [d'|]; cbn [bindr orUB] in D1; [|discriminate].
        injection D1 as <-. reflexivity. }
      lia. }
    set (ys := drop_positions xs (progression start (step_of s) (Z.to_nat slen))) in *.
    assert (Hys : zlen ys < zlen xs).
    { assert (len l' = zlen xs - slen).
      { unfold list_delslice, view in D1. cbn [len data cap] in D1. rewrite E1 in D1. cbn [bindr] in D1.
        destruct (slen =? 0) eqn:E6; [lia|].
        destruct (delslice_loop _ _ _ _ _) as [[d p]|e| |]; cbn [bindr] in D1; try discriminate.
        destruct (memmove d p _ _) as [d'|]; cbn [bindr orUB] in D1; [|discriminate].
        injection D1 as <-. cbn [len]. lia. }
      lia. }
    pose proof (zlen_nonneg ys).
    destruct (zset_spec (data l') (len l') (Some 0)) as (d & -> & L & N); [lia|]. cbn [orUB bindr].
    eexists; split; [reflexivity|]. unfold BRep. cbn [b_buf b_n b_cap].
    split; [assumption|]. split; [unfold zlen in *; lia|]. split; [lia|]. split.
    { intros i Hi. rewrite N. destruct (i =? Z.to_nat (len l'))%nat eqn:E6; [unfold zlen in *; lia|]. apply R4. assumption. }
    split; [unfold ys, drop_positions; apply bytes_at; assumption|].
    intros _. rewrite N. destruct (length ys =? Z.to_nat (len l'))%nat eqn:E6; [reflexivity|unfold zlen in *; lia].
Qed.

Lemma getslice_loop_brep b xs t0 step : BRep b xs t0 -> zlen xs <= 2 ^ 30 ->
  forall n i t r ys m, (ys = [] \/ True) ->
  (* r: i cells written, n to go *)
  b_n r = Z.of_nat (i + n) -> zlen (b_buf r) = b_cap r + 1 -> b_cap r = Z.of_nat (i + n) ->
  (forall j, (j < i)%nat -> nth_error (b_buf r) j = Some (nth_error ys j)) -> length ys = i ->
  nth_error (b_buf r) (i + n) = Some (Some 0) -> m = t ->
  (forall p, In p (progression t step n) -> 0 <= p < zlen xs) -> Forall is_byte ys ->
  exists r', ba_getslice_loop n (Z.of_nat i) t step b r = Ok r' /\
             BRep r' (ys ++ at_positions xs (progression t step n)) true.
Proof.
  intros HR Hsm. induction n as [|n IH]; intros i t r ys m _ Hn Hbuf Hcap Hcells Hys Hterm _ Hp Hby; cbn [ba_getslice_loop].
  - exists r. split; [reflexivity|]. cbn. rewrite app_nil_r. subst i. rewrite Nat.add_0_r in *.
    unfold BRep. unfold zlen in *. repeat split; auto; lia.
  - rewrite progression_S in *.
    assert (Ht : 0 <= t < zlen xs) by (apply Hp; left; reflexivity).
    rewrite (getitem_brep b xs t0 t HR), position_spec. cbv zeta.
    destruct (t <? 0) eqn:E0; [lia|]. destruct ((t <? 0) || (zlen xs <=? t)) eqn:E1; [lia|].
    destruct (ne_some xs (Z.to_nat t)) as [x Hx]; [unfold zlen in *; lia|]. rewrite Hx. cbn [bindr].
    assert (Bx : is_byte x).
    { destruct HR as (_ & _ & _ & _ & H5 & _). rewrite Forall_forall in H5. apply H5. eapply nth_error_In. exact Hx. }
    unfold ba_setitem. rewrite Hn. destruct (Z.of_nat i <? 0) eqn:E2; [lia|].
    destruct ((Z.of_nat i <? 0) || (Z.of_nat (i + S n) <=? Z.of_nat i)) eqn:E3; [lia|].
    unfold is_byte in Bx. destruct ((x <? 0) || (255 <? x)) eqn:E4; [lia|].
    destruct (zset_spec (b_buf r) (Z.of_nat i) (Some x)) as (d & -> & L & N); [lia|]. cbn [orUB bindr].
    cbn [at_positions]. rewrite Hx.
    destruct n as [|n].
    + cbn [ba_getslice_loop]. cbn. eexists; split; [reflexivity|].
      unfold BRep. cbn [b_buf b_n b_cap]. unfold zlen in *. rewrite app_length. cbn [length].
      split; [lia|]. split; [lia|]. split; [lia|]. split.
      { intros j Hj. rewrite N, ne_app. destruct (j =? Z.to_nat (Z.of_nat i))%nat eqn:E5.
        - destruct (j <? length ys)%nat eqn:E6; [lia|]. replace (j - length ys)%nat with 0%nat by lia. reflexivity.
        - destruct (j <? length ys)%nat eqn:E6; [|lia]. apply Hcells. lia. }
      split; [apply Forall_app; split; [assumption|constructor; [unfold is_byte; lia|constructor]]|].
      intros _. rewrite N. destruct (length ys + 1 =? Z.to_nat (Z.of_nat i))%nat eqn:E5; [lia|].
      rewrite Hys. exact Hterm.
    + assert (Ht' : 0 <= t + step < zlen xs).
      { apply Hp. right. rewrite progression_S. left. reflexivity. }
      rewrite wrapS_id; [|lia|unfold inS; change (2 ^ (64 - 1)) with (2 ^ 33 * 2 ^ 30); lia].
      replace (Z.of_nat i + 1) with (Z.of_nat (S i)) by lia.
      destruct (IH (S i) (t + step) (mkBa d (Z.of_nat (i + S (S n))) (b_cap r)) (ys ++ [x]) (t + step)) as (r' & E & HR').
      * auto.
      * cbn [b_n]. lia.
      * cbn [b_buf b_cap]. unfold zlen in *. lia.
      * cbn [b_cap]. lia.
      * cbn [b_buf]. intros j Hj. rewrite N, ne_app. destruct (j =? Z.to_nat (Z.of_nat i))%nat eqn:E5.
        -- destruct (j <? length ys)%nat eqn:E6; [lia|]. replace (j - length ys)%nat with 0%nat by lia. reflexivity.
        -- destruct (j <? length ys)%nat eqn:E6; [|lia]. apply Hcells. lia.
      * rewrite app_length. cbn. lia.
      * cbn [b_buf]. rewrite N. destruct (S i + S n =? Z.to_nat (Z.of_nat i))%nat eqn:E5; [lia|].
        replace (S i + S n)%nat with (i + S (S n))%nat by lia. exact Hterm.
      * reflexivity.
      * intros p Hin. apply Hp. right. exact Hin.
      * apply Forall_app. split; [assumption|]. constructor; [unfold is_byte; lia|constructor].
      * exists r'. split; [exact E|]. rewrite <- app_assoc in HR'. exact HR'.
Qed.

Lemma getslice_brep b xs t s : BRep b xs t -> small xs -> slice_ok (length xs) s ->
  match py_slice xs s with
  | Ok ys => exists r, ba_getslice b s = Ok r /\ BRep r ys true
  | Exn e => ba_getslice b s = Exn e
  | UB => False
  | NoFuel => False
  end.
Proof.
  intros HR Hs Hok. pose proof HR as (H1 & _). unfold ba_getslice, py_slice. rewrite H1.
  destruct (slice_cases xs s Hok) as [H0|(start & stop & slen & E1 & E2 & E3 & E4 & E5)].
  { rewrite select_step0 by assumption. rewrite normalize_step0 by assumption. reflexivity. }
  rewrite E1, E2. cbn [bindr]. rewrite unfilled_spec by lia. cbn [bindr].
  destruct (getslice_loop_brep b xs t (step_of s) HR Hs (Z.to_nat slen) 0 start
             (mkBa (repeat None (Z.to_nat slen) ++ [Some 0]) slen slen) [] start) as (r & E & HRr).
  - auto.
  - cbn [b_n]. lia.
  - cbn [b_buf b_cap]. unfold zlen. rewrite app_length, repeat_length. cbn. lia.
  - cbn [b_cap]. lia.
  - intros j Hj. lia.
  - reflexivity.
  - cbn [b_buf]. rewrite ne_app, repeat_length. destruct (_ <? _)%nat eqn:E6; [lia|].
    replace (0 + Z.to_nat slen - Z.to_nat slen)%nat with 0%nat by lia. reflexivity.
  - reflexivity.
  - assumption.
  - constructor.
  - exists r. split; assumption.
Qed.

Lemma contains_brep b xs t v : BRep b xs t -> is_byte v -> ba_contains b v = Ok (existsb (Z.eqb v) xs).
Proof.
  intros HR Hv. pose proof HR as (H1 & _). unfold ba_contains. rewrite H1.
  unfold wrapU. rewrite Z.mod_small by (unfold is_byte in Hv; change (2 ^ 8) with 256; lia).
  unfold zlen. rewrite Nat2Z.id.
  assert (G : forall n i, (i + n = length xs)%nat ->
    ba_contains_from n (Z.of_nat i) v (b_buf b) = Ok (existsb (Z.eqb v) (skipn i xs))).
  { induction n as [|n IH]; intros i Hi; cbn [ba_contains_from].
    - rewrite skipn_all2 by lia. reflexivity.
    - destruct (cellz_rep (view b) xs (Z.of_nat i) (view_rep b xs t HR)) as (x & Hx & E); [unfold zlen; lia|].
      unfold view in E. cbn [data] in E. rewrite E. cbn [bindr]. rewrite Nat2Z.id in Hx.
      assert (Es : skipn i xs = x :: skipn (S i) xs).
      { apply list_ext. intros j. rewrite ne_cons, !ne_skipn. destruct (j =? 0)%nat eqn:E0.
        - replace (i + j)%nat with i by lia. assumption.
        - f_equal. lia. }
      rewrite Es. cbn [existsb]. rewrite Z.eqb_sym. destruct (v =? x); [reflexivity|].
      replace (Z.of_nat i + 1) with (Z.of_nat (S i)) by lia. apply IH. lia. }
  change 0 with (Z.of_nat 0). rewrite G by lia. reflexivity.
Qed.

Lemma iterate_brep b xs t : BRep b xs t ->
  forall fuel nxt, (nxt <= length xs)%nat -> (length xs - nxt < fuel)%nat ->
  ba_iterate fuel b (Z.of_nat nxt) = Ok (skipn nxt xs).
Proof.
  intros HR. pose proof HR as (H1 & _). induction fuel as [|f IH]; intros nxt Hn Hf; [lia|].
  cbn [ba_iterate]. unfold baiter_next. rewrite H1.
  destruct (zlen xs <=? Z.of_nat nxt) eqn:E; unfold zlen in E.
  - rewrite skipn_all2 by lia. reflexivity.
  - destruct (cellz_rep (view b) xs (Z.of_nat nxt) (view_rep b xs t HR)) as (x & Hx & E2); [unfold zlen; lia|].
    unfold view in E2. cbn [data] in E2. rewrite E2. cbn [bindr]. rewrite Nat2Z.id in Hx.
    replace (Z.of_nat nxt + 1) with (Z.of_nat (S nxt)) by lia. rewrite IH by lia. cbn [bindr]. f_equal.
    apply list_ext. intros j. rewrite ne_cons, !ne_skipn. destruct (j =? 0)%nat eqn:E0.
    + replace (nxt + j)%nat with nxt by lia. congruence.
    + f_equal. lia.
Qed.

Lemma contents_brep b xs t : BRep b xs t -> ba_contents b = Ok xs.
Proof.
  intros HR. unfold ba_contents. pose proof HR as (H1 & _). rewrite H1.
  change 0 with (Z.of_nat 0). rewrite (iterate_brep b xs t HR); [reflexivity|lia|unfold zlen; lia].
Qed.

Lemma copy_brep b xs t : BRep b xs t -> exists r, ba_copy b = Ok r /\ BRep r xs true.
Proof.
  intros HR. pose proof HR as (H1 & H2 & H3 & H4 & H5 & H6). unfold ba_copy. rewrite H1.
  pose proof (zlen_nonneg xs). rewrite unfilled_spec by lia. cbn [bindr b_buf b_cap].
  set (u := repeat None (Z.to_nat (zlen xs)) ++ [Some 0]).
  assert (Lu : zlen u = zlen xs + 1) by (unfold u, zlen; rewrite app_length, repeat_length; cbn; lia).
  destruct (blit_spec u (b_buf b) 0 0 (zlen xs)) as (d & -> & L & N); try lia. cbn [orUB bindr].
  eexists; split; [reflexivity|]. unfold BRep. cbn [b_buf b_n b_cap].
  split; [reflexivity|]. split; [unfold zlen in *; lia|]. split; [lia|]. split.
  { intros i Hi. rewrite N. unfold zlen. destruct ((Z.to_nat 0 <=? i)%nat && _) eqn:E; [|lia].
    replace (Z.to_nat 0 + (i - Z.to_nat 0))%nat with i by lia. auto. }
  split; [assumption|]. intros _. rewrite N. unfold zlen. destruct ((Z.to_nat 0 <=? _)%nat && _) eqn:E; [lia|].
  unfold u. rewrite ne_app, repeat_length. unfold zlen. destruct (_ <? _)%nat eqn:E2; [lia|].
  replace (length xs - Z.to_nat (Z.of_nat (length xs)))%nat with 0%nat by lia. reflexivity.
Qed.

Lemma add_brep b xs t o ys t' : BRep b xs t -> BRep o ys t' -> zlen xs + zlen ys <= 2 ^ 30 ->
  exists r, ba_add b o = Ok r /\ BRep r (xs ++ ys) true.
Proof.
  intros (H1 & H2 & H3 & H4 & H5 & H6) (G1 & G2 & G3 & G4 & G5 & G6) Hb. unfold ba_add. rewrite H1, G1.
  pose proof (zlen_nonneg xs). pose proof (zlen_nonneg ys).
  rewrite wrapS_id; [|lia|unfold inS; change (2 ^ (32 - 1)) with (2 * 2 ^ 30); lia].
  rewrite unfilled_spec by lia. cbn [bindr b_buf b_cap b_n].
  set (m := zlen xs + zlen ys) in *.
  set (u := repeat None (Z.to_nat m) ++ [Some 0]).
  assert (Lu : zlen u = m + 1) by (unfold u, zlen; rewrite app_length, repeat_length; cbn; lia).
  destruct (blit_spec u (b_buf b) 0 0 (zlen xs)) as (d1 & -> & L1 & N1); try (unfold zlen in *; lia). cbn [orUB bindr].
  destruct (blit_spec d1 (b_buf o) (zlen xs) 0 (zlen ys)) as (d2 & -> & L2 & N2); try (unfold zlen in *; lia). cbn [orUB bindr].
  eexists; split; [reflexivity|]. unfold BRep. cbn [b_buf b_n b_cap]. rewrite zlen_app. fold m.
  split; [reflexivity|]. split; [unfold zlen in *; lia|]. split; [lia|]. rewrite app_length. split.
  { intros i Hi. rewrite N2, N1, ne_app. unfold zlen in *.
    destruct (i <? length xs)%nat eqn:E.
    - destruct ((Z.to_nat (Z.of_nat (length xs)) <=? i)%nat && _) eqn:E1; [lia|].
      destruct ((Z.to_nat 0 <=? i)%nat && _) eqn:E2; [|lia].
      replace (Z.to_nat 0 + (i - Z.to_nat 0))%nat with i by lia. apply H4. lia.
    - destruct ((Z.to_nat (Z.of_nat (length xs)) <=? i)%nat && _) eqn:E1; [|lia].
      replace (Z.to_nat 0 + (i - Z.to_nat (Z.of_nat (length xs))))%nat with (i - length xs)%nat by lia. apply G4. lia. }
  split; [apply Forall_app; split; assumption|].
  intros _. rewrite N2, N1. unfold zlen in *.
  destruct ((Z.to_nat (Z.of_nat (length xs)) <=? _)%nat && _) eqn:E1; [lia|].
  destruct ((Z.to_nat 0 <=? _)%nat && _) eqn:E2; [lia|].
  unfold u. rewrite ne_app, repeat_length. destruct (_ <? _)%nat eqn:E3; [lia|].
  replace (length xs + length ys - Z.to_nat m)%nat with 0%nat by lia. reflexivity.
Qed.

Lemma bytes_repeat xs n : Forall is_byte xs -> Forall is_byte (concat (repeat xs n)).
Proof. intros H. induction n as [|n IH]; cbn; [constructor|]. apply Forall_app. split; assumption. Qed.

(** The copying loop leaves the cells after the copies alone. *)
Lemma mul_loop_tail (src : list (option Z)) ln : 0 <= ln ->
  forall n i d d', 0 <= i -> mul_loop n i ln d src = Ok d' ->
  length d' = length d /\
  forall j, (i + Z.of_nat n) * ln <= Z.of_nat j -> nth_error d' j = nth_error d j.
Proof.
  intros Hln. induction n as [|n IH]; intros i d d' Hi E; cbn [mul_loop] in E.
  - injection E as <-. auto.
  - destruct (blit d (i * ln) src 0 ln) as [d1|] eqn:E1; cbn [orUB bindr] in E; [|discriminate].
    destruct (IH (i + 1) d1 d') as [L N]; [lia|assumption|].
    assert (B : 0 <= i * ln /\ i * ln + ln <= zlen d /\ 0 + ln <= zlen src).
    { unfold blit in E1. destruct (_ && _ && _ && _ && _) eqn:E2 in E1; [|discriminate]. lia. }
    destruct (blit_spec d src (i * ln) 0 ln) as (d2 & E2 & L2 & N2); try lia. rewrite E1 in E2. injection E2 as <-.
    split; [lia|]. intros j Hj. rewrite N by nia. rewrite N2.
    destruct ((Z.to_nat (i * ln) <=? j)%nat && _) eqn:E3; [nia|reflexivity].
Qed.

Lemma mul_brep b xs t n : BRep b xs t -> inS 32 n -> zlen xs * n <= 2 ^ 30 ->
  exists r, ba_mul b n = Ok r /\ BRep r (concat (repeat xs (Z.to_nat n))) true.
Proof.
  intros HR Hn Hb. pose proof HR as (H1 & H2 & H3 & H4 & H5 & H6). unfold ba_mul.
  rewrite (wrapS_id 32 n) by (try lia; assumption). rewrite H1. pose proof (zlen_nonneg xs).
  destruct (n <=? 0) eqn:E.
  - rewrite unfilled_spec by lia. replace (Z.to_nat n) with 0%nat by lia. eexists; split; [reflexivity|].
    cbn. unfold BRep. cbn. repeat split; auto; try lia.
  - assert (0 <= zlen xs * n) by nia.
    rewrite wrapS_id; [|lia|unfold inS; change (2 ^ (32 - 1)) with (2 * 2 ^ 30); lia].
    rewrite unfilled_spec by lia. cbn [bindr b_buf b_cap b_n].
    set (m := zlen xs * n) in *. set (u := repeat None (Z.to_nat m) ++ [Some 0]).
    assert (Lu : zlen u = m + 1) by (unfold u, zlen; rewrite app_length, repeat_length; cbn; lia).
    destruct (mul_loop_rep (view b) xs (view_rep b xs t HR) (Z.to_nat n) 0 u (zlen u) m []) as (d & E2 & HRd).
    + apply Rep_intro; cbn [len cap data length]; try reflexivity; [lia|]. intros i Hi. lia.
    + reflexivity.
    + rewrite Lu. unfold zlen at 1. cbn [length]. rewrite Z2Nat.id by lia. unfold m. lia.
    + unfold zlen at 1. cbn [length]. rewrite Z2Nat.id by lia. unfold m. lia.
    + unfold view in E2. cbn [data] in E2. rewrite E2. cbn [bindr]. eexists; split; [reflexivity|].
      destruct (mul_loop_tail (b_buf b) (zlen xs) ltac:(lia) (Z.to_nat n) 0 u d ltac:(lia) E2) as [L N].
      destruct HRd as (R1 & R2 & R3 & R4). cbn [len cap data app] in *.
      unfold BRep. cbn [b_buf b_n b_cap].
      split; [assumption|]. split; [unfold zlen in *; lia|]. split; [lia|]. split; [assumption|].
      split; [apply bytes_repeat; assumption|].
      intros _. rewrite N.
      * unfold u. rewrite ne_app, repeat_length. unfold zlen in R1. destruct (_ <? _)%nat eqn:E3; [lia|].
        replace (length (concat (repeat xs (Z.to_nat n))) - Z.to_nat m)%nat with 0%nat by lia. reflexivity.
      * unfold zlen in R1 at 1. rewrite <- R1. unfold m. rewrite Z2Nat.id by lia. lia.
Qed.

Definition next_t (t : bool) (op : bop) : bool :=
  match op with BDelItem _ => false | BAppend _ => true | _ => t end.

Lemma step_brep b xs t op :
  BRep b xs t -> small xs -> bop_ok xs op -> small (snd (b_spec xs op)) ->
  fst (ba_step b op) = fst (b_spec xs op) /\
  BRep (snd (ba_step b op)) (snd (b_spec xs op)) (next_t t op).
Proof.
  intros HR Hs Hok Hs'. destruct op; cbn [ba_step b_spec bop_ok next_t] in *.
  - cbn [fst snd] in *. destruct (append_brep b xs t v HR) as (b' & -> & HR').
    { unfold small in Hs'. rewrite zlen_app in Hs'. exact Hs'. }
    cbn. auto.
  - cbn [fst snd] in *. destruct (insert_brep b xs t n v HR) as (b' & -> & HR').
    { unfold small, zlen in *. rewrite app_length in Hs'. cbn [length] in Hs'.
      rewrite firstn_length, skipn_length in Hs'. lia. }
    cbn. auto.
  - pose proof (setitem_brep b xs t n v HR) as H.
    destruct (position xs n) as [p|]; [destruct (_ && _); [destruct H as (b' & -> & HR')|rewrite H]|rewrite H]; cbn; auto.
  - pose proof (delitem_brep b xs t n HR) as H.
    destruct (position xs n) as [p|]; [destruct H as (b' & -> & HR')|rewrite H]; cbn; auto.
    split; [reflexivity|]. eapply BRep_weak; eassumption.
  - pose proof (delslice_brep b xs t s HR Hok) as H.
    destruct (select (length xs) s) as [ps|]; [destruct H as (b' & -> & HR')|rewrite H]; cbn; auto.
  - destruct (reverse_brep b xs t HR) as (b' & -> & HR'). cbn. auto.
  - rewrite (getitem_brep b xs t n HR).
    destruct (position xs n) as [p|]; [destruct (nth_error xs p)|]; cbn; auto.
  - pose proof (getslice_brep b xs t s HR Hs Hok) as H. cbn [fst snd]. unfold ba_obs.
    destruct (py_slice xs s) as [ys|e| |]; try contradiction.
    + destruct H as (r & -> & HRr). cbn [bindr]. rewrite (contents_brep r ys true HRr). cbn. auto.
    + rewrite H. cbn. auto.
  - pose proof HR as (H1 & _). cbn [fst snd]. rewrite H1. auto.
  - pose proof HR as (H1 & _). cbn [fst snd]. rewrite H1. split; [|assumption].
    destruct xs; cbn [zlen length]; [reflexivity|]. unfold zlen. cbn [length].
    replace (0 <? Z.of_nat (S (length xs))) with true by lia. reflexivity.
  - rewrite (contains_brep b xs t v HR Hok). cbn. auto.
  - rewrite (contents_brep b xs t HR). cbn. auto.
  - unfold ba_reversed. destruct (copy_brep b xs t HR) as (c & -> & HRc). cbn [bindr].
    destruct (reverse_brep c xs true HRc) as (r & -> & HRr). cbn [bindr].
    rewrite (contents_brep r _ true HRr). cbn. auto.
  - destruct (copy_brep b xs t HR) as (c & E & HRc). unfold ba_obs. rewrite E. cbn [bindr].
    rewrite (contents_brep c _ true HRc). cbn. auto.
  - destruct Hok as [Hys Hb]. destruct (add_brep b xs t (ba_init ys) ys true HR (init_rep ys Hys) Hb) as (r & E & HRr).
    unfold ba_obs. rewrite E. cbn [bindr]. rewrite (contents_brep r _ true HRr). cbn. auto.
  - destruct Hok as [Hn Hb]. destruct (mul_brep b xs t n HR Hn Hb) as (r & E & HRr).
    unfold ba_obs. rewrite E. cbn [bindr]. rewrite (contents_brep r _ true HRr). cbn. auto.
Qed.

Lemma settled_next t op ops : settled t (op :: ops) = settled (next_t t op) ops.
Proof. destruct op; reflexivity. Qed.

Lemma run_brep ops : forall b xs t,
  BRep b xs t -> small xs -> bhistory_ok xs ops ->
  fst (ba_run b ops) = fst (b_run xs ops) /\
  BRep (snd (ba_run b ops)) (snd (b_run xs ops)) (settled t ops).
Proof.
  induction ops as [|op ops IH]; intros b xs t HR Hs Hok.
  - cbn. auto.
  - rewrite settled_next. cbn [ba_run b_run]. destruct Hok as (Hop & Hsm & Hrest).
    destruct (step_brep b xs t op HR Hs Hop Hsm) as [E1 E2].
    destruct (ba_step b op) as [o b1]. destruct (b_spec xs op) as [o' xs1].
    cbn [fst snd] in *. specialize (IH b1 xs1 _ E2 Hsm Hrest).
    destruct (ba_run b1 ops). destruct (b_run xs1 ops). cbn [fst snd] in *.
    destruct IH as [-> ?]. subst. auto.
Qed.

Lemma b_run_no_ub ops : forall xs, Forall (fun o => o <> UB /\ o <> NoFuel) (fst (b_run xs ops)).
Proof.
  induction ops as [|op ops IH]; intros xs; cbn [b_run]; [constructor|].
  destruct (b_spec xs op) as [o x1] eqn:E. specialize (IH x1). destruct (b_run x1 ops). cbn [fst] in *.
  constructor; [|assumption].
  destruct op; cbn [b_spec] in E; try (injection E as <- <-; split; discriminate).
  - destruct (position xs n); [destruct (_ && _)|]; injection E as <- <-; split; discriminate.
  - destruct (position xs n); injection E as <- <-; split; discriminate.
  - destruct (select (length xs) s); injection E as <- <-; split; discriminate.
  - rewrite position_spec in E. cbv zeta in E. set (i := if n <? 0 then zlen xs + n else n) in *.
    destruct ((i <? 0) || (zlen xs <=? i)) eqn:E1.
    + injection E as <- <-; split; discriminate.
    + destruct (ne_some xs (Z.to_nat i)) as [x Hx]; [unfold zlen in *; lia|]. rewrite Hx in E.
      injection E as <- <-; split; discriminate.
  - unfold py_slice in E. destruct (select (length xs) s); injection E as <- <-; split; discriminate.
Qed.

(** ** strcmp *)

Lemma strcmp_spec : forall xs ys a b,
  (forall i, (i <= length xs)%nat -> nth_error a i = Some (if (i <? length xs)%nat then nth_error xs i else Some 0)) ->
  (forall i, (i <= length ys)%nat -> nth_error b i = Some (if (i <? length ys)%nat then nth_error ys i else Some 0)) ->
  Forall (fun x => 0 < x) xs -> Forall (fun x => 0 < x) ys ->
  (strcmp a b = Ok 0 /\ xs = ys) \/ (strcmp a b = Ok (-1) /\ before xs ys) \/ (strcmp a b = Ok 1 /\ before ys xs).
Proof.
  induction xs as [|x xs IH]; intros ys a b Ha Hb Px Py.
  - assert (A0 := Ha 0%nat ltac:(cbn; lia)). cbn in A0. destruct a as [|a0 a]; [discriminate|]. injection A0 as ->.
    assert (B0 := Hb 0%nat ltac:(cbn; lia)). destruct b as [|b0 b]; [discriminate|]. cbn [nth_error] in B0.
    destruct ys as [|y ys]; cbn [length Nat.ltb] in B0.
    + injection B0 as ->. left. split; reflexivity.
    + change (0 <? S (length ys))%nat with true in B0. cbn in B0. injection B0 as ->. right. left. inversion Py; subst.
      cbn [strcmp]. destruct (0 =? y) eqn:E; [lia|]. destruct (0 <? y) eqn:E2; [|lia]. split; [reflexivity|].
      exists []. left. exists y, ys. split; reflexivity.
  - assert (A0 := Ha 0%nat ltac:(cbn; lia)). destruct a as [|a0 a]; [discriminate|]. cbn in A0. injection A0 as ->.
    inversion Px as [|? ? Hx Px']; subst.
    assert (B0 := Hb 0%nat ltac:(cbn; lia)). destruct b as [|b0 b]; [discriminate|]. cbn [nth_error] in B0.
    destruct ys as [|y ys].
    + cbn in B0. injection B0 as ->. right. right. cbn [strcmp]. destruct (x =? 0) eqn:E; [lia|].
      destruct (x <? 0) eqn:E2; [lia|]. split; [reflexivity|]. exists []. left. exists x, xs. split; reflexivity.
    + change (0 <? length (y :: ys))%nat with true in B0. cbn in B0. injection B0 as ->. inversion Py as [|? ? Hy Py']; subst.
      cbn [strcmp]. destruct (x =? y) eqn:E.
      * assert (x = y) by lia. subst y. destruct (x =? 0) eqn:E0; [lia|].
        destruct (IH ys a b) as [[-> ->]|[[-> (p & Hp)]|[-> (p & Hp)]]]; try assumption.
        -- intros i Hi. specialize (Ha (S i) ltac:(cbn; lia)). cbn [nth_error length] in Ha. rewrite Ha. reflexivity.
        -- intros i Hi. specialize (Hb (S i) ltac:(cbn; lia)). cbn [nth_error length] in Hb. rewrite Hb. reflexivity.
        -- left. split; reflexivity.
        -- right. left. split; [reflexivity|]. exists (x :: p).
           destruct Hp as [(y & b' & -> & ->)|(u & a' & y & b' & -> & -> & Hlt)].
           ++ left. exists y, b'. split; reflexivity.
           ++ right. exists u, a', y, b'. split; [reflexivity|]. split; [reflexivity|assumption].
        -- right. right. split; [reflexivity|]. exists (x :: p).
           destruct Hp as [(y & b' & -> & ->)|(u & a' & y & b' & -> & -> & Hlt)].
           ++ left. exists y, b'. split; reflexivity.
           ++ right. exists u, a', y, b'. split; [reflexivity|]. split; [reflexivity|assumption].
      * right. destruct (x <? y) eqn:E2.
        -- left. split; [reflexivity|]. exists []. right. exists x, xs, y, ys. split; [reflexivity|]. split; [reflexivity|lia].
        -- right. split; [reflexivity|]. exists []. right. exists y, ys, x, xs. split; [reflexivity|]. split; [reflexivity|lia].
Qed.

Lemma before_irrefl a : ~ before a a.
Proof.
  intros (p & [(y & b & E1 & E2)|(x & a' & y & b' & E1 & E2 & H)]).
  - subst p. apply (f_equal (@length Z)) in E2. rewrite app_length in E2. cbn in E2. lia.
  - rewrite E1 in E2. apply app_inv_head in E2. injection E2 as -> _. lia.
Qed.

Lemma before_asym : forall a b, before a b -> before b a -> False.
Proof.
  induction a as [|x a IH]; intros b (p & H) (q & G).
  - destruct G as [(y & b' & -> & E)|(u & a' & y & b' & -> & E & _)]; symmetry in E; apply app_eq_nil in E as [_ E]; discriminate.
  - destruct b as [|y b].
    { destruct H as [(z & b' & _ & E)|(u & a' & z & b' & _ & E & _)]; symmetry in E; apply app_eq_nil in E as [_ E]; discriminate. }
    assert (Hxy : x <= y /\ (x = y -> before a b)).
    { destruct p as [|p0 p].
      - destruct H as [(z & b' & E & _)|(u & a' & z & b' & E1 & E2 & Hlt)]; [discriminate|].
        injection E1 as -> ->. injection E2 as -> ->. split; lia.
      - destruct H as [(z & b' & E1 & E2)|(u & a' & z & b' & E1 & E2 & Hlt)].
        + injection E1 as -> ->. injection E2 as -> ->. split; [lia|]. intros _. exists p. left. exists z, b'. auto.
        + injection E1 as -> ->. injection E2 as -> ->. split; [lia|]. intros _. exists p. right. exists u, a', z, b'. auto. }
    assert (Hyx : y <= x /\ (x = y -> before b a)).
    { destruct q as [|p0 q].
      - destruct G as [(z & b' & E & _)|(u & a' & z & b' & E1 & E2 & Hlt)]; [discriminate|].
        injection E1 as -> ->. injection E2 as -> ->. split; lia.
      - destruct G as [(z & b' & E1 & E2)|(u & a' & z & b' & E1 & E2 & Hlt)].
        + injection E1 as -> ->. injection E2 as -> ->. split; [lia|]. intros _. exists q. left. exists z, b'. auto.
        + injection E1 as -> ->. injection E2 as -> ->. split; [lia|]. intros _. exists q. right. exists u, a', z, b'. auto. }
    apply (IH b); [apply Hxy|apply Hyx]; lia.
Qed.

Lemma cmp_brep a b xs ys o :
  BRep a xs true -> BRep b ys true -> ~ In 0 xs -> ~ In 0 ys ->
  exists r, ba_cmp o a b = Ok r /\ (r = true <-> means o xs ys).
Proof.
  intros (H1 & H2 & H3 & H4 & H5 & H6) (G1 & G2 & G3 & G4 & G5 & G6) Nx Ny.
  assert (P : forall l, Forall is_byte l -> ~ In 0 l -> Forall (fun x => 0 < x) l).
  { intros l Hl Hn. rewrite Forall_forall in *. intros x Hx. specialize (Hl x Hx). unfold is_byte in Hl.
    destruct (Z.eq_dec x 0); [subst; contradiction|lia]. }
  unfold ba_cmp.
  assert (S := strcmp_spec xs ys (b_buf a) (b_buf b)).
  destruct S as [[-> E]|[[-> E]|[-> E]]].
  - intros i Hi. destruct (i <? length xs)%nat eqn:E; [apply H4; lia|]. replace i with (length xs) by lia. auto.
  - intros i Hi. destruct (i <? length ys)%nat eqn:E; [apply G4; lia|]. replace i with (length ys) by lia. auto.
  - auto.
  - auto.
  - subst ys. cbn [bindr]. eexists; split; [reflexivity|].
    pose proof (before_irrefl xs). destruct o; cbn [means]; cbn; split; intros; auto; try discriminate; try congruence; tauto.
  - cbn [bindr]. eexists; split; [reflexivity|].
    assert (xs <> ys) by (intros ->; eapply before_irrefl; eassumption).
    pose proof (before_asym xs ys E).
    destruct o; cbn [means]; cbn; split; intros; auto; try discriminate; try congruence; tauto.
  - cbn [bindr]. eexists; split; [reflexivity|].
    assert (xs <> ys) by (intros ->; eapply before_irrefl; eassumption).
    pose proof (before_asym ys xs E).
    destruct o; cbn [means]; cbn; split; intros; auto; try discriminate; try congruence; tauto.
Qed.

(** Lemmas for the bytearray theorems. *)
From Verif Require Import Base P_Base M_Slice S_Slice P_Slice M_List S_List M_ListApi P_List S_Bytearray M_Bytearray.

Definition BRep (b : ba) (xs : list Z) (t : bool) : Prop :=
  b_n b = zlen xs /\ zlen (b_buf b) = b_cap b + 1 /\ zlen xs <= b_cap b /\
  (forall i, (i < length xs)%nat -> nth_error (b_buf b) i = Some (nth_error xs i)) /\
  Forall is_byte xs /\
  (t = true -> nth_error (b_buf b) (length xs) = Some (Some 0)).

Definition view (b : ba) : clist Z := mkList (b_buf b) (b_n b) (zlen (b_buf b)).

Lemma view_rep b xs t : BRep b xs t -> Rep (view b) xs.
Proof.
  intros (H1 & H2 & H3 & H4 & _). apply Rep_intro; unfold view; cbn [len cap data]; auto.
  unfold zlen in *. lia.
Qed.

Lemma BRep_weak b xs t : BRep b xs t -> BRep b xs false.
Proof. intros (H1 & H2 & H3 & H4 & H5 & H6). repeat split; auto. discriminate. Qed.

Lemma Forall_firstn' {B} (P : B -> Prop) n l : Forall P l -> Forall P (firstn n l).
Proof. intros H. rewrite <- (firstn_skipn n l) in H. apply Forall_app in H. tauto. Qed.
Lemma Forall_skipn' {B} (P : B -> Prop) n l : Forall P l -> Forall P (skipn n l).
Proof. intros H. rewrite <- (firstn_skipn n l) in H. apply Forall_app in H. tauto. Qed.

Lemma land255 v : Z.land v 255 = v mod 256.
Proof. change 255 with (Z.ones 8). rewrite Z.land_ones by lia. reflexivity. Qed.

Lemma byte_mod v : is_byte (v mod 256).
Proof. unfold is_byte. pose proof (Z.mod_pos_bound v 256). lia. Qed.

Lemma init_rep xs : Forall is_byte xs -> BRep (ba_init xs) xs true.
Proof.
  intros H. unfold ba_init, BRep. cbn [b_buf b_n b_cap]. unfold zlen.
  rewrite app_length, map_length. cbn [length]. repeat split; auto; try lia.
  - intros i Hi. rewrite ne_app, map_length, ne_map.
    destruct (i <? length xs)%nat eqn:E; [|lia].
    destruct (ne_some xs i Hi) as [x ->]. reflexivity.
  - intros _. rewrite ne_app, map_length.
    destruct (length xs <? length xs)%nat eqn:E; [lia|].
    replace (length xs - length xs)%nat with 0%nat by lia. reflexivity.
Qed.

Lemma unfilled_spec n : 0 <= n ->
  ba_unfilled n = Ok (mkBa (repeat None (Z.to_nat n) ++ [Some 0]) n n).
Proof. intros H. unfold ba_unfilled. destruct (n <? 0) eqn:E; [lia|reflexivity]. Qed.

Lemma expand_brep b xs t n :
  BRep b xs t -> 0 <= n -> zlen xs + n <= 2 ^ 30 ->
  exists e, ba_expand b n = Ok e /\ BRep e xs t /\ zlen xs + n <= b_cap e.
Proof.
  intros HR Hn Hb. pose proof HR as (H1 & H2 & H3 & H4 & H5 & H6). unfold ba_expand.
  destruct (b_n b + n <=? b_cap b) eqn:E.
  - exists b. split; [reflexivity|]. split; [assumption|lia].
  - set (c0 := if b_cap b =? 0 then 1 else b_cap b).
    pose proof (zlen_nonneg xs).
    assert (Hc0 : 1 <= c0 /\ b_cap b <= c0) by (unfold c0; destruct (b_cap b =? 0) eqn:?; lia).
    destruct (double_until_spec 32 c0 (b_n b + n)) as (c & -> & Hc & Hcc); [lia|lia| |].
    { change (2 ^ Z.of_nat 32) with (4 * 2 ^ 30). lia. }
    eexists; split; [reflexivity|].
    assert (Hlen : (length (b_buf b) <= Z.to_nat (c + 1))%nat) by (unfold zlen in *; lia).
    assert (N : forall i, (i < length (b_buf b))%nat ->
      nth_error (firstn (Z.to_nat (c + 1)) (b_buf b) ++ repeat None (Z.to_nat (c + 1) - length (b_buf b))) i
      = nth_error (b_buf b) i).
    { intros i Hi. rewrite firstn_all2 by lia. rewrite ne_app.
      destruct (i <? length (b_buf b))%nat eqn:?; [reflexivity|lia]. }
    unfold BRep. cbn [b_buf b_n b_cap].
    split; [|lia].
    split; [lia|]. split.
    { unfold zlen. rewrite app_length, firstn_length, repeat_length. unfold zlen in *; lia. }
    split; [unfold zlen in *; lia|].
    split. { intros i Hi. rewrite N; [auto|]. unfold zlen in *; lia. }
    split; [assumption|]. intros T. rewrite N; [auto|]. unfold zlen in *; lia.
Qed.

Lemma append_brep b xs t v :
  BRep b xs t -> zlen xs + 1 <= 2 ^ 30 ->
  exists b', ba_append b v = Ok b' /\ BRep b' (xs ++ [v mod 256]) true.
Proof.
  intros HR Hb. unfold ba_append.
  destruct (expand_brep b xs t 1 HR) as (e & -> & (H1 & H2 & H3 & H4 & H5 & H6) & Hc); [lia|lia|].
  cbn [bindr]. pose proof (zlen_nonneg xs).
  destruct (zset_spec (b_buf e) (b_n e) (Some (Z.land v 255))) as (d1 & -> & L1 & N1); [lia|]. cbn [orUB bindr].
  destruct (zset_spec d1 (b_n e + 1) (Some 0)) as (d2 & -> & L2 & N2); [unfold zlen in *; lia|]. cbn [orUB bindr].
  eexists; split; [reflexivity|]. unfold BRep. cbn [b_buf b_n b_cap].
  rewrite zlen_app. change (zlen [v mod 256]) with 1.
  split; [lia|]. split; [unfold zlen in *; lia|]. split; [lia|]. rewrite app_length. cbn [length].
  split.
  { intros i Hi. rewrite N2, N1, ne_app. unfold zlen in *.
    destruct (i =? Z.to_nat (b_n e + 1))%nat eqn:E1; [lia|].
    destruct (i =? Z.to_nat (b_n e))%nat eqn:E2.
    - destruct (i <? length xs)%nat eqn:E3; [lia|]. replace (i - length xs)%nat with 0%nat by lia.
      rewrite land255. reflexivity.
    - destruct (i <? length xs)%nat eqn:E3; [|lia]. apply H4. lia. }
  split.
  { apply Forall_app. split; [assumption|]. constructor; [apply byte_mod|constructor]. }
  intros _. rewrite N2. unfold zlen in *.
  destruct (length xs + 1 =? Z.to_nat (b_n e + 1))%nat eqn:E1; [reflexivity|lia].
Qed.

Lemma insert_brep b xs t n v :
  BRep b xs t -> zlen xs + 1 <= 2 ^ 30 ->
  let k := Z.to_nat (clampZ 0 (zlen xs) (from_end (zlen xs) n)) in
  exists b', ba_insert b n v = Ok b' /\ BRep b' (firstn k xs ++ (v mod 256) :: skipn k xs) t.
Proof.
  intros HR Hb k. pose proof HR as (G1 & _). unfold ba_insert.
  destruct (expand_brep b xs t 1 HR) as (e & -> & (H1 & H2 & H3 & H4 & H5 & H6) & Hc); [lia|lia|].
  cbn [bindr]. rewrite G1.
  set (ix0 := if n <? 0 then (if zlen xs + n <? 0 then 0 else zlen xs + n) else (if n <? zlen xs then n else zlen xs)).
  pose proof (zlen_nonneg xs).
  assert (Hix : 0 <= ix0 <= zlen xs).
  { unfold ix0. destruct (n <? 0) eqn:?; [destruct (zlen xs + n <? 0) eqn:?|destruct (n <? zlen xs) eqn:?]; lia. }
  assert (Hk : k = Z.to_nat ix0).
  { unfold k, ix0, clampZ, from_end. f_equal.
    destruct (n <? 0) eqn:?; [destruct (zlen xs + n <? 0) eqn:?|destruct (n <? zlen xs) eqn:?]; lia. }
  unfold memmove.
  destruct (blit_spec (b_buf e) (b_buf e) (ix0 + 1) ix0 (zlen xs - ix0 + 1)) as (d1 & -> & L1 & N1); try lia.
  cbn [orUB bindr].
  destruct (zset_spec d1 ix0 (Some (Z.land v 255))) as (d2 & -> & L2 & N2); [unfold zlen in *; lia|]. cbn [orUB bindr].
  eexists; split; [reflexivity|]. unfold BRep. cbn [b_buf b_n b_cap].
  assert (Hl : length (firstn k xs ++ v mod 256 :: skipn k xs) = S (length xs)).
  { rewrite app_length. cbn [length]. rewrite firstn_length, skipn_length. unfold zlen in *; lia. }
  assert (Hz : zlen (firstn k xs ++ v mod 256 :: skipn k xs) = zlen xs + 1) by (unfold zlen; lia).
  rewrite Hz. split; [lia|]. split; [unfold zlen in *; lia|]. split; [lia|].
  rewrite Hl.
  split.
  { intros i Hi. rewrite N2, N1, ne_app, firstn_length, ne_firstn, ne_cons, ne_skipn. unfold zlen in *.
    replace (Nat.min k (length xs)) with k by lia.
    destruct (i =? Z.to_nat ix0)%nat eqn:E1.
    - destruct (i <? k)%nat eqn:E2; [lia|]. destruct (i - k =? 0)%nat eqn:E3; [|lia]. rewrite land255. reflexivity.
    - destruct (i <? k)%nat eqn:E2.
      + destruct ((Z.to_nat (ix0 + 1) <=? i)%nat && _) eqn:E3; [lia|]. apply H4. lia.
      + destruct (i - k =? 0)%nat eqn:E3; [lia|].
        destruct ((Z.to_nat (ix0 + 1) <=? i)%nat && _) eqn:E4; [|lia].
        replace (Z.to_nat ix0 + (i - Z.to_nat (ix0 + 1)))%nat with (k + (i - k - 1))%nat by lia.
        apply H4. lia. }
  split.
  { apply Forall_app. split; [apply Forall_firstn'; assumption|]. constructor; [apply byte_mod|apply Forall_skipn'; assumption]. }
  intros T. rewrite N2, N1. unfold zlen in *.
  destruct (S (length xs) =? Z.to_nat ix0)%nat eqn:E1; [lia|].
  destruct ((Z.to_nat (ix0 + 1) <=? S (length xs))%nat && _) eqn:E4; [|lia].
  replace (Z.to_nat ix0 + (S (length xs) - Z.to_nat (ix0 + 1)))%nat with (length xs) by lia. auto.
Qed.

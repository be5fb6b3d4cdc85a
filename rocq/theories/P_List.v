(** list.c refines mathematical sequences. *)
From Verif Require Import Base M_Slice S_Slice M_List S_List M_ListApi P_Base P_Slice.
From Coq Require Import Sorted.
Ltac Zify.zify_post_hook ::= idtac.

Section P.
Context {A : Type}.
Implicit Types (l : clist A) (xs ys : list A).

(** Representation relation. *)
Definition Rep l xs : Prop :=
  len l = zlen xs /\ cap l = zlen (data l) /\ (length xs <= length (data l))%nat /\
  forall i, (i < length xs)%nat -> nth_error (data l) i = Some (nth_error xs i).

Lemma cell_rep d xs i :
  (forall i, (i < length xs)%nat -> nth_error d i = Some (nth_error xs i)) ->
  (i < length xs)%nat -> exists x : A, nth_error xs i = Some x /\ cell d (Z.of_nat i) = Ok x.
Proof.
  intros H Hi. destruct (ne_some xs i Hi) as [x Hx]. exists x. split; [assumption|].
  unfold cell. rewrite zget_of_nat, (H i Hi), Hx. reflexivity.
Qed.

Lemma cellz_rep l xs i :
  Rep l xs -> 0 <= i < zlen xs ->
  exists x : A, nth_error xs (Z.to_nat i) = Some x /\ cell (data l) i = Ok x.
Proof.
  intros (H1 & H2 & H3 & H4) Hi. unfold zlen in *.
  destruct (cell_rep (data l) xs (Z.to_nat i) H4) as (x & Hx & Hc); [lia|].
  exists x. rewrite Z2Nat.id in Hc by lia. auto.
Qed.

Lemma double_until_spec fuel c need :
  1 <= c -> need <= 2 ^ 30 -> need <= c * 2 ^ Z.of_nat fuel ->
  exists c', double_until fuel c need = Some c' /\ need <= c' /\ c <= c'.
Proof.
  revert c; induction fuel as [|f IH]; intros c Hc Hn Hf; cbn [double_until].
  - destruct (need <=? c) eqn:E; [eexists; split; [reflexivity|]; lia|].
    cbn in Hf. lia.
  - destruct (need <=? c) eqn:E; [eexists; split; [reflexivity|]; lia|].
    rewrite wrapS_id; [|lia|unfold inS; change (2 ^ (32 - 1)) with (2 * 2 ^ 30); lia].
    destruct (IH (2 * c)) as (c' & E' & ? & ?); try lia.
    { replace (Z.of_nat (S f)) with (1 + Z.of_nat f) in Hf by lia.
      rewrite Z.pow_add_r in Hf by lia. lia. }
    exists c'. split; [assumption|]. lia.
Qed.

Lemma expand_rep l xs n :
  Rep l xs -> 0 <= n -> zlen xs + n <= 2 ^ 30 ->
  exists l', expand l n = Ok l' /\ Rep l' xs /\ zlen xs + n <= zlen (data l').
Proof.
  intros (H1 & H2 & H3 & H4) Hn Hb. unfold expand.
  destruct (len l + n <=? cap l) eqn:E.
  - exists l. split; [reflexivity|]. split; [repeat split; assumption|]. lia.
  - set (c0 := if cap l =? 0 then 1 else cap l).
    assert (Hc0 : 1 <= c0 /\ cap l <= c0).
    { unfold c0. pose proof (zlen_nonneg (data l)). destruct (cap l =? 0) eqn:?; lia. }
    destruct (double_until_spec 32 c0 (len l + n)) as (c & -> & Hc & Hc1).
    + lia.
    + lia.
    + change (2 ^ Z.of_nat 32) with (4 * 2 ^ 30). lia.
    + eexists; split; [reflexivity|].
      assert (L : length (firstn (Z.to_nat c) (data l) ++ repeat None (Z.to_nat c - length (data l)))
              = Z.to_nat c).
      { rewrite app_length, firstn_length, repeat_length. unfold zlen in *; lia. }
      split.
      * repeat split; cbn [len cap data].
        -- assumption.
        -- unfold zlen. rewrite L. lia.
        -- rewrite L. unfold zlen in *. lia.
        -- intros i Hi. rewrite ne_app, firstn_length, ne_firstn.
           destruct (i <? _)%nat eqn:E1; [|unfold zlen in *; lia].
           destruct (i <? Z.to_nat c)%nat eqn:E2; [|lia].
           apply H4; assumption.
      * cbn [data]. unfold zlen in *. rewrite L. lia.
Qed.

Lemma shrink_rep l xs : Rep l xs -> exists l', shrink l = Ok l' /\ Rep l' xs.
Proof.
  intros (H1 & H2 & H3 & H4). unfold shrink.
  destruct ((20 <? cap l) && (2 * len l <? cap l)) eqn:E.
  - pose proof (zlen_nonneg xs).
    destruct (blit_spec (repeat None (Z.to_nat (len l))) (data l) 0 0 (len l)) as (d & -> & Ld & Hd);
      try (unfold zlen in *; rewrite ?repeat_length; lia).
    cbn. eexists; split; [reflexivity|]. rewrite repeat_length in Ld.
    repeat split; cbn [len cap data].
    + assumption.
    + unfold zlen in *. lia.
    + unfold zlen in *. lia.
    + intros i Hi. rewrite Hd.
      destruct ((Z.to_nat 0 <=? i)%nat && (i <? Z.to_nat (0 + len l))%nat) eqn:E2.
      * replace (Z.to_nat 0 + (i - Z.to_nat 0))%nat with i by lia. auto.
      * unfold zlen in *. lia.
  - exists l. split; [reflexivity|]. repeat split; assumption.
Qed.

Lemma list_new_rep n : 0 <= n ->
  exists l, list_new n = Ok l /\ Rep l [] /\ zlen (data l) = n /\ (forall i, (i < Z.to_nat n)%nat -> nth_error (data l) i = Some None).
Proof.
  intros H. unfold list_new. destruct (n <? 0) eqn:E; [lia|].
  eexists; split; [reflexivity|]. unfold Rep, zlen. cbn [len cap data length].
  rewrite repeat_length. repeat split; try lia.
  intros i Hi. rewrite ne_repeat. destruct (i <? Z.to_nat n)%nat eqn:?; [reflexivity|lia].
Qed.

Lemma append_rep l xs x :
  Rep l xs -> zlen xs + 1 <= 2 ^ 30 ->
  exists l', list_append l x = Ok l' /\ Rep l' (xs ++ [x]).
Proof.
  intros HR Hb. unfold list_append.
  destruct (expand_rep l xs 1 HR) as (e & -> & (H1 & H2 & H3 & H4) & Hc); [lia|lia|].
  cbn [bindr]. 
  destruct (zset_spec (data e) (len e) (Some x)) as (d & -> & Ld & Hd).
  { pose proof (zlen_nonneg xs). lia. }
  cbn. eexists; split; [reflexivity|].
  unfold Rep, zlen in *. cbn [len cap data]. rewrite app_length. cbn [length].
  repeat split; try lia.
  intros i Hi. rewrite Hd, ne_app.
  destruct (i =? Z.to_nat (len e))%nat eqn:E; destruct (i <? length xs)%nat eqn:E2; try lia.
  - replace (i - length xs)%nat with 0%nat by lia. reflexivity.
  - apply H4. lia.
Qed.

Lemma append_all_rep ys l xs :
  Rep l xs -> zlen xs + zlen ys <= 2 ^ 30 ->
  exists l', append_all l ys = Ok l' /\ Rep l' (xs ++ ys).
Proof.
  revert l xs; induction ys as [|y ys IH]; intros l xs HR Hb; cbn [append_all].
  - exists l. rewrite app_nil_r. auto.
  - unfold zlen in *. cbn [length] in Hb.
    destruct (append_rep l xs y HR) as (l' & -> & HR'); [unfold zlen; lia|].
    cbn [bindr]. destruct (IH l' (xs ++ [y]) HR') as (l2 & E & HR2).
    { rewrite app_length. cbn [length]. lia. }
    exists l2. rewrite <- app_assoc in HR2. auto.
Qed.

Lemma empty_rep : Rep (mkList [] 0 0) [].
Proof. unfold Rep, zlen; cbn. repeat split; lia. Qed.

Lemma list_of_rep ys : small ys -> exists l, list_of ys = Ok l /\ Rep l ys.
Proof. intros H. apply (append_all_rep ys _ []). apply empty_rep. exact H. Qed.

Lemma iterate_rep l xs : Rep l xs ->
  forall fuel nxt, (nxt <= length xs)%nat -> (length xs - nxt < fuel)%nat ->
  iterate fuel l (Z.of_nat nxt) = Ok (skipn nxt xs).
Proof.
  intros HR. induction fuel as [|f IH]; intros nxt Hn Hf; [lia|].
  cbn [iterate]. unfold listiter_next.
  pose proof HR as (H1 & _). rewrite H1.
  destruct (zlen xs <=? Z.of_nat nxt) eqn:E; unfold zlen in E.
  - rewrite skipn_all2 by lia. reflexivity.
  - destruct (cellz_rep l xs (Z.of_nat nxt) HR) as (x & Hx & ->); [unfold zlen; lia|].
    cbn [bindr]. replace (Z.of_nat nxt + 1) with (Z.of_nat (S nxt)) by lia.
    rewrite IH by lia. cbn [bindr]. rewrite Nat2Z.id in Hx.
    f_equal. apply list_ext. intros i. rewrite ne_cons, !ne_skipn.
    destruct (i =? 0)%nat eqn:E0.
    + replace (nxt + i)%nat with nxt by lia. auto.
    + f_equal; lia.
Qed.

Lemma contents_rep l xs : Rep l xs -> contents l = Ok xs.
Proof.
  intros HR. unfold contents. pose proof HR as (H1 & _). rewrite H1.
  change 0 with (Z.of_nat 0). rewrite (iterate_rep l xs HR); [reflexivity|lia|unfold zlen; lia].
Qed.

Lemma Rep_intro l xs :
  len l = zlen xs -> cap l = zlen (data l) -> (length xs <= length (data l))%nat ->
  (forall i, (i < length xs)%nat -> nth_error (data l) i = Some (nth_error xs i)) -> Rep l xs.
Proof. unfold Rep; auto. Qed.

(** pop and delitem share this step. *)
Lemma remove_rep l xs p :
  Rep l xs -> 0 <= p < zlen xs ->
  exists d1 d2, memmove (data l) p (p + 1) (len l - (p + 1)) = Some d1 /\
    zset d1 (len l - 1) None = Some d2 /\
    Rep (mkList d2 (len l - 1) (cap l)) (remove_at xs (Z.to_nat p)).
Proof.
  intros (H1 & H2 & H3 & H4) Hp. unfold memmove.
  destruct (blit_spec (data l) (data l) p (p + 1) (len l - (p + 1))) as (d1 & E1 & L1 & Hd1);
    try (unfold zlen in *; lia).
  destruct (zset_spec d1 (len l - 1) (@None A)) as (d2 & E2 & L2 & Hd2);
    try (unfold zlen in *; lia).
  exists d1, d2. split; [assumption|]. split; [assumption|].
  unfold remove_at. apply Rep_intro; cbn [len cap data].
  - unfold zlen in *. rewrite app_length, firstn_length, skipn_length. lia.
  - unfold zlen in *. lia.
  - rewrite app_length, firstn_length, skipn_length. unfold zlen in *. lia.
  - intros i Hi. rewrite app_length, firstn_length, skipn_length in Hi. unfold zlen in *.
    rewrite Hd2, Hd1. rewrite ne_app, firstn_length, ne_firstn, ne_skipn.
    destruct (i =? Z.to_nat (len l - 1))%nat eqn:E3; [lia|].
    destruct ((Z.to_nat p <=? i)%nat && (i <? Z.to_nat (p + (len l - (p + 1))))%nat) eqn:E4.
    + destruct (i <? Nat.min _ _)%nat eqn:E5; [lia|].
      rewrite H4 by lia. do 2 f_equal. lia.
    + destruct (i <? Nat.min _ _)%nat eqn:E5; [|lia].
      destruct (i <? Z.to_nat p)%nat eqn:E6; [|lia].
      apply H4. lia.
Qed.

Lemma pop_rep l xs i :
  Rep l xs ->
  match list_spec (fun _ _ => false) xs (Pop i) with
  | (Ok (VElem x), xs') => exists l', list_pop l i = Ok (x, l') /\ Rep l' xs'
  | (Exn e, xs') => list_pop l i = Exn e /\ xs' = xs
  | _ => False
  end.
Proof.
  intros HR. pose proof HR as (H1 & H2 & H3 & H4).
  unfold list_pop. cbn [list_spec]. unfold position.
  set (n := match i with None => -1 | Some i0 => i0 end).
  set (ix := match i with None => len l - 1 | Some i0 => i0 end).
  assert (Hix : (if ix <? 0 then len l + ix else ix) = from_end (zlen xs) n
                \/ (zlen xs = 0 /\ i = None)).
  { unfold from_end, ix, n. pose proof (zlen_nonneg xs).
    destruct i as [z|].
    - left. rewrite H1. destruct (z <? 0) eqn:?; lia.
    - destruct (Z.eq_dec (zlen xs) 0); [right; auto|left].
      change (-1 <? 0) with true; cbv iota. destruct (len l - 1 <? 0) eqn:?; lia. }
  set (ix0 := if ix <? 0 then len l + ix else ix) in *.
  destruct Hix as [Hix|[Hz Hi]].
  - rewrite Hix, H1. set (p := from_end (zlen xs) n).
    destruct ((0 <=? p) && (p <? zlen xs)) eqn:E.
    + destruct (cellz_rep l xs p HR) as (x & Hx & Hc); [lia|]. rewrite Hx.
      destruct ((p <? 0) || (zlen xs <=? p)) eqn:E2; [lia|].
      rewrite Hc. cbn [bindr].
      destruct (remove_rep l xs p HR) as (d1 & d2 & E3 & E4 & HR'); [lia|].
      rewrite H1 in E3, E4. rewrite E3. cbn [bindr orUB]. rewrite E4. cbn [bindr orUB].
      destruct (shrink_rep _ _ HR') as (l' & E5 & HR2). rewrite H1 in E5. rewrite E5. cbn [bindr].
      exists l'. auto.
    + destruct ((p <? 0) || (zlen xs <=? p)) eqn:E2; [|lia]. auto.
  - subst i. unfold n. destruct xs; [|unfold zlen in Hz; cbn in Hz; lia].
    cbn. unfold ix0, ix. rewrite H1. cbn. auto.
Qed.

Lemma insert_rep l xs n x :
  Rep l xs -> zlen xs + 1 <= 2 ^ 30 ->
  let k := Z.to_nat (clampZ 0 (zlen xs) (from_end (zlen xs) n)) in
  exists l', list_insert l n x = Ok l' /\ Rep l' (firstn k xs ++ x :: skipn k xs).
Proof.
  intros HR Hb k. pose proof HR as (G1 & _). unfold list_insert.
  destruct (expand_rep l xs 1 HR) as (e & -> & (H1 & H2 & H3 & H4) & Hc); [lia|lia|].
  cbn [bindr].
  set (ix0 := if n <? 0 then (if len l + n <? 0 then 0 else len l + n) else (if n <? len l then n else len l)).
  assert (Hix : ix0 = clampZ 0 (zlen xs) (from_end (zlen xs) n)).
  { unfold ix0, clampZ, from_end. rewrite G1. pose proof (zlen_nonneg xs).
    destruct (n <? 0) eqn:?; [destruct (zlen xs + n <? 0) eqn:?; lia|destruct (n <? zlen xs) eqn:?; lia]. }
  assert (Hr : 0 <= ix0 <= zlen xs).
  { rewrite Hix. unfold clampZ. pose proof (zlen_nonneg xs). lia. }
  unfold memmove.
  destruct (blit_spec (data e) (data e) (ix0 + 1) ix0 (len l - ix0)) as (d1 & E1 & L1 & Hd1);
    try (unfold zlen in *; lia).
  rewrite E1. cbn [bindr orUB].
  destruct (zset_spec d1 ix0 (Some x)) as (d2 & E2 & L2 & Hd2); try (unfold zlen in *; lia).
  rewrite E2. cbn [bindr orUB].
  eexists; split; [reflexivity|].
  assert (Hk : k = Z.to_nat ix0) by (unfold k; rewrite <- Hix; reflexivity).
  apply Rep_intro; cbn [len cap data].
  - unfold zlen in *. rewrite app_length. cbn [length]. rewrite firstn_length, skipn_length. lia.
  - unfold zlen in *. lia.
  - rewrite app_length. cbn [length]. rewrite firstn_length, skipn_length. unfold zlen in *. lia.
  - intros i Hi. rewrite app_length in Hi. cbn [length] in Hi. rewrite firstn_length, skipn_length in Hi.
    unfold zlen in *.
    rewrite Hd2, Hd1, ne_app, firstn_length, ne_firstn, ne_cons, ne_skipn.
    destruct (i =? Z.to_nat ix0)%nat eqn:E3.
    + destruct (i <? _)%nat eqn:E4; [lia|]. destruct (_ =? 0)%nat eqn:E5; [reflexivity|lia].
    + destruct ((Z.to_nat (ix0 + 1) <=? i)%nat && (i <? Z.to_nat (ix0 + 1 + (len l - ix0)))%nat) eqn:E4.
      * destruct (i <? Nat.min _ _)%nat eqn:E5; [lia|].
        destruct (_ =? 0)%nat eqn:E6; [lia|].
        rewrite H4 by lia. do 2 f_equal. lia.
      * destruct (i <? Nat.min _ _)%nat eqn:E5; [|lia].
        destruct (i <? k)%nat eqn:E6; [|lia]. apply H4. lia.
Qed.

Lemma norm_index_ok xs n : inS 32 n -> norm_index (zlen xs) n = from_end (zlen xs) n.
Proof. intros H. unfold norm_index, from_end. rewrite wrapS_id by (try assumption; lia).
  destruct (n <? 0); lia. Qed.

Lemma delitem_rep l xs n p :
  Rep l xs -> inS 32 n -> position xs n = Some p ->
  exists l', list_delitem l n = Ok l' /\ Rep l' (remove_at xs p).
Proof.
  intros HR Hn Hp. pose proof HR as (H1 & _). unfold list_delitem.
  rewrite H1, norm_index_ok by assumption. unfold position in Hp.
  set (ix := from_end (zlen xs) n) in *.
  destruct ((0 <=? ix) && (ix <? zlen xs)) eqn:E; [|discriminate]. injection Hp as <-.
  destruct ((ix <? 0) || (zlen xs <=? ix)) eqn:E2; [lia|].
  destruct (remove_rep l xs ix HR) as (d1 & d2 & E3 & E4 & HR'); [lia|].
  rewrite H1 in E3, E4, HR'. rewrite E3. cbn [bindr orUB]. rewrite E4. cbn [bindr orUB].
  apply shrink_rep. assumption.
Qed.

Lemma setcell_rep l xs p x d :
  Rep l xs -> 0 <= p < zlen xs -> zset (data l) p (Some x) = Some d ->
  Rep (mkList d (len l) (cap l)) (update_at xs (Z.to_nat p) x).
Proof.
  intros (H1 & H2 & H3 & H4) Hp E.
  destruct (zset_spec (data l) p (Some x)) as (d2 & E2 & L2 & Hd2); [unfold zlen in *; lia|].
  rewrite E in E2. injection E2 as <-.
  unfold update_at.
  apply Rep_intro; cbn [len cap data].
  - unfold zlen in *. rewrite app_length. cbn [length]. rewrite firstn_length, skipn_length. lia.
  - unfold zlen in *. lia.
  - rewrite app_length. cbn [length]. rewrite firstn_length, skipn_length. unfold zlen in *. lia.
  - intros i Hi. rewrite app_length in Hi. cbn [length] in Hi. rewrite firstn_length, skipn_length in Hi.
    unfold zlen in *.
    rewrite Hd2, ne_app, firstn_length, ne_firstn, ne_cons, ne_skipn.
    destruct (i =? Z.to_nat p)%nat eqn:E3.
    + destruct (i <? _)%nat eqn:E4; [lia|]. destruct (_ =? 0)%nat eqn:E5; [reflexivity|lia].
    + destruct (i <? Nat.min _ _)%nat eqn:E5.
      * destruct (i <? Z.to_nat p)%nat eqn:E6; [|lia]. apply H4. lia.
      * destruct (_ =? 0)%nat eqn:E6; [lia|]. rewrite H4 by lia. do 2 f_equal. lia.
Qed.

Lemma setitem_rep l xs n x :
  Rep l xs -> inS 32 n ->
  match position xs n with
  | Some p => exists l', list_setitem l n x = Ok l' /\ Rep l' (update_at xs p x)
  | None => list_setitem l n x = Exn IndexError
  end.
Proof.
  intros HR Hn. pose proof HR as (H1 & _ & H3 & _). unfold list_setitem, position.
  rewrite H1, norm_index_ok by assumption.
  set (ix := from_end (zlen xs) n) in *.
  destruct ((0 <=? ix) && (ix <? zlen xs)) eqn:E;
  destruct ((ix <? 0) || (zlen xs <=? ix)) eqn:E2; try lia; [|reflexivity].
  destruct (zset_spec (data l) ix (Some x)) as (d & E3 & _ & _); [unfold zlen in *; lia|].
  rewrite E3. cbn [bindr orUB]. eexists; split; [reflexivity|].
  rewrite <- H1. apply setcell_rep; try assumption. lia.
Qed.

Lemma getitem_rep l xs n :
  Rep l xs -> inS 32 n ->
  list_getitem l n = match position xs n with
                     | Some p => match nth_error xs p with Some x => Ok x | None => UB end
                     | None => Exn IndexError
                     end.
Proof.
  intros HR Hn. pose proof HR as (H1 & _). unfold list_getitem, position.
  rewrite H1, norm_index_ok by assumption.
  set (ix := from_end (zlen xs) n) in *.
  destruct ((0 <=? ix) && (ix <? zlen xs)) eqn:E;
  destruct ((ix <? 0) || (zlen xs <=? ix)) eqn:E2; try lia; [|reflexivity].
  destruct (cellz_rep l xs ix HR) as (x & -> & ->); [lia|]. reflexivity.
Qed.

Lemma blit_append_rep e xs d o ys :
  Rep e xs -> (forall i, (i < length ys)%nat -> nth_error o i = Some (nth_error ys i)) ->
  zlen xs + zlen ys <= zlen (data e) -> (length ys <= length o)%nat ->
  blit (data e) (zlen xs) o 0 (zlen ys) = Some d ->
  Rep (mkList d (zlen xs + zlen ys) (cap e)) (xs ++ ys).
Proof.
  intros (H1 & H2 & H3 & H4) Ho Hc Hlo E.
  destruct (blit_spec (data e) o (zlen xs) 0 (zlen ys)) as (d2 & E2 & L2 & Hd2);
    try (unfold zlen in *; lia).
  rewrite E in E2. injection E2 as <-.
  apply Rep_intro; cbn [len cap data].
  - rewrite zlen_app. reflexivity.
  - unfold zlen in *; lia.
  - rewrite app_length. unfold zlen in *; lia.
  - intros i Hi. rewrite app_length in Hi. rewrite Hd2, ne_app. unfold zlen in *.
    destruct ((Z.to_nat (Z.of_nat (length xs)) <=? i)%nat && _) eqn:E1.
    + destruct (i <? length xs)%nat eqn:E2; [lia|].
      rewrite Ho by lia. do 2 f_equal. lia.
    + destruct (i <? length xs)%nat eqn:E2; [|lia]. apply H4. lia.
Qed.

Lemma blit_ok {B} (dst src : list B) doff soff n :
  0 <= n -> 0 <= doff -> doff + n <= zlen dst -> 0 <= soff -> soff + n <= zlen src ->
  exists d, blit dst doff src soff n = Some d.
Proof. intros. destruct (blit_spec dst src doff soff n) as (d & ? & _); eauto. Qed.

Lemma extend_rep l xs o ys :
  Rep l xs -> Rep o ys -> zlen xs + zlen ys <= 2 ^ 30 ->
  exists l', list_extend l o = Ok l' /\ Rep l' (xs ++ ys).
Proof.
  intros HR (G1 & G2 & G3 & G4) Hb. unfold list_extend. rewrite G1.
  destruct (zlen ys =? 0) eqn:E.
  - exists l. split; [reflexivity|]. destruct ys; [rewrite app_nil_r; assumption|unfold zlen in E; cbn in E; lia].
  - pose proof (zlen_nonneg ys).
    destruct (expand_rep l xs (zlen ys) HR) as (e & -> & HRe & Hc); [lia|lia|].
    cbn [bindr]. pose proof HRe as (H1 & H2 & H3 & H4). rewrite H1.
    destruct (blit_ok (data e) (data o) (zlen xs) 0 (zlen ys)) as (d & Ed);
      try (unfold zlen in *; lia).
    rewrite Ed. cbn [bindr orUB]. eexists; split; [reflexivity|].
    eapply blit_append_rep; eauto.
Qed.

Lemma extend_self_rep l xs :
  Rep l xs -> zlen xs + zlen xs <= 2 ^ 30 ->
  exists l', list_extend_self l = Ok l' /\ Rep l' (xs ++ xs).
Proof.
  intros HR Hb. pose proof HR as (G1 & _). unfold list_extend_self. rewrite G1.
  destruct (zlen xs =? 0) eqn:E.
  - exists l. split; [reflexivity|]. destruct xs; [assumption|unfold zlen in E; cbn in E; lia].
  - pose proof (zlen_nonneg xs).
    destruct (expand_rep l xs (zlen xs) HR) as (e & -> & HRe & Hc); [lia|lia|].
    cbn [bindr]. pose proof HRe as (H1 & H2 & H3 & H4). rewrite H1.
    destruct (blit_ok (data e) (data e) (zlen xs) 0 (zlen xs)) as (d & Ed);
      try (unfold zlen in *; lia).
    rewrite Ed. cbn [bindr orUB]. eexists; split; [reflexivity|].
    eapply blit_append_rep; eauto.
Qed.

Lemma copy_rep l xs : Rep l xs -> exists l', list_copy l = Ok l' /\ Rep l' xs.
Proof.
  intros HR. pose proof HR as (H1 & H2 & H3 & H4). unfold list_copy. rewrite H1.
  destruct (list_new_rep (zlen xs)) as (r & -> & (R1 & R2 & R3 & R4) & Rl & _); [apply zlen_nonneg|].
  cbn [bindr]. destruct (0 <? zlen xs) eqn:E.
  - destruct (blit_ok (data r) (data l) 0 0 (zlen xs)) as (d & Ed);
      try (unfold zlen in *; lia).
    rewrite Ed. cbn [bindr orUB]. eexists; split; [reflexivity|].
    apply (blit_append_rep r [] d (data l) xs); try assumption; unfold zlen in *; cbn [length] in *; try lia.
    repeat split; cbn; try assumption; try lia.
  - eexists; split; [reflexivity|]. destruct xs; [|unfold zlen in E; cbn in E; lia].
    repeat split; cbn; try assumption; unfold zlen in *; cbn; lia.
Qed.

(** reverse *)
Ltac Zify.zify_post_hook ::= Z.to_euclidean_division_equations.
Lemma reverse_loop_spec (orig : list (option A)) (ln : nat) :
  (ln <= length orig)%nat ->
  forall n i d, (i + n = ln / 2)%nat -> length d = length orig ->
  (forall j, nth_error d j =
     if (j <? ln)%nat && ((j <? i)%nat || (ln - 1 - i <? j)%nat) then nth_error orig (ln - 1 - j) else nth_error orig j) ->
  exists d', reverse_loop n (Z.of_nat i) (Z.of_nat ln) d = Ok d' /\ length d' = length orig /\
  (forall j, nth_error d' j = if (j <? ln)%nat then nth_error orig (ln - 1 - j) else nth_error orig j).
Proof.
  intros Hln. induction n as [|n IH]; intros i d Hi Ld Hd; cbn [reverse_loop].
  - exists d. split; [reflexivity|]. split; [assumption|]. intros j. rewrite Hd.
    destruct (j <? ln)%nat eqn:E1; cbn [andb]; [|reflexivity].
    destruct ((j <? i)%nat || (ln - 1 - i <? j)%nat) eqn:E2; [reflexivity|].
    f_equal. lia.
  - rewrite !zget_nat by lia. rewrite !Hd.
    replace (Z.to_nat (Z.of_nat i)) with i by lia.
    replace (Z.to_nat (Z.of_nat ln - 1 - Z.of_nat i)) with (ln - 1 - i)%nat by lia.
    assert (Hlt : (i < ln - 1 - i)%nat) by lia.
    destruct ((i <? ln)%nat && _) eqn:E1; [lia|].
    destruct ((ln - 1 - i <? ln)%nat && _) eqn:E2; [lia|].
    destruct (ne_some orig i) as (x & Hx); [lia|]. rewrite Hx.
    destruct (ne_some orig (ln - 1 - i)) as (y & Hy); [lia|]. rewrite Hy. cbn [orUB bindr].
    destruct (zset_spec d (Z.of_nat i) y) as (d1 & -> & L1 & Hd1); [unfold zlen; lia|].
    cbn [orUB bindr].
    destruct (zset_spec d1 (Z.of_nat ln - 1 - Z.of_nat i) x) as (d2 & -> & L2 & Hd2); [unfold zlen; lia|].
    cbn [orUB bindr].
    replace (Z.of_nat i + 1) with (Z.of_nat (S i)) by lia.
    apply IH; [lia|lia|].
    intros j. rewrite Hd2, Hd1, Hd.
    destruct (j =? Z.to_nat (Z.of_nat ln - 1 - Z.of_nat i))%nat eqn:E3.
    + destruct ((j <? ln)%nat && _) eqn:E4; [|lia].
      rewrite <- Hx. f_equal. lia.
    + destruct (j =? Z.to_nat (Z.of_nat i))%nat eqn:E4.
      * destruct ((j <? ln)%nat && _) eqn:E5; [|lia].
        rewrite <- Hy. f_equal. lia.
      * destruct ((j <? ln)%nat && ((j <? i)%nat || (ln - 1 - i <? j)%nat)) eqn:E5;
        destruct ((j <? ln)%nat && ((j <? S i)%nat || (ln - 1 - S i <? j)%nat)) eqn:E6;
          try reflexivity; lia.
Qed.

Lemma reverse_rep l xs : Rep l xs -> exists l', list_reverse l = Ok l' /\ Rep l' (rev xs).
Proof.
  intros (H1 & H2 & H3 & H4). unfold list_reverse. rewrite H1.
  destruct (reverse_loop_spec (data l) (length xs) H3 (length xs / 2) 0 (data l)) as (d & E & Ld & Hd).
  - lia.
  - reflexivity.
  - intros j. destruct ((j <? length xs)%nat && _) eqn:E; [lia|reflexivity].
  - unfold zlen. change 0 with (Z.of_nat 0) at 1.
    replace (Z.to_nat (Z.of_nat (length xs) / 2)) with (length xs / 2)%nat by lia.
    rewrite E. cbn [bindr]. eexists; split; [reflexivity|].
    apply Rep_intro; cbn [len cap data].
    + unfold zlen. rewrite rev_length. reflexivity.
    + unfold zlen in *. lia.
    + rewrite rev_length. lia.
    + intros i Hi. rewrite rev_length in Hi. rewrite Hd, ne_rev.
      destruct (i <? length xs)%nat eqn:E2; [|lia]. apply H4. lia.
Qed.

Ltac Zify.zify_post_hook ::= idtac.
(** searching *)
Lemma find_from_spec (eqb : A -> A -> bool) v l xs :
  Rep l xs -> forall n i, (i + n <= length xs)%nat ->
  find_from n eqb v (Z.of_nat i) (data l) = Ok (find_first eqb v (firstn n (skipn i xs)) (Z.of_nat i)).
Proof.
  intros HR. induction n as [|n IH]; intros i Hi; cbn [find_from]; [reflexivity|].
  destruct (cellz_rep l xs (Z.of_nat i) HR) as (x & Hx & ->); [unfold zlen; lia|]. cbn [bindr].
  rewrite Nat2Z.id in Hx.
  assert (E : skipn i xs = x :: skipn (S i) xs).
  { apply list_ext. intros j. rewrite ne_cons, !ne_skipn. destruct (j =? 0)%nat eqn:E0.
    - replace (i + j)%nat with i by lia. assumption.
    - f_equal; lia. }
  rewrite E. cbn [firstn find_first]. destruct (eqb v x); [reflexivity|].
  replace (Z.of_nat i + 1) with (Z.of_nat (S i)) by lia. apply IH. lia.
Qed.

Lemma find_first_existsb (eqb : A -> A -> bool) v xs i :
  match find_first eqb v xs i with Some _ => true | None => false end = existsb (eqb v) xs.
Proof.
  revert i; induction xs as [|x xs IH]; intros i; cbn; [reflexivity|].
  destruct (eqb v x); [reflexivity|]. apply IH.
Qed.

Lemma contains_rep (eqb : A -> A -> bool) l xs v :
  Rep l xs -> list_contains eqb l v = Ok (existsb (eqb v) xs).
Proof.
  intros HR. pose proof HR as (H1 & _). unfold list_contains. rewrite H1. unfold zlen.
  rewrite Nat2Z.id. change 0 with (Z.of_nat 0).
  rewrite (find_from_spec eqb v l xs HR) by lia. cbn [bindr skipn].
  rewrite firstn_all. f_equal. apply find_first_existsb.
Qed.

Lemma count_from_spec (eqb : A -> A -> bool) v l xs :
  Rep l xs -> forall n i, (i + n = length xs)%nat ->
  count_from n eqb v (Z.of_nat i) (data l) = Ok (zlen (filter (eqb v) (skipn i xs))).
Proof.
  intros HR. induction n as [|n IH]; intros i Hi; cbn [count_from].
  - rewrite skipn_all2 by lia. reflexivity.
  - destruct (cellz_rep l xs (Z.of_nat i) HR) as (x & Hx & ->); [unfold zlen; lia|]. cbn [bindr].
    rewrite Nat2Z.id in Hx.
    assert (E : skipn i xs = x :: skipn (S i) xs).
    { apply list_ext. intros j. rewrite ne_cons, !ne_skipn. destruct (j =? 0)%nat eqn:E0.
      - replace (i + j)%nat with i by lia. assumption.
      - f_equal; lia. }
    rewrite E. cbn [filter]. replace (Z.of_nat i + 1) with (Z.of_nat (S i)) by lia.
    rewrite IH by lia. cbn [bindr]. f_equal. unfold zlen.
    destruct (eqb v x); cbn [length]; lia.
Qed.

Lemma count_rep (eqb : A -> A -> bool) l xs v :
  Rep l xs -> list_count eqb l v = Ok (zlen (filter (eqb v) xs)).
Proof.
  intros HR. pose proof HR as (H1 & _). unfold list_count. rewrite H1. unfold zlen at 1.
  rewrite Nat2Z.id. change 0 with (Z.of_nat 0).
  rewrite (count_from_spec eqb v l xs HR) by lia. reflexivity.
Qed.

Lemma index_rep (eqb : A -> A -> bool) l xs v a b :
  Rep l xs -> opt32 a -> opt32 b ->
  mapr VInt (list_index eqb l v a b) = fst (list_spec eqb xs (Index v a b)).
Proof.
  intros HR Ha Hb. pose proof HR as (H1 & _). unfold list_index. cbn [list_spec]. rewrite H1.
  set (a' := match a with None => 0 | Some a0 => a0 end).
  assert (Ea : match a with None => 0 | Some s => wrapS 32 s end = a').
  { unfold a'. destruct a; [|reflexivity]. apply wrapS_id; [lia|assumption]. }
  rewrite Ea.
  destruct (a' <? 0) eqn:E1; cbn [orb]; [reflexivity|].
  destruct (zlen xs <? a') eqn:E2; cbn [orb]; [reflexivity|].
  destruct b as [b|].
  - cbn in Hb. rewrite wrapS_id by (try assumption; lia).
    destruct (b <=? a') eqn:E3; [reflexivity|]. cbn [bindr].
    replace (if zlen xs <? b then zlen xs else b) with (Z.min b (zlen xs)) by (destruct (zlen xs <? b) eqn:?; lia).
    replace a' with (Z.of_nat (Z.to_nat a')) at 2 by lia.
    rewrite (find_from_spec eqb v l xs HR) by (unfold zlen in *; lia). cbn [bindr].
    rewrite Z2Nat.id by lia.
    destruct (find_first _ _ _ _); reflexivity.
  - cbn [bindr]. rewrite Z.ltb_irrefl.
    replace a' with (Z.of_nat (Z.to_nat a')) at 2 by lia.
    rewrite (find_from_spec eqb v l xs HR) by (unfold zlen in *; lia). cbn [bindr].
    rewrite Z2Nat.id by lia.
    destruct (find_first _ _ _ _); reflexivity.
Qed.

(** getslice *)
Lemma progression_S start step n :
  progression start step (S n) = start :: progression (start + step) step n.
Proof.
  unfold progression. cbn [seq map]. f_equal; [lia|].
  rewrite <- seq_shift, map_map. apply map_ext. intros j. lia.
Qed.

Lemma getslice_loop_spec l xs step :
  Rep l xs -> zlen xs < 2 ^ 31 ->
  forall n t acc ys, Rep acc ys -> zlen ys + Z.of_nat n <= 2 ^ 30 ->
  (forall p, In p (progression t step n) -> 0 <= p < zlen xs) ->
  exists r, getslice_loop n (data l) t step acc = Ok r /\
            Rep r (ys ++ at_positions xs (progression t step n)).
Proof.
  intros HR Hsz. induction n as [|n IH]; intros t acc ys HRa Hb Hp; cbn [getslice_loop].
  - exists acc. cbn. rewrite app_nil_r. auto.
  - rewrite progression_S in Hp.
    destruct (cellz_rep l xs t HR) as (x & Hx & ->); [apply Hp; left; reflexivity|]. cbn [bindr].
    destruct (append_rep acc ys x HRa) as (acc' & -> & HRa'); [lia|]. cbn [bindr].
    rewrite progression_S. cbn [at_positions]. rewrite Hx.
    destruct n as [|n].
    { cbn [getslice_loop progression seq map at_positions]. eauto. }
    assert (Hw : wrapS 64 (t + step) = t + step).
    { apply wrapS_id; [lia|]. rewrite progression_S in Hp.
      assert (0 <= t + step < zlen xs) by (apply Hp; right; left; reflexivity).
      unfold inS. change (2 ^ (64 - 1)) with (2 ^ 31 * 2 ^ 32). lia. }
    rewrite Hw.
    destruct (IH (t + step) acc' (ys ++ [x]) HRa') as (r & E & HRr).
    { rewrite zlen_app. unfold zlen at 2; cbn [length]. lia. }
    { intros p H. apply Hp. right. assumption. }
    exists r. split; [exact E|]. rewrite <- app_assoc in HRr. exact HRr.
Qed.

Lemma select_step0 n s : step_of s = 0 -> select n s = None.
Proof. intros H. unfold select. fold (step_of s). rewrite H. reflexivity. Qed.

Lemma getslice_rep l xs s :
  Rep l xs -> small xs -> slice_ok (length xs) s ->
  match py_slice xs s with
  | Ok ys => exists r, list_getslice l s = Ok r /\ Rep r ys
  | Exn e => list_getslice l s = Exn e
  | UB => False
  | NoFuel => False
  end.
Proof.
  intros HR Hs Hok. pose proof HR as (H1 & _). unfold list_getslice, py_slice. rewrite H1.
  unfold small in Hs.
  assert (Hcase : step_of s = 0 \/ exists start stop slen,
    normalize_slice s (zlen xs) = Ok (start, stop, step_of s, slen) /\
    select (length xs) s = Some (progression start (step_of s) (Z.to_nat slen)) /\
    0 <= slen <= zlen xs /\ forall p, In p (progression start (step_of s) (Z.to_nat slen)) -> 0 <= p < zlen xs).
  { destruct (Z.eq_dec (step_of s) 0); [left; assumption|right].
    destruct (Z_lt_dec 0 (step_of s)) as [Hpos|Hneg].
    - destruct (normalize_forward (length xs) s Hpos) as (start & stop & slen & E1 & E2 & E3 & E4 & E5).
      exists start, stop, slen. unfold zlen. repeat split; auto; try lia;
      apply in_progression in H as (j & Hj & ->); nia.
    - destruct Hok as [Hok|(Hn & B1 & B2)]; [lia|].
      destruct (normalize_backward (length xs) s) as (start & stop & slen & E1 & E2 & E3 & E4 & E5); auto; [lia|].
      exists start, stop, slen. unfold zlen. repeat split; auto; try lia;
      apply in_progression in H as (j & Hj & ->); nia. }
  destruct Hcase as [H0|(start & stop & slen & E1 & E2 & E3 & E4)].
  - rewrite select_step0, normalize_step0 by assumption. reflexivity.
  - rewrite E1, E2. cbn [bindr].
    destruct (list_new_rep slen) as (r & -> & HRr & _); [lia|]. cbn [bindr].
    destruct (getslice_loop_spec l xs (step_of s) HR ltac:(lia) (Z.to_nat slen) start r [] HRr) as (r' & E & HR').
    + unfold zlen in *; cbn [length]; lia.
    + assumption.
    + exists r'. auto.
Qed.

(** setslice *)
Lemma update_at_length xs p x : (p < length xs)%nat -> length (update_at xs p x) = length xs.
Proof. intros H. unfold update_at. rewrite app_length. cbn [length]. rewrite firstn_length, skipn_length. lia. Qed.

Lemma setslice_loop_spec o ys step ln cp :
  (forall i, (i < length ys)%nat -> nth_error o i = Some (nth_error ys i)) ->
  ln < 2 ^ 31 ->
  forall n i t d xs, Rep (mkList d ln cp) xs -> (i + n <= length ys)%nat ->
  (forall p, In p (progression t step n) -> 0 <= p < zlen xs) ->
  exists d', setslice_loop n (Z.of_nat i) d o t step = Ok d' /\
    Rep (mkList d' ln cp) (assign xs (progression t step n) (firstn n (skipn i ys))) /\ length d' = length d.
Proof.
  intros Ho Hln. induction n as [|n IH]; intros i t d xs HR Hi Hp; cbn [setslice_loop].
  - exists d. auto.
  - rewrite progression_S in Hp.
    destruct (cell_rep o ys i Ho) as (y & Hy & ->); [lia|]. cbn [bindr].
    assert (Ht : 0 <= t < zlen xs) by (apply Hp; left; reflexivity).
    pose proof HR as (H1 & H2 & H3 & H4). cbn [len cap data] in *.
    destruct (zset_spec d t (Some y)) as (d1 & E1 & L1 & _); [unfold zlen in *; lia|].
    rewrite E1. cbn [bindr orUB].
    pose proof (setcell_rep _ xs t y d1 HR Ht E1) as HR1. cbn [len cap] in HR1.
    assert (Es : skipn i ys = y :: skipn (S i) ys).
    { apply list_ext. intros j. rewrite ne_cons, !ne_skipn. destruct (j =? 0)%nat eqn:E0.
      - replace (i + j)%nat with i by lia. assumption.
      - f_equal; lia. }
    rewrite Es, progression_S. cbn [firstn assign].
    destruct n as [|n].
    { cbn [setslice_loop progression seq map assign firstn]. exists d1. auto. }
    assert (Hw : wrapS 32 (t + step) = t + step).
    { apply wrapS_id; [lia|]. rewrite progression_S in Hp.
      assert (0 <= t + step < zlen xs) by (apply Hp; right; left; reflexivity).
      unfold inS. change (2 ^ (32 - 1)) with (2 ^ 31). lia. }
    rewrite Hw. replace (Z.of_nat i + 1) with (Z.of_nat (S i)) by lia.
    destruct (IH (S i) (t + step) d1 _ HR1) as (d' & E & HR' & L').
    + lia.
    + intros p H. unfold zlen. rewrite update_at_length by (unfold zlen in *; lia). apply Hp. right. assumption.
    + exists d'. split; [exact E|]. split; [exact HR'|lia].
Qed.

Lemma progression_length start step n : length (progression start step n) = n.
Proof. unfold progression. rewrite map_length, seq_length. reflexivity. Qed.

Lemma slice_cases (xs : list A) s :
  slice_ok (length xs) s ->
  step_of s = 0 \/ exists start stop slen,
    normalize_slice s (zlen xs) = Ok (start, stop, step_of s, slen) /\
    select (length xs) s = Some (progression start (step_of s) (Z.to_nat slen)) /\
    0 <= slen <= zlen xs /\ 0 <= start <= zlen xs /\
    forall p, In p (progression start (step_of s) (Z.to_nat slen)) -> 0 <= p < zlen xs.
Proof.
  intros Hok. destruct (Z.eq_dec (step_of s) 0); [left; assumption|right].
  destruct (Z_lt_dec 0 (step_of s)) as [Hpos|Hneg].
  - destruct (normalize_forward (length xs) s Hpos) as (start & stop & slen & E1 & E2 & E3 & E4 & E5).
    exists start, stop, slen. unfold zlen. repeat split; auto; try lia;
    apply in_progression in H as (j & Hj & ->); nia.
  - destruct Hok as [Hok|(Hn & B1 & B2)]; [lia|].
    destruct (normalize_backward (length xs) s) as (start & stop & slen & E1 & E2 & E3 & E4 & E5); auto; [lia|].
    exists start, stop, slen. unfold zlen. repeat split; auto; try lia;
    apply in_progression in H as (j & Hj & ->); nia.
Qed.

Lemma wrap32_start (xs : list A) start : small xs -> 0 <= start <= zlen xs -> wrapS 32 start = start.
Proof.
  intros Hs H. apply wrapS_id; [lia|]. unfold inS, small in *. change (2 ^ (32 - 1)) with (2 * 2 ^ 30). lia.
Qed.

Lemma setslice_ext_rep l xs s o ys :
  Rep l xs -> Rep o ys -> small xs -> slice_ok (length xs) s -> step_of s <> 1 ->
  match select (length xs) s with
  | None => list_setslice l s o = Exn ValueError
  | Some ps => if Nat.eqb (length ps) (length ys)
               then exists l', list_setslice l s o = Ok l' /\ Rep l' (assign xs ps ys)
               else list_setslice l s o = Exn ValueError
  end.
Proof.
  intros HR HRo Hs Hok Hne. pose proof HR as (H1 & H2 & H3 & H4). pose proof HRo as (G1 & G2 & G3 & G4).
  unfold list_setslice. rewrite H1.
  destruct (slice_cases xs s Hok) as [H0|(start & stop & slen & E1 & E2 & E3 & E3' & E4)].
  - rewrite select_step0, normalize_step0 by assumption. reflexivity.
  - rewrite E1, E2. cbn [bindr].
    rewrite progression_length, G1.
    destruct (step_of s =? 1) eqn:E5; [lia|]. cbn [negb andb].
    destruct (Nat.eqb (Z.to_nat slen) (length ys)) eqn:E6;
      destruct (zlen ys =? slen) eqn:E7; unfold zlen in E7; try lia; cbn [negb]; [|reflexivity].
    destruct (zlen ys <=? slen) eqn:E8; [|unfold zlen in E8; lia].
    rewrite (wrap32_start xs) by assumption.
    unfold small in Hs.
    assert (HR' : Rep (mkList (data l) (zlen xs) (cap l)) xs) by (repeat split; assumption).
    destruct (setslice_loop_spec (data o) ys (step_of s) (zlen xs) (cap l) G4 ltac:(lia)
                (Z.to_nat slen) 0 start (data l) xs HR') as (d & E & HRd & _).
    + lia.
    + assumption.
    + change (Z.of_nat 0) with 0 in E. replace (Z.to_nat (zlen ys)) with (Z.to_nat slen) by (unfold zlen; lia).
      rewrite E. cbn [bindr].
      eexists; split; [reflexivity|]. cbn [skipn] in HRd.
      rewrite firstn_all2 in HRd by lia. exact HRd.
Qed.

Lemma normalize_step1 n s :
  0 <= n -> step_of s = 1 ->
  let start := match sl_start s with None => 0 | Some x => clampZ 0 n (from_end n x) end in
  let stop := match sl_stop s with None => n | Some x => clampZ 0 n (from_end n x) end in
  normalize_slice s n = Ok (start, stop, 1, Z.max 0 (stop - start)) /\ 0 <= start <= n /\ 0 <= stop <= n.
Proof.
  intros Hn Hk start stop. unfold normalize_slice. fold (step_of s). rewrite Hk.
  change (1 =? 0) with false. change (0 <? 1) with true. change (1 <? 0) with false. cbv iota.
  assert (Hb : forall x, clamp_bound n 1 x = clampZ 0 n (from_end n x)).
  { intros x. unfold clamp_bound, clampZ, from_end. change (0 <? 1) with true. cbv iota.
    destruct (0 <=? x) eqn:?; destruct (x <? n) eqn:?; destruct (x <? 0) eqn:?;
      destruct (- n <? x) eqn:?; lia. }
  assert (Es : match sl_start s with None => 0 | Some x => clamp_bound n 1 x end = start).
  { unfold start. destruct (sl_start s); rewrite ?Hb; reflexivity. }
  assert (Et : match sl_stop s with None => n | Some x => clamp_bound n 1 x end = stop).
  { unfold stop. destruct (sl_stop s); rewrite ?Hb; reflexivity. }
  rewrite Es, Et. rewrite Z.rem_1_r, Z.quot_1_r. cbn [Z.eqb andb orb].
  split; [|].
  - do 2 f_equal. rewrite orb_false_r. destruct (stop <=? start) eqn:?; lia.
  - unfold start, stop, clampZ. destruct (sl_start s), (sl_stop s); lia.
Qed.

Lemma assign_segment xs start n ys :
  (start + n <= length xs)%nat -> length ys = n ->
  forall i, nth_error (assign xs (progression (Z.of_nat start) 1 n) ys) i =
    if (start <=? i)%nat && (i <? start + n)%nat then nth_error ys (i - start) else nth_error xs i.
Proof.
  revert xs start ys; induction n as [|n IH]; intros xs start ys H Hl i.
  - change (progression (Z.of_nat start) 1 0) with (@nil Z). cbn [assign].
    destruct ((start <=? i)%nat && (i <? start + 0)%nat) eqn:E; [lia|reflexivity].
  - destruct ys as [|y ys]; [discriminate|]. injection Hl as Hl.
    rewrite progression_S. cbn [assign]. rewrite Nat2Z.id.
    replace (Z.of_nat start + 1) with (Z.of_nat (S start)) by lia.
    rewrite IH; [|rewrite update_at_length; lia|assumption].
    unfold update_at. rewrite ne_app, firstn_length, ne_firstn, !ne_cons, ne_skipn.
    destruct ((S start <=? i)%nat && (i <? S start + n)%nat) eqn:E1;
    destruct ((start <=? i)%nat && (i <? start + S n)%nat) eqn:E2; try lia.
    + destruct (i - start =? 0)%nat eqn:E3; [lia|]. f_equal. lia.
    + destruct (i - start =? 0)%nat eqn:E3; [|lia].
      destruct (i <? Nat.min _ _)%nat eqn:E4; [lia|].
      destruct (i - Nat.min start (length xs) =? 0)%nat eqn:E5; [reflexivity|lia].
    + destruct (i <? Nat.min _ _)%nat eqn:E4.
      * destruct (i <? start)%nat eqn:E5; [reflexivity|lia].
      * destruct (_ =? 0)%nat eqn:E5; [lia|]. f_equal. lia.
Qed.

Lemma assign_length xs ps ys :
  (forall p, In p ps -> 0 <= p < zlen xs) -> length (assign xs ps ys) = length xs.
Proof.
  revert xs ys; induction ps as [|p ps IH]; intros xs ys H; cbn [assign]; [reflexivity|].
  destruct ys as [|y ys]; [reflexivity|].
  assert (Hp : 0 <= p < zlen xs) by (apply H; left; reflexivity).
  assert (L : length (update_at xs (Z.to_nat p) y) = length xs) by (apply update_at_length; unfold zlen in *; lia).
  rewrite IH; [exact L|]. intros q Hq. unfold zlen. rewrite L. apply H. right. assumption.
Qed.

Lemma setslice_tail_spec (o : list (option A)) ys start :
  (forall i, (i < length ys)%nat -> nth_error o i = Some (nth_error ys i)) ->
  forall n i d, (i + n = length ys)%nat -> (start + length ys <= length d)%nat ->
  exists d', setslice_tail n (Z.of_nat i) (Z.of_nat start) d o = Ok d' /\ length d' = length d /\
   forall j, nth_error d' j =
     if (start + i <=? j)%nat && (j <? start + length ys)%nat then Some (nth_error ys (j - start)) else nth_error d j.
Proof.
  intros Ho. induction n as [|n IH]; intros i d Hi Hd; cbn [setslice_tail].
  - exists d. split; [reflexivity|]. split; [reflexivity|]. intros j.
    destruct ((start + i <=? j)%nat && (j <? start + length ys)%nat) eqn:E; [lia|reflexivity].
  - destruct (cell_rep o ys i Ho) as (y & Hy & ->); [lia|]. cbn [bindr].
    destruct (zset_spec d (Z.of_nat start + Z.of_nat i) (Some y)) as (d1 & -> & L1 & Hd1); [unfold zlen; lia|].
    cbn [bindr orUB]. replace (Z.of_nat i + 1) with (Z.of_nat (S i)) by lia.
    destruct (IH (S i) d1) as (d' & E & L' & Hd'); [lia|lia|].
    exists d'. split; [exact E|]. split; [lia|]. intros j. rewrite Hd', Hd1.
    destruct ((start + S i <=? j)%nat && (j <? start + length ys)%nat) eqn:E1;
    destruct ((start + i <=? j)%nat && (j <? start + length ys)%nat) eqn:E2; try lia; try reflexivity.
    + destruct (j =? Z.to_nat (Z.of_nat start + Z.of_nat i))%nat eqn:E3; [|lia].
      replace (j - start)%nat with i by lia. congruence.
    + destruct (j =? Z.to_nat (Z.of_nat start + Z.of_nat i))%nat eqn:E3; [lia|reflexivity].
Qed.

Lemma setslice_seg_rep l xs s o ys :
  Rep l xs -> Rep o ys -> small xs -> step_of s = 1 ->
  zlen (replace_segment xs (sl_start s) (sl_stop s) ys) <= 2 ^ 30 ->
  exists l', list_setslice l s o = Ok l' /\ Rep l' (replace_segment xs (sl_start s) (sl_stop s) ys).
Proof.
  intros HR HRo Hs Hk Hbig. pose proof HR as (H1 & H2 & H3 & H4). pose proof HRo as (G1 & G2 & G3 & G4).
  unfold replace_segment in *.
  destruct (normalize_step1 (zlen xs) s (zlen_nonneg xs) Hk) as (E1 & Hst & Hsp). cbv zeta in *.
  unfold list_setslice. rewrite H1, E1. cbn [bindr]. change (1 =? 1) with true. cbn [negb andb].
  set (start := match sl_start s with None => 0 | Some x => clampZ 0 (zlen xs) (from_end (zlen xs) x) end) in *.
  set (stop := match sl_stop s with None => zlen xs | Some x => clampZ 0 (zlen xs) (from_end (zlen xs) x) end) in *.
  set (slen := Z.max 0 (stop - start)).
  assert (Hm : Z.max start stop = start + slen) by (unfold slen; lia). rewrite Hm in *.
  rewrite G1. set (copy := if zlen ys <=? slen then zlen ys else slen).
  assert (Hcopy : copy = Z.min (zlen ys) slen) by (unfold copy; destruct (zlen ys <=? slen) eqn:?; lia).
  assert (Hsl : 0 <= slen /\ start + slen <= zlen xs) by (unfold slen; lia).
  pose proof (zlen_nonneg ys) as Hys.
  rewrite (wrap32_start xs) by assumption.
  clearbody copy. clearbody slen. clear Hm E1 Hsp. clearbody start. clear stop.
  assert (HR' : Rep (mkList (data l) (zlen xs) (cap l)) xs) by (repeat split; assumption).
  assert (Hps : forall p, In p (progression start 1 (Z.to_nat copy)) -> 0 <= p < zlen xs).
  { intros p Hp. apply in_progression in Hp as (j & Hj & ->). unfold zlen in *. lia. }
  unfold small in Hs.
  destruct (setslice_loop_spec (data o) ys 1 (zlen xs) (cap l) G4 ltac:(lia)
              (Z.to_nat copy) 0 start (data l) xs HR') as (d & E & HRd & Ld).
  { unfold zlen in *; lia. }
  { exact Hps. }
  change (Z.of_nat 0) with 0 in E. rewrite E. cbn [bindr]. cbn [skipn] in HRd.
  set (ys1 := firstn (Z.to_nat copy) ys) in *.
  set (xs1 := assign xs (progression start 1 (Z.to_nat copy)) ys1) in *.
  assert (Lxs1 : length xs1 = length xs) by (apply assign_length; assumption).
  assert (Hxs1 : forall i, nth_error xs1 i =
      if (Z.to_nat start <=? i)%nat && (i <? Z.to_nat start + Z.to_nat copy)%nat
      then nth_error ys (i - Z.to_nat start) else nth_error xs i).
  { intros i. unfold xs1. replace start with (Z.of_nat (Z.to_nat start)) at 1 by lia.
    rewrite assign_segment; [|unfold zlen in *; lia|unfold ys1; rewrite firstn_length; unfold zlen in *; lia].
    unfold ys1. rewrite ne_firstn.
    destruct ((Z.to_nat start <=? i)%nat && _) eqn:E2; [|reflexivity].
    destruct (i - Z.to_nat start <? Z.to_nat copy)%nat eqn:E3; [reflexivity|lia]. }
  pose proof HRd as (D1 & D2 & D3 & D4). cbn [len cap data] in *.
  assert (Lres : length (firstn (Z.to_nat start) xs ++ ys ++ skipn (Z.to_nat (start + slen)) xs)
                 = (length xs - Z.to_nat slen + length ys)%nat).
  { rewrite !app_length, firstn_length, skipn_length. unfold zlen in *. lia. }
  assert (Hres : forall i, nth_error (firstn (Z.to_nat start) xs ++ ys ++ skipn (Z.to_nat (start + slen)) xs) i =
     if (i <? Z.to_nat start)%nat then nth_error xs i
     else if (i <? Z.to_nat start + length ys)%nat then nth_error ys (i - Z.to_nat start)
     else nth_error xs (i - length ys + Z.to_nat slen)).
  { intros i. rewrite ne_app, firstn_length, ne_firstn, ne_app, ne_skipn. unfold zlen in *.
    destruct (i <? Z.to_nat start)%nat eqn:E2.
    - destruct (i <? Nat.min _ _)%nat eqn:E3; [reflexivity|lia].
    - destruct (i <? Nat.min _ _)%nat eqn:E3; [lia|].
      destruct (i <? Z.to_nat start + length ys)%nat eqn:E4.
      + destruct (_ <? length ys)%nat eqn:E5; [|lia]. f_equal; lia.
      + destruct (_ <? length ys)%nat eqn:E5; [lia|]. f_equal; lia. }
  set (target := firstn (Z.to_nat start) xs ++ ys ++ skipn (Z.to_nat (start + slen)) xs) in *.
  clear Hps. clearbody xs1 ys1 target.
  destruct (zlen ys =? slen) eqn:E2; [|destruct (zlen ys <? slen) eqn:E3].
  - eexists; split; [reflexivity|].
    assert (Ec : copy = slen) by lia. clear Hcopy. subst copy.
    apply Rep_intro; cbn [len cap data]; unfold zlen in *; try lia.
    intros i Hi. rewrite D4 by lia. rewrite Hxs1, Hres.
    destruct (i <? Z.to_nat start)%nat eqn:E4;
      destruct ((Z.to_nat start <=? i)%nat && (i <? Z.to_nat start + Z.to_nat slen)%nat) eqn:E5; try lia.
    + reflexivity.
    + destruct (i <? Z.to_nat start + length ys)%nat eqn:E6; [reflexivity|lia].
    + destruct (i <? Z.to_nat start + length ys)%nat eqn:E6; [lia|]. do 2 f_equal. lia.
  - unfold memmove.
    assert (Ec : copy = zlen ys) by lia. clear Hcopy. subst copy.
    destruct (blit_spec d d (start + zlen ys) (start + slen) (zlen xs - (start + slen))) as (d2 & -> & L2 & Hd2);
      try (unfold zlen in *; lia).
    cbn [bindr orUB]. eexists; split; [reflexivity|].
    apply Rep_intro; cbn [len cap data]; unfold zlen in *; try lia.
    intros i Hi. rewrite Hd2, Hres.
    destruct ((Z.to_nat (start + Z.of_nat (length ys)) <=? i)%nat && _) eqn:E4.
    + rewrite D4 by lia. rewrite Hxs1.
      destruct (i <? Z.to_nat start)%nat eqn:E5; [lia|].
      destruct (i <? Z.to_nat start + length ys)%nat eqn:E6; [lia|].
      destruct ((Z.to_nat start <=? Z.to_nat (start + slen) + (i - Z.to_nat (start + Z.of_nat (length ys))))%nat && _) eqn:E7; [lia|].
      do 2 f_equal. lia.
    + rewrite D4 by lia. rewrite Hxs1.
      destruct (i <? Z.to_nat start)%nat eqn:E5;
        destruct ((Z.to_nat start <=? i)%nat && (i <? Z.to_nat start + Z.to_nat (Z.of_nat (length ys)))%nat) eqn:E6; try lia.
      * reflexivity.
      * destruct (i <? Z.to_nat start + length ys)%nat eqn:E7; [reflexivity|lia].
  - assert (Ec : copy = slen) by lia. clear Hcopy. subst copy.
    destruct (expand_rep (mkList d (zlen xs) (cap l)) xs1 (zlen ys - slen) HRd) as (e & -> & HRe & He).
    { lia. }
    { unfold zlen in *. lia. }
    cbn [bindr]. pose proof HRe as (F1 & F2 & F3 & F4).
    unfold memmove.
    destruct (blit_spec (data e) (data e) (start + slen + (zlen ys - slen)) (start + slen) (zlen xs - (start + slen)))
      as (d3 & -> & L3 & Hd3); try (unfold zlen in *; lia).
    cbn [bindr orUB].
    destruct (setslice_tail_spec (data o) ys (Z.to_nat start) G4 (Z.to_nat (zlen ys - slen)) (Z.to_nat slen) d3)
      as (d4 & E4 & L4 & Hd4).
    { unfold zlen in *; lia. }
    { unfold zlen in *; lia. }
    rewrite !Z2Nat.id in E4 by lia. rewrite E4. cbn [bindr].
    eexists; split; [reflexivity|].
    apply Rep_intro; cbn [len cap data]; unfold zlen in *; try lia.
    intros i Hi. rewrite Hd4, Hd3, Hres.
    destruct ((Z.to_nat start + Z.to_nat slen <=? i)%nat && (i <? Z.to_nat start + length ys)%nat) eqn:E5.
    + destruct (i <? Z.to_nat start)%nat eqn:E6; [lia|].
      destruct (i <? Z.to_nat start + length ys)%nat eqn:E7; [reflexivity|lia].
    + destruct ((Z.to_nat (start + slen + (Z.of_nat (length ys) - slen)) <=? i)%nat && _) eqn:E6.
      * rewrite F4 by (clear Hd4 Hd3 Hres Hxs1; lia). rewrite Hxs1.
        destruct (i <? Z.to_nat start)%nat eqn:E7; [lia|].
        destruct (i <? Z.to_nat start + length ys)%nat eqn:E8; [lia|].
        destruct ((Z.to_nat start <=? Z.to_nat (start + slen) + (i - _))%nat && _) eqn:E9; [lia|].
        do 2 f_equal. lia.
      * rewrite F4 by (clear Hd4 Hd3 Hres Hxs1; lia). rewrite Hxs1.
        destruct (i <? Z.to_nat start)%nat eqn:E7;
          destruct ((Z.to_nat start <=? i)%nat && (i <? Z.to_nat start + Z.to_nat slen)%nat) eqn:E8; try lia.
        -- reflexivity.
        -- destruct (i <? Z.to_nat start + length ys)%nat eqn:E9; [reflexivity|lia].
Qed.

(** delslice, positive step *)
Definition skipidx (start k slen j : Z) : Z :=
  if j <? start then j
  else if k =? 1 then j + slen
  else j + Z.min ((j - start) / (k - 1) + 1) slen.

Lemma delslice_loop_spec (orig : list (option A)) start k slen :
  0 < k -> 0 <= start -> start + k * (slen - 1) < zlen orig ->
  forall n i d, (Z.of_nat i + Z.of_nat n = slen - 1) -> length d = length orig ->
  (forall j, nth_error d j =
     if (Z.of_nat j <? start + Z.of_nat i * (k - 1))
     then nth_error orig (Z.to_nat (skipidx start k slen (Z.of_nat j))) else nth_error orig j) ->
  exists d', delslice_loop n (Z.of_nat i) (start + Z.of_nat i * (k - 1)) k d
             = Ok (d', start + (slen - 1) * (k - 1)) /\ length d' = length orig /\
  (forall j, nth_error d' j =
     if (Z.of_nat j <? start + (slen - 1) * (k - 1))
     then nth_error orig (Z.to_nat (skipidx start k slen (Z.of_nat j))) else nth_error orig j).
Proof.
  intros Hk Hst Hb. induction n as [|n IH]; intros i d Hi Ld Hd; cbn [delslice_loop].
  - exists d. replace (Z.of_nat i) with (slen - 1) in * by lia. auto.
  - unfold memmove.
    assert (Hmul : start + Z.of_nat i * (k - 1) + Z.of_nat i + 1 + (k - 1) = start + Z.of_nat i * k + k) by ring.
    assert (Hle : start + Z.of_nat i * k + k <= zlen orig) by nia.
    assert (0 <= Z.of_nat i * (k - 1)) by nia.
    destruct (blit_spec d d (start + Z.of_nat i * (k - 1)) (start + Z.of_nat i * (k - 1) + Z.of_nat i + 1) (k - 1))
      as (d1 & -> & L1 & Hd1); try (unfold zlen in *; lia).
    cbn [bindr orUB].
    replace (Z.of_nat i + 1) with (Z.of_nat (S i)) by lia.
    replace (start + Z.of_nat i * (k - 1) + (k - 1)) with (start + Z.of_nat (S i) * (k - 1)) by lia.
    apply IH; [lia|lia|].
    intros j. rewrite Hd1, !Hd.
    set (P := start + Z.of_nat i * (k - 1)) in *.
    assert (HS : start + Z.of_nat (S i) * (k - 1) = P + (k - 1)) by (unfold P; lia). rewrite HS.
    destruct ((Z.to_nat P <=? j)%nat && (j <? Z.to_nat (P + (k - 1)))%nat) eqn:E1.
    + destruct (Z.of_nat j <? P + (k - 1)) eqn:E2; [|lia].
      destruct (Z.of_nat _ <? P) eqn:E3; [lia|].
      f_equal. unfold skipidx. 
      destruct (Z.of_nat j <? start) eqn:E4; [lia|].
      destruct (k =? 1) eqn:E5; [lia|].
      assert (Hq : (Z.of_nat j - start) / (k - 1) = Z.of_nat i).
      { symmetry. apply Z.div_unique with (r := Z.of_nat j - P); [lia|]. unfold P. ring. }
      rewrite Hq. lia.
    + destruct (Z.of_nat j <? P) eqn:E2; destruct (Z.of_nat j <? P + (k - 1)) eqn:E3; try lia; reflexivity.
Qed.

Lemma in_drop ps n x :
  In x (filter (fun i => negb (existsb (Z.eqb i) ps)) (positions n)) <-> (0 <= x < Z.of_nat n /\ ~ In x ps).
Proof.
  rewrite filter_In, in_positions, negb_true_iff. split; intros [H1 H2]; split; try assumption.
  - intros H. assert (existsb (Z.eqb x) ps = true).
    { apply existsb_exists. exists x. split; [assumption|]. apply Z.eqb_refl. }
    congruence.
  - destruct (existsb (Z.eqb x) ps) eqn:E; [|reflexivity].
    apply existsb_exists in E as (y & Hy & E). apply Z.eqb_eq in E. subst. contradiction.
Qed.

Lemma drop_positions_map (n : nat) start k slen :
  0 < k -> 0 <= start -> 0 < slen -> start + k * (slen - 1) < Z.of_nat n ->
  filter (fun i => negb (existsb (Z.eqb i) (progression start k (Z.to_nat slen)))) (positions n)
  = map (fun j => skipidx start k slen (Z.of_nat j)) (seq 0 (n - Z.to_nat slen)).
Proof.
  intros Hk Hst Hsl Hb.
  apply (sorted_ext Z.lt); try lia.
  - apply StronglySorted_filter, StronglySorted_map_seq. lia.
  - apply StronglySorted_map_seq. intros i j Hij. unfold skipidx.
    destruct (Z.of_nat i <? start) eqn:E1; destruct (Z.of_nat j <? start) eqn:E2; try lia.
    + destruct (k =? 1) eqn:E3; [lia|].
      assert (0 <= (Z.of_nat j - start) / (k - 1)) by (apply Z.div_pos; lia). lia.
    + destruct (k =? 1) eqn:E3; [lia|].
      assert ((Z.of_nat i - start) / (k - 1) <= (Z.of_nat j - start) / (k - 1)) by (apply Z.div_le_mono; lia). lia.
  - intros x. rewrite in_drop, in_progression, in_map_iff.
    assert (Hgt : slen <= Z.of_nat n) by nia.
    split.
    + intros [Hx Hn].
      destruct (Z_lt_dec x start) as [H|H].
      { exists (Z.to_nat x). split; [unfold skipidx; destruct (_ <? _) eqn:?; lia|].
        apply in_seq. nia. }
      (* x > start, not on the grid below the last deleted position *)
      set (q := (x - start) / k). set (r := (x - start) mod k).
      assert (Hqr : x - start = k * q + r /\ 0 <= r < k).
      { split; [apply Z.div_mod; lia|apply Z.mod_pos_bound; lia]. }
      assert (Hq0 : 0 <= q) by (apply Z.div_pos; lia).
      destruct (Z_lt_dec q slen) as [Hq|Hq].
      * assert (Hr : 0 < r).
        { destruct (Z.eq_dec r 0); [|lia]. exfalso. apply Hn. exists q. split; [lia|]. nia. }
        exists (Z.to_nat (x - (q + 1))). split.
        -- unfold skipidx. rewrite Z2Nat.id by nia.
           destruct (_ <? start) eqn:E1; [nia|]. destruct (k =? 1) eqn:E2; [lia|].
           assert (E : (x - (q + 1) - start) / (k - 1) = q).
           { symmetry. apply Z.div_unique with (r := r - 1); [lia|]. nia. }
           rewrite E. lia.
        -- apply in_seq. nia.
      * exists (Z.to_nat (x - slen)). split.
        -- unfold skipidx. rewrite Z2Nat.id by nia.
           destruct (_ <? start) eqn:E1; [nia|]. destruct (k =? 1) eqn:E2; [lia|].
           assert (E : slen - 1 <= (x - slen - start) / (k - 1)).
           { apply Z.div_le_lower_bound; [lia|]. nia. }
           lia.
        -- apply in_seq. nia.
    + intros (j & <- & Hj). apply in_seq in Hj. unfold skipidx.
      destruct (Z.of_nat j <? start) eqn:E1.
      { split; [lia|]. intros (i & Hi & E). nia. }
      destruct (k =? 1) eqn:E2.
      { split; [lia|]. intros (i & Hi & E). nia. }
      set (q := (Z.of_nat j - start) / (k - 1)). set (r := (Z.of_nat j - start) mod (k - 1)).
      assert (Hqr : Z.of_nat j - start = (k - 1) * q + r /\ 0 <= r < k - 1).
      { split; [apply Z.div_mod; lia|apply Z.mod_pos_bound; lia]. }
      assert (Hq0 : 0 <= q) by (apply Z.div_pos; lia).
      destruct (Z_lt_dec q slen) as [Hq|Hq].
      * rewrite Z.min_l by lia. split; [nia|]. intros (i & Hi & E).
        assert (k * q + (r + 1) = i * k) by nia.
        assert (i = q) by nia. nia.
      * rewrite Z.min_r by lia. split; [nia|]. intros (i & Hi & E). nia.
Qed.

Lemma at_positions_ne (xs : list A) ps :
  (forall p, In p ps -> 0 <= p < zlen xs) ->
  length (at_positions xs ps) = length ps /\
  forall i, nth_error (at_positions xs ps) i =
     match nth_error ps i with Some p => nth_error xs (Z.to_nat p) | None => None end.
Proof.
  induction ps as [|p ps IH]; intros H; cbn [at_positions].
  - split; [reflexivity|]. intros [|i]; reflexivity.
  - destruct (ne_some xs (Z.to_nat p)) as (x & Hx).
    { assert (0 <= p < zlen xs) by (apply H; left; reflexivity). unfold zlen in *; lia. }
    rewrite Hx. destruct IH as [IH1 IH2]; [intros q Hq; apply H; right; assumption|].
    cbn [length]. split; [lia|]. intros [|i]; cbn [nth_error]; [auto|apply IH2].
Qed.

Lemma delslice_rep l xs s :
  Rep l xs -> 0 <= step_of s ->
  match select (length xs) s with
  | None => list_delslice l s = Exn ValueError
  | Some ps => exists l', list_delslice l s = Ok l' /\ Rep l' (drop_positions xs ps)
  end.
Proof.
  intros HR Hk. pose proof HR as (H1 & H2 & H3 & H4). unfold list_delslice. rewrite H1.
  destruct (Z.eq_dec (step_of s) 0) as [H0|H0].
  { rewrite select_step0, normalize_step0 by assumption. reflexivity. }
  destruct (normalize_forward (length xs) s ltac:(lia)) as (start & stop & slen & E1 & E2 & E3 & E4 & E5).
  unfold zlen at 1. rewrite E1, E2. cbn [bindr]. set (k := step_of s) in *.
  destruct (slen =? 0) eqn:E6.
  - exists l. split; [reflexivity|]. replace (Z.to_nat slen) with 0%nat by lia.
    unfold drop_positions. replace (at_positions xs _) with xs; [assumption|].
    assert (F : filter (fun i => negb (existsb (Z.eqb i) (progression start k 0))) (positions (length xs)) = positions (length xs)).
    { cbn. generalize (positions (length xs)). intros p. induction p; cbn; [reflexivity|f_equal; assumption]. }
    rewrite F. apply list_ext. intros i.
    destruct (at_positions_ne xs (positions (length xs))) as [_ ->].
    { intros p Hp. apply in_positions in Hp. exact Hp. }
    unfold positions. rewrite ne_map, ne_seq. destruct (i <? length xs)%nat eqn:E; cbn.
    + f_equal. lia.
    + apply ne_none. lia.
  - assert (Hsl : 0 < slen) by lia. specialize (E5 Hsl).
    assert (Hin : start + k * (slen - 1) < zlen (data l)).
    { unfold zlen. rewrite Z.mul_comm. lia. }
    destruct (delslice_loop_spec (data l) start k slen ltac:(lia) ltac:(lia) Hin (Z.to_nat (slen - 1)) 0 (data l))
      as (d & E7 & Ld & Hd).
    + lia.
    + reflexivity.
    + intros j. destruct (Z.of_nat j <? start + Z.of_nat 0 * (k - 1)) eqn:E; [|reflexivity].
      unfold skipidx. destruct (Z.of_nat j <? start) eqn:E8; [|lia]. f_equal. lia.
    + change (Z.of_nat 0) with 0 in E7.
      replace (start + 0 * (k - 1)) with start in E7 by lia. rewrite E7. cbn [bindr].
      set (P := start + (slen - 1) * (k - 1)) in *.
      assert (HP : start + k * (slen - 1) = P + (slen - 1)) by (unfold P; ring).
      assert (HP0 : start <= P) by (unfold P; nia).
      assert (Hdata : zlen xs <= zlen (data l)) by (unfold zlen; lia).
      unfold zlen in *.
      unfold memmove.
      destruct (blit_spec d d P (P + slen) (Z.of_nat (length xs) - 1 - (start + k * (slen - 1))))
        as (d2 & E8 & L2 & Hd2); try (unfold zlen in *; lia).
      rewrite E8. cbn [bindr orUB]. eexists; split; [reflexivity|].
      unfold drop_positions. rewrite drop_positions_map by (try lia).
      set (ps := map _ _).
      assert (Hps : forall p, In p ps -> 0 <= p < zlen xs).
      { intros p Hp. unfold ps in Hp. rewrite <- (drop_positions_map (length xs) start k slen) in Hp by (try lia).
        apply in_drop in Hp. apply Hp. }
      destruct (at_positions_ne xs ps Hps) as [LA HA].
      assert (Lps : length ps = (length xs - Z.to_nat slen)%nat) by (unfold ps; rewrite map_length, seq_length; reflexivity).
      apply Rep_intro; cbn [len cap data]; unfold zlen in *; try lia.
      intros i Hi. rewrite Hd2, HA. unfold ps. rewrite ne_map, ne_seq.
      destruct (i <? length xs - Z.to_nat slen)%nat eqn:E9; [|lia]. cbn [option_map].
      replace (0 + i)%nat with i by lia.
      destruct ((Z.to_nat P <=? i)%nat && _) eqn:E10.
      * rewrite Hd. destruct (Z.of_nat _ <? P) eqn:E11; [lia|].
        rewrite H4 by lia. do 2 f_equal. unfold skipidx.
        destruct (Z.of_nat i <? start) eqn:E12; [lia|].
        destruct (k =? 1) eqn:E13; [lia|].
        assert (slen - 1 <= (Z.of_nat i - start) / (k - 1)).
        { apply Z.div_le_lower_bound; [lia|]. unfold P in *. nia. }
        lia.
      * rewrite Hd. destruct (Z.of_nat i <? P) eqn:E11; [|lia].
        apply H4.
        assert (0 <= skipidx start k slen (Z.of_nat i) < Z.of_nat (length xs)); [|lia].
        apply Hps. unfold ps. apply in_map_iff. exists i. split; [reflexivity|]. apply in_seq. lia.
Qed.

(** add, mul *)
Lemma add_rep l xs o ys :
  Rep l xs -> Rep o ys -> zlen xs + zlen ys <= 2 ^ 30 ->
  exists r, list_add l o = Ok r /\ Rep r (xs ++ ys).
Proof.
  intros (H1 & H2 & H3 & H4) (G1 & G2 & G3 & G4) Hb. unfold list_add. rewrite H1, G1.
  pose proof (zlen_nonneg xs). pose proof (zlen_nonneg ys).
  rewrite wrapS_id by (try (unfold inS; change (2 ^ (32 - 1)) with (2 * 2 ^ 30)); lia).
  destruct (list_new_rep (zlen xs + zlen ys)) as (r & -> & HRr & Lr & _); [lia|]. cbn [bindr].
  assert (exists d1, (if 0 <? zlen xs then orUB (blit (data r) 0 (data l) 0 (zlen xs)) else Ok (data r)) = Ok d1 /\
     Rep (mkList d1 (zlen xs) (cap r)) xs /\ length d1 = length (data r)) as (d1 & -> & HR1 & L1).
  { destruct (0 <? zlen xs) eqn:E.
    - destruct (blit_spec (data r) (data l) 0 0 (zlen xs)) as (d1 & E1 & L1 & _); try (unfold zlen in *; lia).
      exists d1. rewrite E1. split; [reflexivity|]. split; [|assumption].
      apply (blit_append_rep r [] d1 (data l) xs); try assumption; unfold zlen in *; cbn [length] in *; lia.
    - exists (data r). split; [reflexivity|]. split; [|reflexivity].
      destruct xs; [|unfold zlen in E; cbn in E; lia].
      destruct HRr as (R1 & R2 & R3 & R4). repeat split; cbn; try assumption; unfold zlen in *; cbn; lia. }
  cbn [bindr]. destruct (0 <? zlen ys) eqn:E.
  - destruct (blit_spec d1 (data o) (zlen xs) 0 (zlen ys)) as (d2 & E1 & L2 & _); try (unfold zlen in *; lia).
    rewrite E1. cbn [bindr orUB]. eexists; split; [reflexivity|].
    apply (blit_append_rep (mkList d1 (zlen xs) (cap r)) xs d2 (data o) ys); try assumption.
    cbn [data]. unfold zlen in *. lia.
  - cbn [bindr]. eexists; split; [reflexivity|]. destruct ys; [|unfold zlen in E; cbn in E; lia].
    rewrite app_nil_r. replace (zlen xs + zlen (@nil A)) with (zlen xs) by (unfold zlen; cbn; lia). exact HR1.
Qed.

Lemma mul_loop_rep l xs : Rep l xs ->
  forall n i d cp total acc, Rep (mkList d (zlen acc) cp) acc -> zlen acc = i * zlen xs ->
  zlen acc + Z.of_nat n * zlen xs <= zlen d -> total = zlen acc + Z.of_nat n * zlen xs ->
  exists d', mul_loop n i (zlen xs) d (data l) = Ok d' /\
             Rep (mkList d' total cp) (acc ++ concat (repeat xs n)).
Proof.
  intros (H1 & H2 & H3 & H4). induction n as [|n IH]; intros i d cp total acc HRa Hacc Hb Ht; cbn [mul_loop].
  - exists d. split; [reflexivity|]. cbn. rewrite app_nil_r. replace total with (zlen acc) by lia. assumption.
  - pose proof (zlen_nonneg xs). pose proof (zlen_nonneg acc).
    rewrite <- Hacc.
    destruct (blit_spec d (data l) (zlen acc) 0 (zlen xs)) as (d1 & E1 & L1 & _); try (unfold zlen in *; lia).
    rewrite E1. cbn [bindr orUB].
    pose proof (blit_append_rep (mkList d (zlen acc) cp) acc d1 (data l) xs HRa H4) as HR1. cbn [data cap] in HR1.
    destruct (IH (i + 1) d1 cp total (acc ++ xs)) as (d' & E & HR').
    + rewrite zlen_app. apply HR1; try assumption. lia.
    + rewrite zlen_app. lia.
    + rewrite zlen_app. unfold zlen in *. lia.
    + rewrite zlen_app. lia.
    + exists d'. split; [exact E|]. cbn [repeat concat]. rewrite app_assoc. exact HR'.
Qed.

Lemma mul_rep l xs n :
  Rep l xs -> zlen xs * n <= 2 ^ 30 ->
  exists r, list_mul l n = Ok r /\ Rep r (concat (repeat xs (Z.to_nat n))).
Proof.
  intros HR Hb. pose proof HR as (H1 & _). pose proof (zlen_nonneg xs). unfold list_mul. rewrite H1.
  destruct ((zlen xs =? 0) || (n <=? 0)) eqn:E.
  - destruct (list_new_rep 0) as (r & -> & HRr & _); [lia|]. exists r. split; [reflexivity|].
    replace (concat (repeat xs (Z.to_nat n))) with (@nil A); [assumption|].
    destruct (n <=? 0) eqn:E2.
    + replace (Z.to_nat n) with 0%nat by lia. reflexivity.
    + destruct xs; [|unfold zlen in E; cbn in E; lia].
      induction (Z.to_nat n) as [|m IH]; cbn; auto.
  - assert (0 < zlen xs * n) by nia.
    rewrite wrapS_id by (try (unfold inS; change (2 ^ (32 - 1)) with (2 * 2 ^ 30)); lia).
    destruct (list_new_rep (zlen xs * n)) as (r & -> & HRr & Lr & _); [lia|]. cbn [bindr].
    destruct (mul_loop_rep l xs HR (Z.to_nat n) 0 (data r) (cap r) (zlen xs * n) []) as (d & -> & HRd).
    + destruct HRr as (R1 & R2 & R3 & R4). repeat split; cbn; try assumption; try lia.
    + unfold zlen; cbn; lia.
    + unfold zlen in *; cbn [length]. nia.
    + unfold zlen; cbn [length]. nia.
    + cbn [bindr]. eauto.
Qed.

Lemma step_rep (eqb : A -> A -> bool) l xs op :
  Rep l xs -> small xs -> op_ok xs op -> small (snd (list_spec eqb xs op)) ->
  fst (list_step eqb l op) = fst (list_spec eqb xs op) /\
  Rep (snd (list_step eqb l op)) (snd (list_spec eqb xs op)).
Proof.
  intros HR Hs Hok Hs'. destruct op; cbn [list_step op_ok] in *.
  - (* Append *) cbn [list_spec fst snd] in *.
    destruct (append_rep l xs x HR) as (l' & -> & HR').
    { unfold small in Hs'. rewrite zlen_app in Hs'. exact Hs'. }
    cbn. auto.
  - (* Insert *) cbn [list_spec fst snd] in *.
    destruct (insert_rep l xs n x HR) as (l' & -> & HR').
    { unfold small, zlen in *. rewrite app_length in Hs'. cbn [length] in Hs'.
      rewrite firstn_length, skipn_length in Hs'. lia. }
    cbn. auto.
  - (* Pop *) pose proof (pop_rep l xs i HR) as H.
    change (list_spec eqb xs (Pop i)) with (list_spec (fun _ _ : A => false) xs (Pop i)).
    destruct (list_spec (fun _ _ => false) xs (Pop i)) as [[v|e| |] xs'].
    + destruct v; try contradiction. destruct H as (l' & -> & HR'). cbn. auto.
    + destruct H as (-> & ->). cbn. auto.
    + contradiction.
    + contradiction.
  - (* Extend *) cbn [list_spec fst snd] in *.
    destruct (list_of_rep ys Hok) as (o & -> & HRo). cbn [bindr].
    destruct (extend_rep l xs o ys HR HRo) as (l' & -> & HR').
    { unfold small in Hs'. rewrite zlen_app in Hs'. exact Hs'. }
    cbn. auto.
  - (* ExtendSelf *) cbn [list_spec fst snd] in *.
    destruct (extend_self_rep l xs HR) as (l' & -> & HR').
    { unfold small in Hs'. rewrite zlen_app in Hs'. exact Hs'. }
    cbn. auto.
  - (* Clear *) cbn. split; [reflexivity|apply empty_rep].
  - (* Reverse *) destruct (reverse_rep l xs HR) as (l' & -> & HR'). cbn. auto.
  - (* GetItem *) rewrite (getitem_rep l xs n HR Hok). cbn [list_spec].
    destruct (position xs n) as [p|]; [destruct (nth_error xs p)|]; cbn; auto.
  - (* SetItem *) pose proof (setitem_rep l xs n x HR Hok) as H. cbn [list_spec].
    destruct (position xs n) as [p|]; [destruct H as (l' & -> & HR')|rewrite H]; cbn; auto.
  - (* DelItem *) destruct Hok as [Hn Hp]. cbn [list_spec].
    destruct (position xs n) as [p|] eqn:E; [|contradiction].
    destruct (delitem_rep l xs n p HR Hn E) as (l' & -> & HR'). cbn. auto.
  - (* GetSlice *) pose proof (getslice_rep l xs s HR Hs Hok) as H. cbn [list_spec fst snd].
    unfold obs. cbn [fst snd]. destruct (py_slice xs s) as [ys|e| |].
    + destruct H as (r & -> & HRr). cbn [bindr]. rewrite (contents_rep r ys HRr). cbn. auto.
    + rewrite H. cbn. auto.
    + contradiction.
    + contradiction.
  - (* SetSlice *) destruct Hok as [Hok Hys].
    destruct (list_of_rep ys Hys) as (o & -> & HRo). cbn [bindr].
    destruct (Z.eq_dec (step_of s) 1) as [H1|H1].
    + assert (E : list_spec eqb xs (SetSlice s ys) = (Ok VUnit, replace_segment xs (sl_start s) (sl_stop s) ys)).
      { cbn [list_spec]. unfold step_of in H1. destruct (sl_step s); [subst|]; reflexivity. }
      rewrite E in *. cbn [fst snd] in *.
      destruct (setslice_seg_rep l xs s o ys HR HRo Hs H1 Hs') as (l' & -> & HR'). cbn. auto.
    + pose proof (setslice_ext_rep l xs s o ys HR HRo Hs Hok H1) as H.
      assert (E : list_spec eqb xs (SetSlice s ys) =
         match select (length xs) s with
         | None => (Exn ValueError, xs)
         | Some ps => if Nat.eqb (length ps) (length ys) then (Ok VUnit, assign xs ps ys) else (Exn ValueError, xs)
         end).
      { cbn [list_spec]. unfold step_of in H1. destruct (sl_step s) as [k|]; [|lia].
        destruct k as [|[p|p|]|p]; try reflexivity. lia. }
      rewrite E. destruct (select (length xs) s) as [ps|].
      * destruct (Nat.eqb (length ps) (length ys)).
        -- destruct H as (l' & -> & HR'). cbn. auto.
        -- rewrite H. cbn. auto.
      * rewrite H. cbn. auto.
  - (* DelSlice *) pose proof (delslice_rep l xs s HR Hok) as H. cbn [list_spec].
    destruct (select (length xs) s) as [ps|].
    + destruct H as (l' & -> & HR'). cbn. auto.
    + rewrite H. cbn. auto.
  - (* Len *) pose proof HR as (H1 & _). cbn. rewrite H1. auto.
  - (* Contains *) rewrite (contains_rep eqb l xs v HR). cbn. auto.
  - (* Count *) rewrite (count_rep eqb l xs v HR). cbn. auto.
  - (* Index *) destruct Hok as [Ha Hb]. cbn [fst snd]. rewrite (index_rep eqb l xs v start stop HR Ha Hb).
    split; [reflexivity|]. cbn [list_spec].
    destruct ((_ <? 0) || _ || _); [assumption|].
    destruct (find_first _ _ _ _); assumption.
  - (* Copy *) destruct (copy_rep l xs HR) as (r & E & HRr). unfold obs. rewrite E. cbn [bindr].
    rewrite (contents_rep r xs HRr). cbn. auto.
  - (* Add *) destruct (list_of_rep ys) as (o & -> & HRo).
    { unfold small. pose proof (zlen_nonneg xs). lia. }
    destruct (add_rep l xs o ys HR HRo Hok) as (r & E & HRr). unfold obs. cbn [bindr]. rewrite E. cbn [bindr].
    rewrite (contents_rep r _ HRr). cbn. auto.
  - (* Mul *) destruct (mul_rep l xs n HR Hok) as (r & E & HRr). unfold obs. rewrite E. cbn [bindr].
    rewrite (contents_rep r _ HRr). cbn. auto.
Qed.

Lemma run_rep (eqb : A -> A -> bool) ops : forall l xs,
  Rep l xs -> small xs -> history_ok eqb xs ops ->
  fst (run_list eqb l ops) = fst (run_spec eqb xs ops) /\
  Rep (snd (run_list eqb l ops)) (snd (run_spec eqb xs ops)).
Proof.
  induction ops as [|op ops IH]; intros l xs HR Hs Hok; cbn [run_list run_spec].
  - auto.
  - destruct Hok as (Hop & Hsm & Hrest).
    destruct (step_rep eqb l xs op HR Hs Hop Hsm) as [E1 E2].
    destruct (list_step eqb l op) as [o l1]. destruct (list_spec eqb xs op) as [o' xs1].
    cbn [fst snd] in *. specialize (IH l1 xs1 E2 Hsm Hrest).
    destruct (run_list eqb l1 ops). destruct (run_spec eqb xs1 ops). cbn [fst snd] in *.
    destruct IH as [-> ?]. subst. auto.
Qed.
End P.

(** Proofs about the database's queues. *)
From Verif Require Import Base P_Base P_VClock P_Bmh M_Skiplist P_Skiplist P_Skiplist2 P_Skiplist3 M_Queue S_Queue.
Require Import Sorted.

Definition kv (e : ent) : Z * Z := (ek e, ev e).

(** ** Numbered lists. *)
Lemma number_app : forall a b i, number i (a ++ b) = number i a ++ number (i + zlen a) b.
Proof.
  induction a as [|x a IH]; intros b i; cbn [number app].
  - change (zlen (@nil Z)) with 0. now rewrite Z.add_0_r.
  - rewrite IH, zlen_cons. do 3 f_equal. lia.
Qed.

Lemma number_len : forall l i, zlen (number i l) = zlen l.
Proof. induction l; intros; [easy|]. cbn [number]. now rewrite !zlen_cons, IHl. Qed.

Lemma number_snd : forall l i, map snd (number i l) = l.
Proof. induction l; intros; cbn [number map snd]; f_equal; auto. Qed.

Lemma number_lo : forall l i e, In e (number i l) -> i <= fst e < i + zlen l.
Proof.
  induction l as [|x l IH]; intros i e J; [easy|]. rewrite zlen_cons. pose proof (zlen_nn l). destruct J as [<-|J]; cbn [fst]; [lia|].
  apply IH in J. lia.
Qed.

Lemma number_sorted : forall l i, StronglySorted Z.lt (map fst (number i l)).
Proof.
  induction l as [|x l IH]; intros i; cbn [number map]; constructor; auto.
  apply Forall_forall. intros k J. apply in_map_iff in J. destruct J as (e & <- & J). apply number_lo in J. cbn [fst]. lia.
Qed.

(** A sorted list is determined by what is looked up in it. *)
Definition lk (l : list (Z * Z)) (k : Z) : option Z := option_map snd (find (fun e => fst e =? k) l).

Lemma mp_lk : forall es k, mp es k = lk (map kv es) k.
Proof. unfold mp, lk. induction es as [|e es IH]; intros k; [easy|]. cbn [find map kv fst]. destruct (ek e =? k); [easy|auto]. Qed.

Lemma lk_cons : forall k v l j, lk ((k, v) :: l) j = if k =? j then Some v else lk l j.
Proof. intros. unfold lk. cbn [find fst]. now destruct (k =? j). Qed.

Lemma lk_above : forall l k, Forall (Z.lt k) (map fst l) -> lk l k = None.
Proof.
  induction l as [|[i v] l IH]; intros k F; [easy|]. cbn [map fst] in F. apply Forall_cons_iff in F. destruct F as (A & B). rewrite lk_cons.
  replace (i =? k) with false by lia. auto.
Qed.

Lemma lk_in : forall l k, lk l k = None -> forall v, ~ In (k, v) l.
Proof.
  induction l as [|[i w] l IH]; intros k H v; [easy|]. rewrite lk_cons in H. destruct (Z.eqb_spec i k); [discriminate|].
  intros [J|J]; [congruence|]. eapply IH; eauto.
Qed.

Lemma sorted_unique : forall a b, StronglySorted Z.lt (map fst a) -> StronglySorted Z.lt (map fst b) ->
  (forall k, lk a k = lk b k) -> a = b.
Proof.
  induction a as [|[i v] a IH]; intros [|[j w] b] SA SB E; auto.
  - specialize (E j). rewrite lk_cons, Z.eqb_refl in E. discriminate.
  - specialize (E i). rewrite lk_cons, Z.eqb_refl in E. discriminate.
  - cbn [map fst] in *. apply StronglySorted_inv in SA, SB. destruct SA as (SA & FA), SB as (SB & FB).
    assert (L : forall (x y : Z) (l : list Z), x < y -> Forall (Z.lt y) l -> Forall (Z.lt x) l).
    { intros x y l H F. eapply Forall_impl; [|exact F]. cbn. lia. }
    assert (i = j) as <-.
    { destruct (Z.lt_trichotomy i j) as [H|[H|H]]; auto.
      - specialize (E i). rewrite !lk_cons, Z.eqb_refl in E. replace (j =? i) with false in E by lia.
        rewrite lk_above in E by (eapply L; eauto). discriminate.
      - specialize (E j). rewrite !lk_cons, Z.eqb_refl in E. replace (i =? j) with false in E by lia.
        rewrite lk_above in E by (eapply L; eauto). discriminate. }
    pose proof (E i) as E0. rewrite !lk_cons, Z.eqb_refl in E0. injection E0 as <-.
    f_equal. apply IH; auto. intros k. specialize (E k). rewrite !lk_cons in E. destruct (Z.eqb_spec i k) as [EK|]; [subst k|exact E].
    now rewrite !lk_above.
Qed.

Lemma lk_app : forall a b k, lk (a ++ b) k = match lk a k with Some v => Some v | None => lk b k end.
Proof. induction a as [|[i v] a IH]; intros; [easy|]. cbn [app]. rewrite !lk_cons, IH. now destruct (i =? k). Qed.

Lemma lk_number_out : forall l i k, ~ (i <= k < i + zlen l) -> lk (number i l) k = None.
Proof.
  induction l as [|x l IH]; intros i k H; [easy|]. rewrite zlen_cons in H. pose proof (zlen_nn l). cbn [number]. rewrite lk_cons.
  replace (i =? k) with false by lia. apply IH. lia.
Qed.

(** ** The entries. *)
Definition rows (log : list Z) : list (Z * Z) := (-2, 0) :: number 0 log.

Lemma rows_sorted : forall log, StronglySorted Z.lt (map fst (rows log)).
Proof.
  intros. unfold rows. cbn [map fst]. constructor; [apply number_sorted|]. apply Forall_forall. intros k J.
  apply in_map_iff in J. destruct J as (e & <- & J). apply number_lo in J. lia.
Qed.

Definition CI (l : slist) (log : list Z) : Prop := exists hd es, ok (-2) l hd es /\ map kv es = rows log.

Lemma kv_fst : forall es, map fst (map kv es) = map ek es.
Proof. intros. rewrite map_map. reflexivity. Qed.

Lemma put_ok : forall l log v seed, CI l log -> zlen log < CAPACITY ->
  exists l' seed', insert l (zlen log) v seed = Ok (l', seed') /\ CI l' (log ++ [v]).
Proof.
  intros l log v seed (hd & es & O & E) C. pose proof (zlen_nn log) as N. unfold CAPACITY in C.
  destruct (insert_ok (-2) l hd es (zlen log) v seed O) as (l' & seed' & es' & EI & O' & M).
  { unfold inw. lia. } { unfold LONG_MAX. lia. }
  exists l', seed'. split; auto. exists hd, es'. split; auto.
  apply sorted_unique.
  - rewrite kv_fst. apply (i_sort _ _ _ (proj1 O')).
  - apply rows_sorted.
  - intros k. rewrite <- mp_lk, M, mp_lk, E. unfold rows. rewrite number_app, app_comm_cons, lk_app.
    cbn [number]. rewrite Z.add_0_l. rewrite !lk_cons. destruct (Z.eqb_spec k (zlen log)) as [->|Hk].
    + replace (-2 =? zlen log) with false by lia. rewrite lk_number_out by lia. now rewrite Z.eqb_refl.
    + replace (zlen log =? k) with false by lia. cbn [lk find option_map]. destruct (-2 =? k); [easy|]. now destruct (lk (number 0 log) k).
Qed.

Fixpoint upto (b : Z) (l : list (Z * Z)) : list (Z * Z) :=
  match l with
  | [] => []
  | e :: t => match t with [] => [e] | _ => if fst e <? b then e :: upto b t else [e] end
  end.

Lemma fwd_next : forall l hd es P e Q, ok (-2) l hd es -> hd :: es = P ++ e :: Q -> fwd l (ea e) 0 = Ok (option_map ea (hd_error Q)).
Proof.
  intros l hd es P e Q [I W] E.
  rewrite (fwd_at _ hd es I P e Q 0 E).
  - rewrite (ft_zero _ hd es I) by (apply (tail_in _ _ _ _ _ E)). easy.
  - assert (J : In e (hd :: es)) by (rewrite E; apply in_elt).
    unfold tall. apply Nat.ltb_lt. destruct J as [<-|J]; [destruct (i_hd _ _ _ I) as (_ & _ & ->); unfold MAX_LEVEL; lia|].
    pose proof (i_h _ _ _ I e J). lia.
Qed.

Lemma collect_ok : forall l hd es b, ok (-2) l hd es -> forall Q P e fuel, es = P ++ e :: Q -> (length Q < fuel)%nat ->
  collect fuel l (ea e) b = Ok (upto b (map kv (e :: Q))).
Proof.
  intros l hd es b O. induction Q as [|y Q IH]; intros P e fuel E L; (destruct fuel as [|fuel]; [lia|]); cbn [collect].
  all: assert (J : In e es) by (rewrite E; apply in_elt).
  all: destruct (node_in (-2) l hd es O e (or_intror J)) as (f & ->); cbn [bindr skey sval].
  all: rewrite (fwd_next l hd es (hd :: P) e _ O) by (rewrite E; reflexivity); cbn [bindr hd_error option_map map upto].
  - easy.
  - change (fst (kv e)) with (ek e). destruct (ek e <? b); [|easy].
    rewrite (IH (P ++ [e])) by (try (rewrite E, <- app_assoc; reflexivity); cbn [length] in L; lia). reflexivity.
Qed.

(** The entries from [a] on. *)
Lemma range_gen : forall l log a0 a b, CI l log -> a0 = a \/ (a0 = -1 /\ a = 0) -> 0 <= a < zlen log -> zlen log <= CAPACITY ->
  range_search l a0 b = Ok (upto b (number a (skipn (Z.to_nat a) log))).
Proof.
  intros l log a0 a b (hd & es & O & E) A0 A C. unfold range_search.
  destruct (higher_ok (-2) l hd es O a0) as (p & ES & HP). { unfold inw, CAPACITY in *. lia. }
  rewrite ES. cbn [bindr].
  assert (SP : exists P e Q, es = P ++ e :: Q /\ map kv (e :: Q) = number a (skipn (Z.to_nat a) log) /\ map kv P = (-2, 0) :: number 0 (firstn (Z.to_nat a) log)).
  { assert (LF : zlen (firstn (Z.to_nat a) log) = a) by (unfold zlen in *; rewrite firstn_length; lia).
    assert (X : map kv es = ((-2, 0) :: number 0 (firstn (Z.to_nat a) log)) ++ number a (skipn (Z.to_nat a) log)).
    { rewrite E. unfold rows. rewrite <- (firstn_skipn (Z.to_nat a) log) at 1. rewrite number_app, LF. reflexivity. }
    apply map_eq_app in X. destruct X as (P & R & EP & E1 & E2).
    destruct R as [|e Q].
    { exfalso. assert (Y : zlen (number a (skipn (Z.to_nat a) log)) = 0) by (now rewrite <- E2).
      rewrite number_len in Y. unfold zlen in *. rewrite skipn_length in Y. lia. }
    exists P, e, Q. auto. }
  destruct SP as (P & e & Q & EP & EQ & E1).
  assert (KE : ek e = a).
  { destruct (skipn (Z.to_nat a) log) as [|v t]; [discriminate|]. cbn [map number] in EQ. unfold kv at 1 in EQ. congruence. }
  assert (LL : (length Q < S (snext l))%nat).
  { pose proof (es_length l hd es (proj1 O)) as L. rewrite EP in L. rewrite app_length in L. cbn [length] in L. lia. }
  destruct p as [x|].
  - destruct HP as (e' & J & <- & K & MIN).
    assert (e' = e) as ->.
    { assert (ek e' = a).
      { specialize (MIN e). rewrite KE in MIN. assert (ek e' <= a) by (apply MIN; [rewrite EP; apply in_elt|lia]).
        destruct A0 as [->|[-> ->]]; [lia|]. destruct (Z.eq_dec (ek e') (-1)) as [X|]; [|lia].
        assert (JJ : In (kv e') (rows log)) by (rewrite <- E; now apply in_map).
        destruct JJ as [JJ|JJ]; [unfold kv in JJ; congruence|]. apply number_lo in JJ. cbn [kv fst] in JJ. lia. }
      pose proof (i_sort _ _ _ (proj1 O)) as SS. rewrite EP in SS, J. apply sorted_app in SS. destruct SS as (_ & S2 & S3).
      apply in_app_or in J. destruct J as [J|[J|J]]; auto.
      - specialize (S3 e' e J (or_introl eq_refl)). lia.
      - cbn [map] in S2. apply StronglySorted_inv in S2. destruct S2 as (_ & S2). rewrite Forall_forall in S2.
        specialize (S2 (ek e') (in_map ek _ _ J)). lia. }
    rewrite (collect_ok l hd es b O Q P e _ EP LL). now rewrite EQ.
  - exfalso. specialize (HP e). rewrite EP in HP. specialize (HP (in_elt _ _ _)). lia.
Qed.

Lemma range_ok : forall l log a b, CI l log -> 0 <= a < zlen log -> zlen log <= CAPACITY ->
  range_search l a b = Ok (upto b (number a (skipn (Z.to_nat a) log))).
Proof. intros. apply range_gen; auto. Qed.

Lemma upto_number : forall l i b, i <= b < i + zlen l -> upto b (number i l) = number i (firstn (Z.to_nat (b - i + 1)) l).
Proof.
  induction l as [|v l IH]; intros i b H; [change (zlen (@nil Z)) with 0 in H; lia|]. rewrite zlen_cons in H.
  replace (Z.to_nat (b - i + 1)) with (S (Z.to_nat (b - i))) by lia. cbn [number firstn]. 
  destruct l as [|w l].
  - cbn [number upto]. now rewrite firstn_nil.
  - set (t := w :: l) in *. cbn [number upto]. change (number (i + 1) t) with ((i + 1, w) :: number (i + 1 + 1) l).
    cbv iota. change ((i + 1, w) :: number (i + 1 + 1) l) with (number (i + 1) t). cbn [fst].
    destruct (Z.ltb_spec i b).
    + rewrite IH by lia. do 4 f_equal. lia.
    + replace (Z.to_nat (b - i)) with 0%nat by lia. reflexivity.
Qed.

Lemma fetch_ok : forall q log from max, CI (qcells q) log -> qn q = zlen log -> zlen log <= CAPACITY ->
  -1 <= from < zlen log - 1 -> 1 <= max ->
  let new := Z.min (from + max) (zlen log - 1) in
  fetch q from max = Ok (if new =? zlen log - 1 then READ_COMPLETE else READ_INCOMPLETE, new,
                         number (from + 1) (firstn (Z.to_nat (new - from)) (skipn (Z.to_nat (from + 1)) log))).
Proof.
  intros q log from max C N CP F M new. unfold fetch. rewrite N.
  assert (EN : min (from + max) (zlen log - 1) = new) by (unfold min, new; destruct (from + max <? zlen log - 1) eqn:?; lia).
  rewrite EN. rewrite (range_ok _ log) by (auto; lia). cbn [bindr].
  assert (L : zlen (skipn (Z.to_nat (from + 1)) log) = zlen log - (from + 1)) by (unfold zlen in *; rewrite skipn_length; lia).
  rewrite upto_number by lia. replace (new - (from + 1) + 1) with (new - from) by lia.
  rewrite number_len.
  assert (L2 : zlen (firstn (Z.to_nat (new - from)) (skipn (Z.to_nat (from + 1)) log)) = new - from).
  { unfold zlen in *. rewrite firstn_length. lia. }
  rewrite L2. unfold assert. replace (new - from =? new - from) with true by lia. reflexivity.
Qed.

(** ** Subscribers. *)
Lemma clook_set : forall l c x c', clook (cset l c x) c' = if c' =? c then Some x else clook l c'.
Proof.
  induction l as [|[k y] l IH]; intros c x c'; cbn [cset clook].
  - rewrite Z.eqb_sym. reflexivity.
  - destruct (Z.eqb_spec k c) as [->|N]; cbn [clook].
    + rewrite (Z.eqb_sym c c'). now destruct (c' =? c).
    + rewrite IH. destruct (Z.eqb_spec k c') as [->|]; auto. now replace (c' =? c) with false by lia.
Qed.

Lemma clook_none : forall l c, ~ In c (map fst l) <-> clook l c = None.
Proof.
  induction l as [|[k y] l IH]; intros c; cbn [clook map fst In]; [tauto|]. destruct (Z.eqb_spec k c).
  - split; [tauto|discriminate].
  - rewrite <- IH. tauto.
Qed.

Lemma cset_ids : forall l c x, map fst (cset l c x) = if existsb (Z.eqb c) (map fst l) then map fst l else map fst l ++ [c].
Proof.
  induction l as [|[k y] l IH]; intros c x; cbn [cset map fst existsb]; [easy|].
  rewrite (Z.eqb_sym c k). destruct (k =? c); cbn [map fst orb]; [easy|]. rewrite IH. now destruct (existsb (Z.eqb c) (map fst l)).
Qed.

Lemma cset_nodup : forall l c x, NoDup (map fst l) -> NoDup (map fst (cset l c x)).
Proof.
  intros l c x N. rewrite cset_ids. destruct (existsb (Z.eqb c) (map fst l)) eqn:E; auto.
  apply NoDup_rev in N. rewrite <- (rev_involutive (map fst l ++ [c])), rev_app_distr. apply NoDup_rev. cbn [rev app]. constructor; auto.
  rewrite <- in_rev. intros J. assert (existsb (Z.eqb c) (map fst l) = true); [|congruence].
  apply existsb_exists. exists c. split; auto. apply Z.eqb_refl.
Qed.

Lemma clook_del : forall l c c', NoDup (map fst l) -> clook (cdel l c) c' = if c' =? c then None else clook l c'.
Proof.
  induction l as [|[k y] l IH]; intros c c' N; cbn [cdel clook]; [now destruct (c' =? c)|].
  cbn [map fst] in N. inversion N as [|? ? A B]; subst. destruct (Z.eqb_spec k c) as [->|NE].
  - destruct (Z.eqb_spec c' c) as [->|]; [now apply clook_none|]. now replace (c =? c') with false by lia.
  - cbn [clook]. rewrite IH by auto. destruct (Z.eqb_spec k c') as [->|]; auto. now replace (c' =? c) with false by lia.
Qed.

Lemma cdel_ids : forall l c k, In k (map fst (cdel l c)) -> In k (map fst l).
Proof.
  induction l as [|[i y] l IH]; intros c k; cbn [cdel map fst]; [easy|]. destruct (i =? c); [now right|].
  cbn [map fst]. intros [J|J]; [now left|]. right. eauto.
Qed.

Lemma cdel_nodup : forall l c, NoDup (map fst l) -> NoDup (map fst (cdel l c)).
Proof.
  induction l as [|[i y] l IH]; intros c N; cbn [cdel map fst]; auto. cbn [map fst] in N. inversion N; subst.
  destruct (i =? c); auto. cbn [map fst]. constructor; auto. intros J. apply cdel_ids in J. auto.
Qed.

Lemma told_look : forall l up c, NoDup (map fst l) ->
  clook (fst (notify_subscribers l up)) c =
    option_map (fun x => if negb (ntf x) && up c then Cons (rdh x) (csh x) true else x) (clook l c)
  /\ existsb (Z.eqb c) (snd (notify_subscribers l up)) = match clook l c with Some x => negb (ntf x) && up c | None => false end.
Proof.
  unfold notify_subscribers. cbn [fst snd]. induction l as [|[k y] l IH]; intros up c N; [easy|].
  cbn [map fst] in N. inversion N as [|? ? A B]; subst. destruct (IH up c B) as (I1 & I2). cbn [map clook fst snd filter].
  unfold notify_one at 1 3. cbn [fst snd]. destruct (Z.eqb_spec k c) as [->|NE].
  - split; [reflexivity|]. 
    assert (X : existsb (Z.eqb c) (map fst (filter (notify_one up) l)) = false).
    { rewrite I2. apply clook_none in A. now rewrite A. }
    destruct (negb (ntf y) && up c); cbn [map fst existsb]; [now rewrite Z.eqb_refl|auto].
  - split; [exact I1|]. destruct (negb (ntf y) && up k); cbn [map fst existsb]; rewrite I2; auto.
    now replace (c =? k) with false by lia.
Qed.

Lemma told_ids : forall l up, map fst (fst (notify_subscribers l up)) = map fst l.
Proof. intros. unfold notify_subscribers. cbn [fst]. rewrite map_map. apply map_ext. easy. Qed.

Lemma nodup_filter : forall (f : Z * cons -> bool) l, NoDup (map fst l) -> NoDup (map fst (filter f l)).
Proof.
  induction l as [|e l IH]; intros N; cbn [filter map]; auto. cbn [map] in N. inversion N as [|? ? A B]; subst.
  destruct (f e); auto. cbn [map]. constructor; auto. intros J. apply A. apply in_map_iff in J. destruct J as (x & E & J).
  apply filter_In in J. rewrite <- E. apply in_map. tauto.
Qed.

(** ** The invariant. *)
Definition Sub (n : Z) (log : list Z) (o : option cons) (sub : bool) (sn : list Z) (con : Z) (nt : bool) : Prop :=
  match o with
  | None => sub = false /\ sn = [] /\ con = -1 /\ nt = false
  | Some x => sub = true /\ sn = firstn (Z.to_nat (rdh x + 1)) log /\ -1 <= rdh x <= zlen log - 1 /\ csh x = con
              /\ -1 <= con <= rdh x /\ ntf x = nt /\ (nt = true -> rdh x < n - 1)
  end.

Record QI (q : queue) (tr : list event) : Prop := mkQI {
  q_n : qn q = zlen (entered tr);
  q_c : CI (qcells q) (entered tr);
  q_d : NoDup (map fst (qcons q));
  q_s : forall c, Sub (qn q) (entered tr) (clook (qcons q) c) (subscribed c tr) (seen c tr) (consumed c tr) (notified c tr) }.

Lemma entered_app : forall a b, entered (a ++ b) = entered a ++ entered b.
Proof.
  induction a as [|[[o r] t] a IH]; intros b; [easy|]. cbn [app entered]. destruct o; auto. cbn [app]. now rewrite IH.
Qed.

Lemma init_ok : forall junk seed, exists q seed', create_queue junk seed = Ok (q, seed') /\ QI q [].
Proof.
  intros. unfold create_queue.
  destruct (insert_ok (-2) (create junk) _ [] (-2) 0 seed (create_ok (-2) junk)) as (l & seed' & es & E & O & M).
  { unfold inw. lia. } { unfold LONG_MAX. lia. }
  rewrite E. cbn [bindr]. eexists _, seed'. split; [reflexivity|]. constructor; cbn [qn qcells qcons]; auto.
  - eexists _, es. split; [exact O|]. apply sorted_unique; [rewrite kv_fst; apply (i_sort _ _ _ (proj1 O))|apply rows_sorted|].
    intros k. rewrite <- mp_lk, M. unfold rows. cbn [entered number]. rewrite lk_cons, Z.eqb_sym. reflexivity.
  - constructor.
  - intros c. cbn. auto.
Qed.

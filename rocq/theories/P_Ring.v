(** Proofs about the placement ring. *)
From Verif Require Import Base P_Base P_VClock P_SerBytes P_Dict M_Skiplist P_Skiplist P_Skiplist2 P_Skiplist3 M_Hash32 T_Hash32 M_Ring S_Ring.
Require Import Sorted.

Lemma place_inj : forall a b, inS 32 a -> inS 32 b -> place a = place b -> a = b.
Proof.
  intros a b A B E. unfold place in E. apply C41_collision_free in E; try apply wrap_range.
  rewrite <- (wrapS_wrapU32 a), <- (wrapS_wrapU32 b), E; auto.
Qed.

Lemma place_ok : forall a, place a <> LONG_MAX.
Proof. intros a. pose proof (C41_range (wrapU 32 a)) as H. unfold place, inU, LONG_MAX in *. lia. Qed.

(** ** Counting. *)
Lemma count_ext : forall m m' n, (forall id, live m id <-> live m' id) -> live_count m n -> live_count m' n.
Proof.
  intros m m' n E (ids & N & I & L). exists ids. split; [auto|split; [|auto]].
  intros id. rewrite I. apply E.
Qed.

Lemma live_with : forall m id st k, live (with_server m id st) k <-> (if k =? id then st = BUCKET_LIVE else live m k).
Proof. intros. unfold live, with_server. destruct (k =? id); [|tauto]. split; congruence. Qed.

Lemma count_up : forall m id n, ~ live m id -> live_count m n -> live_count (with_server m id BUCKET_LIVE) (n + 1).
Proof.
  intros m id n H (ids & N & I & L). exists (id :: ids). split; [|split].
  - constructor; auto. now rewrite I.
  - intros k. rewrite live_with. cbn [In]. rewrite I. destruct (Z.eqb_spec k id); [subst; tauto|].
    split; [intros [A|A]; [congruence|auto]|auto].
  - rewrite zlen_cons. lia.
Qed.

Lemma count_down : forall m id st n, live m id -> st <> BUCKET_LIVE -> live_count m n ->
  live_count (with_server m id st) (n - 1).
Proof.
  intros m id st n H ST (ids & N & I & L). 
  assert (J : In id ids) by (now apply I). apply in_split in J. destruct J as (A & B & ->).
  exists (A ++ B). split; [|split].
  - now apply NoDup_remove_1 in N.
  - intros k. rewrite live_with. destruct (Z.eqb_spec k id) as [->|NE].
    + split; [|easy]. intros J. now apply NoDup_remove_2 in N.
    + rewrite <- I, !in_app_iff. cbn [In]. split; [tauto|]. intros [?|[?|?]]; auto. congruence.
  - rewrite zlen_app, zlen_cons in L. rewrite zlen_app. lia.
Qed.

Lemma count_unique : forall m a b, live_count m a -> live_count m b -> a = b.
Proof.
  intros m a b (x & NX & IX & <-) (y & NY & IY & <-). unfold zlen. f_equal.
  apply Nat.le_antisymm; apply NoDup_incl_length; auto; intros z; rewrite IX, IY; auto.
Qed.

Lemma count_zero : forall m n, live_count m n -> n = 0 -> forall id, ~ live m id.
Proof. intros m n (ids & N & I & L) -> id H. apply I in H. destruct ids; [easy|]. rewrite zlen_cons in L. pose proof (zlen_nn _ ids). lia. Qed.

Lemma count_pos : forall m n, live_count m n -> n <> 0 -> 0 < n /\ exists id, live m id.
Proof.
  intros m n (ids & N & I & L) H. destruct ids as [|i ids]; [now subst|]. rewrite zlen_cons in L. pose proof (zlen_nn _ ids).
  split; [lia|]. exists i. apply I. now left.
Qed.

Section Ring.
  Variable lo : Z.

  Record RI (r : ring) (m : servers) (hd : ent) (es : list ent) : Prop := mkRI {
    ri_ok : ok lo (rbuckets r) hd es;
    ri_b : forall k b, mp es k = Some b -> exists id st, zget (rmem r) b = Some (id, st) /\ place id = k /\ inS 32 id
             /\ (st = BUCKET_LIVE \/ st = BUCKET_DEAD);
    ri_m : forall id, inS 32 id -> m id = match mp es (place id) with
                                        | None => None
                                        | Some b => option_map snd (zget (rmem r) b)
                                        end;
    ri_out : forall id, ~ inS 32 id -> m id = None;
    ri_n : live_count m (rlive r) }.

  Definition opok (o : rop) : Prop :=
    match o with
    | RAdd id st | RSet id st => inS 32 id /\ inw lo (place id) /\ (st = BUCKET_LIVE \/ st = BUCKET_DEAD)
    | RStatus id => inS 32 id /\ inw lo (place id)
    | RLocate x f => inw lo (place x) /\ 1 <= f
    end.

  Lemma init_ok : forall junk, RI (get_hash_ring junk) (fun _ => None) (Ent HDR LONG_MAX junk MAX_LEVEL) [].
  Proof.
    intros. constructor; cbn; auto.
    - apply create_ok.
    - discriminate.
    - exists []. split; [constructor|split; [|easy]]. intros; split; [easy|discriminate].
  Qed.

  Lemma mp_of_in : forall l hd es e, ok lo l hd es -> In e es -> mp es (ek e) = Some (ev e).
  Proof.
    intros l hd es e [I _] J. apply in_split in J. destruct J as (A & B & E).
    pose proof (i_sort _ _ _ I) as S. rewrite E in S. apply sorted_app in S. destruct S as (_ & _ & S).
    rewrite E, mp_app, mp_none, mp_cons, Z.eqb_refl; auto.
    intros x Jx. specialize (S x e Jx (or_introl eq_refl)). lia.
  Qed.

  Lemma in_of_mp : forall es k b, mp es k = Some b -> exists e, In e es /\ ek e = k /\ ev e = b.
  Proof.
    intros es k b H. unfold mp in H. destruct (find (fun e => ek e =? k) es) eqn:F; [|discriminate].
    injection H as <-. apply find_some in F. destruct F as (A & B). exists e. repeat split; auto. lia.
  Qed.

  Lemma lookup_ok : forall r m hd es id, RI r m hd es -> inw lo (place id) ->
    exists p, search (rbuckets r) (place id) = Ok p /\
      match p with Some a => exists e, In e es /\ ea e = a /\ mp es (place id) = Some (ev e) | None => mp es (place id) = None end.
  Proof.
    intros r m hd es id R W. destruct (search_ok lo _ _ _ (ri_ok _ _ _ _ R) _ W (place_ok id)) as (p & E & H).
    exists p. split; auto. destruct p.
    - destruct H as (e & A & B & C). exists e. repeat split; auto. rewrite <- C. eapply mp_of_in; eauto. apply (ri_ok _ _ _ _ R).
    - now apply mp_none.
  Qed.

  Lemma lookup_bucket_ok : forall r m hd es id, RI r m hd es -> inw lo (place id) ->
    lookup_bucket r id = Ok (mp es (place id)).
  Proof.
    intros r m hd es id R W. destruct (lookup_ok r m hd es id R W) as (p & E & H).
    unfold lookup_bucket. rewrite E. cbn [bindr]. destruct p as [a|]; [|now rewrite H].
    destruct H as (e & A & <- & C). destruct (node_in lo _ _ _ (ri_ok _ _ _ _ R) e (or_intror A)) as (f & ->).
    cbn [bindr sval]. now rewrite C.
  Qed.

  Lemma new_ok : forall r m hd es k st, RI r m hd es -> RI (fst (new_bucket r k st)) m hd es.
  Proof.
    intros r m hd es k st [A B C D E]. cbn [new_bucket fst]. 
    assert (G : forall b, 0 <= b < zlen (rmem r) -> zget (rmem r ++ [(k, st)]) b = zget (rmem r) b).
    { intros b Hb. rewrite !zget_nat by lia. apply nth_error_app1. unfold zlen in Hb. lia. }
    constructor; cbn [rbuckets rmem rlive]; auto.
    - intros k' b H. destruct (B k' b H) as (id & s & G1 & G2). exists id, s. split; auto.
      rewrite G; auto. now apply zget_range in G1.
    - intros id I. rewrite C by auto. destruct (mp es (place id)) as [b|] eqn:M; auto.
      destruct (B _ _ M) as (? & ? & G1 & _). now rewrite G by (now apply zget_range in G1).
  Qed.

  Lemma add_ok : forall r m hd es id st seed, RI r m hd es -> opok (RAdd id st) ->
    exists r' seed' x m' es', rexec r seed (RAdd id st) = Ok (r', seed', x) /\ rspec m (RAdd id st) x m' /\ RI r' m' hd es'.
  Proof.
    intros r m hd es id st seed R (I & W & ST). cbn [rexec].
    pose proof (new_ok r m hd es id st R) as R1. 
    destruct (new_bucket r id st) as [r1 b] eqn:NB. cbn [fst] in R1. injection NB as <- <-.
    set (r1 := Ring _ _ _) in *.
    assert (GB : zget (rmem r1) (zlen (rmem r)) = Some (id, st)) by (apply zget_mid; auto).
    unfold add_bucket, get_key, get_live_field. rewrite GB. cbn [orUB bindr fst snd].
    destruct (lookup_ok r1 m hd es id R1 W) as (p & E & H). rewrite E. cbn [bindr].
    destruct p as [a|].
    - destruct H as (e & Je & _ & M). destruct (ri_b _ _ _ _ R1 _ _ M) as (id' & st' & G & P & Q & _).
      assert (id' = id) by (apply place_inj; auto). subst id'.
      cbn [bindr]. eexists r1, seed, (RInt (-1)), m, es. split; [reflexivity|]. split; auto.
      apply (rs_dup m id st st'). rewrite (ri_m _ _ _ _ R1) by auto. rewrite M, G. easy.
    - destruct (insert_ok lo (rbuckets r1) hd es (place id) (zlen (rmem r)) seed (ri_ok _ _ _ _ R1) W (place_ok id))
        as (l' & seed' & es' & EI & O' & M').
      rewrite EI. cbn [bindr].
      assert (MN : m id = None) by (rewrite (ri_m _ _ _ _ R1), H by auto; easy).
      eexists _, seed', (RInt 0), (with_server m id st), es'. split; [reflexivity|].
      split; [now constructor|].
      constructor; cbn [rbuckets rmem rlive]; auto.
      + intros k b. rewrite M'. destruct (Z.eqb_spec k (place id)) as [->|N].
        * intros [= <-]. exists id, st. auto.
        * apply (ri_b _ _ _ _ R1).
      + intros id' I'. rewrite M'. unfold with_server. destruct (Z.eqb_spec id' id) as [->|N].
        * rewrite Z.eqb_refl, GB. easy.
        * destruct (Z.eqb_spec (place id') (place id)) as [P|P]; [apply place_inj in P; auto; easy|].
          apply (ri_m _ _ _ _ R1 id' I').
      + intros id' N. unfold with_server. destruct (Z.eqb_spec id' id) as [->|]; [easy|]. now apply (ri_out _ _ _ _ R1).
      + destruct ST as [-> | ->]; cbn [Z.eqb BUCKET_LIVE BUCKET_DEAD].
        * apply count_up; [unfold live; congruence|apply (ri_n _ _ _ _ R1)].
        * apply (count_ext m); [|apply (ri_n _ _ _ _ R1)].
          intros k. rewrite live_with. destruct (Z.eqb_spec k id) as [->|]; [|tauto]. unfold live. rewrite MN. split; discriminate.
  Qed.

  Lemma set_ok : forall r m hd es id st seed, RI r m hd es -> opok (RSet id st) ->
    exists r' x m', rexec r seed (RSet id st) = Ok (r', seed, x) /\ rspec m (RSet id st) x m' /\ RI r' m' hd es.
  Proof.
    intros r m hd es id st seed R (I & W & ST). cbn [rexec]. unfold set_bucket_status.
    rewrite (lookup_bucket_ok r m hd es id R W). cbn [bindr].
    destruct (mp es (place id)) as [b|] eqn:M.
    2:{ cbn [bindr]. eexists r, _, m. split; [reflexivity|]. split; auto. constructor. rewrite (ri_m _ _ _ _ R), M; auto. }
    destruct (ri_b _ _ _ _ R _ _ M) as (id' & s & G & P & Q & S').
    assert (id' = id) by (apply place_inj; auto). subst id'.
    unfold get_live_field, put_status. cbn [rmem]. rewrite G. cbn [orUB bindr fst snd].
    assert (RG : 0 <= b < zlen (rmem r)) by (now apply zget_range in G).
    destruct (zset_get (rmem r) b (id, st) RG) as (mem & EM & ZL & GM). rewrite EM. cbn [orUB bindr].
    assert (MI : m id = Some s) by (rewrite (ri_m _ _ _ _ R), M, G; auto).
    eexists _, _, (with_server m id st). split; [reflexivity|]. split; [now apply (rs_set m id st s)|].
    constructor; cbn [rbuckets rmem rlive].
    - apply (ri_ok _ _ _ _ R).
    - intros k b' H. destruct (ri_b _ _ _ _ R k b' H) as (i2 & s2 & G2 & P2 & Q2 & S2).
      rewrite GM. destruct (Z.eqb_spec b' b) as [->|N]; [|eauto 10].
      rewrite G in G2. injection G2 as <- <-. exists id, st. auto.
    - intros id' I'. unfold with_server. rewrite (ri_m _ _ _ _ R id' I'). destruct (Z.eqb_spec id' id) as [->|N].
      + rewrite M, GM, Z.eqb_refl. easy.
      + destruct (mp es (place id')) as [b'|] eqn:M2; auto.
        destruct (ri_b _ _ _ _ R _ _ M2) as (i2 & s2 & G2 & P2 & Q2 & S2).
        rewrite GM. destruct (Z.eqb_spec b' b) as [->|NB]; auto.
        rewrite G in G2. injection G2 as <- <-. apply place_inj in P2; auto. congruence.
    - intros id' N. unfold with_server. destruct (Z.eqb_spec id' id) as [->|]; [easy|]. now apply (ri_out _ _ _ _ R).
    - pose proof (ri_n _ _ _ _ R) as C.
      destruct (Z.eqb_spec s st) as [->|N].
      { apply (count_ext m); auto. intros k. rewrite live_with. destruct (Z.eqb_spec k id) as [->|]; [|tauto].
        unfold live. rewrite MI. split; congruence. }
      destruct ST as [-> | ->], S' as [-> | ->]; try easy; cbn [Z.eqb BUCKET_LIVE BUCKET_DEAD].
      + apply count_up; auto. unfold live. rewrite MI. discriminate.
      + apply count_down; auto.
  Qed.

  Lemma status_ok : forall r m hd es id seed, RI r m hd es -> opok (RStatus id) ->
    exists r' x, rexec r seed (RStatus id) = Ok (r', seed, x) /\ rspec m (RStatus id) x m /\ RI r' m hd es.
  Proof.
    intros r m hd es id seed R (I & W). cbn [rexec].
    pose proof (new_ok r m hd es id BUCKET_LIVE R) as R1. 
    destruct (new_bucket r id BUCKET_LIVE) as [r1 b] eqn:NB. cbn [fst] in R1. injection NB as <- <-.
    set (r1 := Ring _ _ _) in *.
    assert (GB : zget (rmem r1) (zlen (rmem r)) = Some (id, BUCKET_LIVE)) by (apply zget_mid; auto).
    unfold get_bucket_status, get_key. rewrite GB. cbn [orUB bindr fst].
    rewrite (lookup_bucket_ok r1 m hd es id R1 W). cbn [bindr].
    pose proof (ri_m _ _ _ _ R1 id I) as M.
    destruct (mp es (place id)) as [b|] eqn:MB.
    - destruct (ri_b _ _ _ _ R1 _ _ MB) as (id' & s & G & _). unfold get_live_field. rewrite G. cbn [orUB bindr snd].
      rewrite G in M. eexists r1, _. split; [reflexivity|]. split; [now constructor|auto].
    - cbn [bindr]. eexists r1, _. split; [reflexivity|]. split; [now constructor|auto].
  Qed.

  (** ** Walking round. *)
  Definition lv (r : ring) (e : ent) : bool :=
    match zget (rmem r) (ev e) with Some (_, st) => st =? BUCKET_LIVE | None => false end.

  Section Walk.
    Variables (r : ring) (m : servers) (hd : ent) (es : list ent).
    Hypothesis R : RI r m hd es.

    Lemma field_ok : forall e, In e es -> exists id st, zget (rmem r) (ev e) = Some (id, st) /\ place id = ek e /\ inS 32 id
       /\ m id = Some st.
    Proof.
      intros e J. pose proof (mp_of_in _ _ _ _ (ri_ok _ _ _ _ R) J) as M.
      destruct (ri_b _ _ _ _ R _ _ M) as (id & st & G & P & Q & _). exists id, st. split; [exact G|split; [exact P|split; [exact Q|]]].
      rewrite (ri_m _ _ _ _ R), P, M, G; auto.
    Qed.

    Lemma fwd_next : forall P e Q, hd :: es = P ++ e :: Q -> fwd (rbuckets r) (ea e) 0 = Ok (option_map ea (hd_error Q)).
    Proof.
      intros P e Q E. destruct (ri_ok _ _ _ _ R) as [I W].
      rewrite (fwd_at _ hd es I P e Q 0 E).
      - rewrite (ft_zero _ hd es I) by (apply (tail_in _ _ _ _ _ E)). easy.
      - assert (J : In e (hd :: es)) by (rewrite E; apply in_elt).
        unfold tall. apply Nat.ltb_lt. destruct J as [<-|J]; [destruct (i_hd _ _ _ I) as (_ & _ & ->); unfold MAX_LEVEL; lia|].
        pose proof (i_h _ _ _ I e J). lia.
    Qed.

    Lemma loop_seg : forall Q P e fuel, es = P ++ e :: Q -> (length Q < fuel)%nat ->
      ring_loop fuel r (Some (ea e)) = match find (lv r) (e :: Q) with
                                       | Some x => Ok (Bucket (ev x))
                                       | None => ring_loop (fuel - S (length Q)) r None
                                       end.
    Proof.
      induction Q as [|y Q IH]; intros P e fuel E L; (destruct fuel as [|fuel]; [lia|]); cbn [ring_loop bindr orUB].
      all: assert (J : In e es) by (rewrite E; apply in_elt).
      all: destruct (node_in lo _ _ _ (ri_ok _ _ _ _ R) e (or_intror J)) as (f & ->); cbn [bindr sval].
      all: destruct (field_ok e J) as (id & st & G & _).
      all: cbn [find]; unfold lv at 1, get_live_field; rewrite G; cbn [orUB bindr snd].
      all: destruct (st =? BUCKET_LIVE); auto.
      all: rewrite (fwd_next (hd :: P) e _) by (rewrite E; reflexivity); cbn [bindr hd_error option_map].
      - cbn [find length]. f_equal. lia.
      - rewrite (IH (P ++ [e])) by (try (rewrite E, <- app_assoc; reflexivity); cbn [length] in L; lia).
        cbn [length]. replace (S fuel - S (S (length Q)))%nat with (fuel - S (length Q))%nat by lia. easy.
    Qed.

    Lemma loop_none : forall fuel e Q, es = e :: Q -> (0 < fuel)%nat -> ring_loop fuel r None = ring_loop fuel r (Some (ea e)).
    Proof.
      intros fuel e Q E L. destruct fuel; [lia|]. cbn [ring_loop bindr orUB].
      destruct (i_hd _ _ _ (proj1 (ri_ok _ _ _ _ R))) as (H & _).
      pose proof (fwd_next [] hd es eq_refl) as F. rewrite H in F. rewrite F, E. easy.
    Qed.

    Lemma first_ok : forall A B e x, es = A ++ B -> find (lv r) B = Some e -> (forall a, In a A -> lv r a = false \/ ek a < place x) ->
      (forall b, In b B -> place x <= ek b) \/ (A = [] /\ forall b, In b es -> lv r b = true -> ek b < place x) ->
      exists id, zget (rmem r) (ev e) = Some (id, BUCKET_LIVE) /\ located m x (Some id).
    Proof.
      intros A B e x E F HA HB. 
      destruct (find_split _ _ _ _ F) as (B1 & B2 & EB & LE & L1).
      assert (JE : In e es) by (rewrite E, EB; apply in_or_app; right; apply in_elt).
      destruct (field_ok e JE) as (id & st & G & P & I & M).
      assert (st = BUCKET_LIVE) as -> by (unfold lv in LE; rewrite G in LE; lia).
      exists id. split; auto.
      assert (LIVE : forall id', live m id' -> exists b, In b es /\ lv r b = true /\ ek b = place id').
      { intros id' L. destruct (Z_le_dec (- 2 ^ 31) id') as [K1|K1].
        - destruct (Z_lt_dec id' (2 ^ 31)) as [K2|K2].
          + assert (I' : inS 32 id') by (unfold inS; lia).
            unfold live in L. rewrite (ri_m _ _ _ _ R) in L by auto. destruct (mp es (place id')) as [b|] eqn:MB; [|discriminate].
            destruct (in_of_mp _ _ _ MB) as (e' & J' & K & V). exists e'. repeat split; auto.
            unfold lv. rewrite V. destruct (zget (rmem r) b) as [[? s]|]; [|discriminate]. cbn in L. injection L as ->. apply Z.eqb_refl.
          + unfold live in L. rewrite (ri_out _ _ _ _ R) in L by (unfold inS; lia). discriminate.
        - unfold live in L. rewrite (ri_out _ _ _ _ R) in L by (unfold inS; lia). discriminate. }
      pose proof (i_sort _ _ _ (proj1 (ri_ok _ _ _ _ R))) as S. rewrite E in S.
      pose proof S as S2. apply sorted_app in S2. destruct S2 as (_ & SB & _). rewrite EB in SB.
      apply sorted_app in SB. destruct SB as (_ & SB & _). cbn [map] in SB. apply StronglySorted_inv in SB.
      destruct SB as (_ & SB). rewrite Forall_forall in SB.
      assert (MINB : forall b, In b B -> lv r b = true -> ek e <= ek b).
      { intros b J L. rewrite EB in J. apply in_app_or in J. destruct J as [J|[->|J]]; [|lia|].
        - rewrite (L1 b J) in L. discriminate.
        - assert (ek e < ek b); [|lia]. apply SB. now apply in_map. }
      destruct HB as [HB|[-> HB]].
      - apply loc_after; auto.
        + unfold pos. fold (place x) (place id). rewrite P. apply HB. rewrite EB. apply in_elt.
        + intros id' L Q. destruct (LIVE id' L) as (b & Jb & Lb & Eb).
          change (pos id) with (place id). change (pos id') with (place id'). rewrite P, <- Eb.
          rewrite E in Jb. apply in_app_or in Jb. destruct Jb as [Jb|Jb]; [|auto].
          destruct (HA b Jb) as [K|K]; [congruence|]. change (place x <= place id') in Q. lia.
      - apply loc_wrap; auto.
        + intros id' L. destruct (LIVE id' L) as (b & Jb & Lb & Eb). change (place id' < place x). rewrite <- Eb. auto.
        + intros id' L. destruct (LIVE id' L) as (b & Jb & Lb & Eb). change (place id <= place id'). rewrite P, <- Eb.
          rewrite E in Jb. cbn [app] in Jb. auto.
    Qed.

    Lemma some_live : (exists id, live m id) -> exists e, In e es /\ lv r e = true.
    Proof.
      intros (id & L). destruct (Z_le_dec (- 2 ^ 31) id) as [K1|K1]; [destruct (Z_lt_dec id (2 ^ 31)) as [K2|K2]|].
      - unfold live in L. rewrite (ri_m _ _ _ _ R) in L by (unfold inS; lia). destruct (mp es (place id)) as [b|] eqn:MB; [|discriminate].
        destruct (in_of_mp _ _ _ MB) as (e' & J' & K & V). exists e'. split; auto.
        unfold lv. rewrite V. destruct (zget (rmem r) b) as [[? s]|]; [|discriminate]. cbn in L. injection L as ->. apply Z.eqb_refl.
      - unfold live in L. rewrite (ri_out _ _ _ _ R) in L by (unfold inS; lia). discriminate.
      - unfold live in L. rewrite (ri_out _ _ _ _ R) in L by (unfold inS; lia). discriminate.
    Qed.

    Lemma locate_ok : forall x f seed, opok (RLocate x f) ->
      exists o, rexec r seed (RLocate x f) = Ok (r, seed, RAns (shown o)) /\ located m x o.
    Proof.
      intros x f seed (W & F). cbn [rexec]. unfold get_buckets_for_object.
      set (fuel := (2 * snext (rbuckets r) + 2)%nat).
      set (replicas := if f <? rlive r then f else rlive r).
      destruct (Z.eqb_spec replicas 0) as [Z0|NZ].
      - cbn [bindr]. exists None. split; auto. constructor.
        apply (count_zero _ _ (ri_n _ _ _ _ R)). unfold replicas in Z0. destruct (f <? rlive r); lia.
      - assert (NL : rlive r <> 0).
        { intros H. pose proof (count_pos _ _ (ri_n _ _ _ _ R)). unfold replicas in NZ. destruct (Z.ltb_spec f (rlive r)); lia. }
        destruct (count_pos _ _ (ri_n _ _ _ _ R) NL) as (PL & SL).
        assert (replicas > 0) by (unfold replicas; destruct (Z.ltb_spec f (rlive r)); lia).
        replace (negb (0 <? replicas)) with false by (destruct (Z.ltb_spec 0 replicas); auto; lia).
        rewrite andb_false_r.
        destruct (lt_found lo _ _ _ (ri_ok _ _ _ _ R) (place x) W) as (A & B & E & HA & HB & D & FW & _).
        unfold search_higher. rewrite D. cbn [bindr]. rewrite FW. cbn [bindr].
        pose proof (es_length _ _ _ (proj1 (ri_ok _ _ _ _ R))) as LEN.
        destruct (some_live SL) as (e0 & J0 & L0).
        assert (ALL : exists e, find (lv r) es = Some e).
        { destruct (find (lv r) es) eqn:FE; eauto. pose proof (find_none _ _ FE e0 J0). congruence. }
        assert (WRAP : find (lv r) B = None -> forall fl, (length es < fl)%nat -> exists id, exists e, ring_loop fl r None = Ok (Bucket (ev e))
            /\ zget (rmem r) (ev e) = Some (id, BUCKET_LIVE) /\ located m x (Some id)).
        { intros NB fl L. destruct es as [|e1 es1] eqn:EE; [easy|]. rewrite <- EE in *.
          rewrite (loop_none fl e1 es1) by (auto; lia).
          rewrite (loop_seg es1 [] e1 fl EE) by (rewrite EE in L; cbn [length] in L; lia).
          rewrite <- EE. destruct ALL as (e & FE). rewrite FE.
          destruct (first_ok [] es e x eq_refl FE ltac:(intros ? [])) as (id & G & LO).
          - right. split; auto. intros b J L'. rewrite E in J. apply in_app_or in J. destruct J as [J|J]; auto.
            pose proof (find_none _ _ NB b J). congruence.
          - exists id, e. auto. }
        assert (FIN : exists id, exists e, ring_loop fuel r (option_map ea (hd_error B)) = Ok (Bucket (ev e))
            /\ zget (rmem r) (ev e) = Some (id, BUCKET_LIVE) /\ located m x (Some id)).
        { destruct B as [|b B].
          - cbn [hd_error option_map]. apply WRAP; auto. unfold fuel. lia.
          - cbn [hd_error option_map]. assert (LB : (length (b :: B) <= length es)%nat) by (rewrite E, app_length; lia).
            cbn [length] in LB.
            rewrite (loop_seg B A b fuel E) by (unfold fuel; lia).
            destruct (find (lv r) (b :: B)) as [e|] eqn:FB.
            + destruct (first_ok A (b :: B) e x E FB) as (id & G & LO); eauto.
            + apply WRAP; auto. unfold fuel. lia. }
        destruct FIN as (id & e & EL & G & LO). rewrite EL. cbn [bindr]. unfold get_key. rewrite G. cbn [orUB bindr fst].
        exists (Some id). auto.
    Qed.
  End Walk.

  Lemma rexec_all_ok : forall os r m hd es seed, RI r m hd es -> (forall o, In o os -> opok o) ->
    exists r' seed' xs m' es', rexec_all r seed os = Ok (r', seed', xs) /\ rspecs m os xs m' /\ RI r' m' hd es'.
  Proof.
    induction os as [|o os IH]; intros r m hd es seed R OK.
    - exists r, seed, [], m, es. split; [reflexivity|]. split; [constructor|exact R].
    - assert (ST : exists r1 s1 x m1 es1, rexec r seed o = Ok (r1, s1, x) /\ rspec m o x m1 /\ RI r1 m1 hd es1).
      { pose proof (OK o (or_introl eq_refl)) as K. destruct o as [id st|id st|id|x f].
        - eapply add_ok; eauto.
        - destruct (set_ok r m hd es id st seed R K) as (r1 & x & m1 & A & B & C). eauto 10.
        - destruct (status_ok r m hd es id seed R K) as (r1 & x & A & B & C). exists r1, seed, x, m, es. auto.
        - destruct (locate_ok r m hd es R x f seed K) as (a & A & B). 
          exists r, seed, (RAns (shown a)), m, es. split; [exact A|]. split; [now constructor|exact R]. }
      destruct ST as (r1 & s1 & x & m1 & es1 & E1 & S1 & R1).
      destruct (IH r1 m1 hd es1 s1 R1 ltac:(intros; apply OK; now right)) as (r2 & s2 & xs & m2 & es2 & E2 & S2 & R2).
      exists r2, s2, (x :: xs), m2, es2. cbn [rexec_all]. rewrite E1. cbn [bindr]. rewrite E2. cbn [bindr].
      split; [reflexivity|]. split; [exact (rss_cons _ _ _ _ _ _ _ S1 S2)|exact R2].
  Qed.
End Ring.

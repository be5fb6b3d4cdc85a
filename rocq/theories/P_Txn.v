(** Proofs about transactions. *)
From Verif Require Import Base S_Table S_Txn M_Table M_Txn P_Base P_Bmh P_Table.
From Coq Require Import Lia ZifyBool Sorting.Sorted Permutation.

(** Association lists. *)
Lemma zlook_upd {A} (l : list (Z * A)) i x j :
  zlook (zupd l i x) j = if j =? i then option_map (fun _ => x) (zlook l i) else zlook l j.
Proof.
  induction l as [|[k y] t IH]; cbn [zupd zlook]. destruct (j =? i); auto.
  destruct (k =? i) eqn:E; cbn [zlook].
  - apply Z.eqb_eq in E. subst k. rewrite (Z.eqb_sym i j). destruct (j =? i); auto.
  - rewrite IH. destruct (k =? j) eqn:E2; auto. apply Z.eqb_eq in E2. subst k. rewrite E. auto.
Qed.
Lemma zlook_del {A} (l : list (Z * A)) i j : zlook (zdel l i) j = if j =? i then None else zlook l j.
Proof.
  induction l as [|[k y] t IH]; cbn [zdel zlook]. destruct (j =? i); auto.
  destruct (k =? i) eqn:E; cbn [zlook]; rewrite IH.
  - apply Z.eqb_eq in E. subst k. rewrite (Z.eqb_sym i j). destruct (j =? i); auto.
  - destruct (k =? j) eqn:E2; auto. apply Z.eqb_eq in E2. subst k. rewrite E. auto.
Qed.
Lemma zlook_app {A} (l : list (Z * A)) i x j : zlook l i = None ->
  zlook (l ++ [(i, x)]) j = if j =? i then Some x else zlook l j.
Proof.
  induction l as [|[k y] t IH]; cbn [app zlook]; intros H. rewrite Z.eqb_sym. auto.
  destruct (k =? i) eqn:E; [discriminate|]. rewrite IH by auto. destruct (k =? j) eqn:E2; auto.
  apply Z.eqb_eq in E2. subst k. rewrite E. auto.
Qed.

(** Views. *)
Lemma view_refl n v : view_eq n v v.
Proof. split; auto. Qed.
Lemma view_sym n u v : view_eq n u v -> view_eq n v u.
Proof. intros (A & B & C). split; [|split]; intros; symmetry; auto. Qed.
Lemma view_trans n u v w : view_eq n u v -> view_eq n v w -> view_eq n u w.
Proof.
  intros (A & B & C) (A' & B' & C'). split; [|split]; intros; [rewrite A by auto|rewrite B|rewrite C]; auto.
Qed.
Lemma eff_eq n u v w : view_eq n u v -> view_eq n (eff u w) (eff v w).
Proof.
  intros (A & B & C). destruct w; cbn [eff]; (split; [|split]); cbn [vcell vents vhead]; intros;
    repeat match goal with |- context [if ?b then _ else _] => destruct b end; auto;
    rewrite ?B, ?C; auto.
Qed.
Definition effs (v : view) (l : list wr) : view := fold_left eff l v.
Lemma effs_eq n l : forall u v, view_eq n u v -> view_eq n (effs u l) (effs v l).
Proof. induction l; intros u v H; cbn; auto. apply IHl, eff_eq, H. Qed.
Lemma effs_app v a b : effs v (a ++ b) = effs (effs v a) b.
Proof. apply fold_left_app. Qed.

(** The order of the write set. *)
Fixpoint lexc (a b : list Z) : comparison :=
  match a, b with
  | [], [] => Eq
  | [], _ => Lt
  | _, [] => Gt
  | x :: a, y :: b => match x ?= y with Eq => lexc a b | c => c end
  end.
Lemma lexc_eq a b : lexc a b = Eq <-> a = b.
Proof.
  revert b. induction a as [|x a IH]; intros [|y b]; cbn; try (split; congruence).
  destruct (Z.compare_spec x y); [subst; rewrite IH; split; congruence| |]; (split; [congruence|intros E; inversion E; lia]).
Qed.
Lemma lexc_opp a b : lexc b a = CompOpp (lexc a b).
Proof.
  revert b. induction a as [|x a IH]; intros [|y b]; cbn; auto.
  rewrite (Z.compare_antisym x y). destruct (x ?= y); cbn; auto.
Qed.
Lemma lexc_trans a b c : lexc a b = Lt -> lexc b c = Lt -> lexc a c = Lt.
Proof.
  revert b c. induction a as [|x a IH]; intros [|y b] [|z c]; cbn; try congruence.
  destruct (Z.compare_spec x y), (Z.compare_spec y z), (Z.compare_spec x z); subst; try lia; try congruence; eauto.
Qed.

Definition enc (t : tw) : list Z :=
  match op t with
  | Upd t p _ | Del t p => t :: zlen p :: p
  | Enq u _ _ | Crt u _ => [u; qtype (op t); lo t]
  | Csm u q c _ => [u; 11; q; c]
  | Dlq u _ => [u; 13]
  end.
Definition lt (a b : tw) : Prop := lexc (enc a) (enc b) = Lt.

Lemma wrap_cmp x y : near x -> near y -> (wrapS 32 (x - y) ?= 0) = (x ?= y).
Proof.
  unfold near. intros. rewrite wrapS_id by (unfold inS; lia). destruct (Z.compare_spec x y); destruct (Z.compare_spec (x - y) 0); auto; lia.
Qed.
Lemma keys_cmp_ok a : forall b, Forall near a -> Forall near b -> zlen a = zlen b -> (keys_cmp a b ?= 0) = lexc a b.
Proof.
  induction a as [|x a IH]; intros [|y b] Ha Hb Hl; cbn [keys_cmp lexc]; auto.
  - rewrite zlen_cons in Hl. pose proof (zlen_nn b). change (zlen (@nil Z)) with 0 in Hl. lia.
  - rewrite zlen_cons in Hl. pose proof (zlen_nn a). change (zlen (@nil Z)) with 0 in Hl. lia.
  - rewrite !zlen_cons in Hl. inversion Ha; inversion Hb; subst. destruct (Z.eqb_spec x y) as [->|N].
    + rewrite Z.compare_refl. apply IH; auto. lia.
    + rewrite (wrapS_id 32 x) by (unfold near, inS in *; lia). rewrite wrap_cmp by auto.
      destruct (Z.compare_spec x y); auto. congruence.
Qed.

Lemma cmp_ok d ts a b : (1 <= d)%nat -> wr_ok d ts (op a) -> wr_ok d ts (op b) -> 0 <= lo a < 2 ^ 31 -> 0 <= lo b < 2 ^ 31 ->
  (txn_write_cmp a b ?= 0) = lexc (enc a) (enc b).
Proof.
  intros Hd [Na Ha] [Nb Hb] La Lb. destruct a as [a la], b as [b lb]. unfold txn_write_cmp, enc. cbn [op lo] in *.
  destruct (Z.eqb_spec (table_of a) (table_of b)) as [E|N]; cbn [negb].
  2: { rewrite wrap_cmp by auto.
       destruct a, b; cbn [table_of lexc] in *; destruct (Z.compare_spec t t0); auto; congruence. }
  destruct a as [t p x|t p|t q x|t q c h|t q|t q], b as [u p' x'|u p'|u q' x'|u q' c' h'|u q'|u q'];
    cbn [table_of keys qtype] in *; try tauto; subst u; try tauto;
    cbn [Z.ltb QUERY_TYPE_ENQUEUE Z.compare Pos.compare Pos.compare_cont Z.eqb Pos.eqb negb lexc];
    rewrite ?Z.compare_refl; try reflexivity.
  1-4: destruct (Z.eqb_spec (zlen p) (zlen p')) as [E|N]; cbn [negb];
       [rewrite E, Z.compare_refl; apply keys_cmp_ok; tauto|
        destruct (Z.compare_spec (zlen p - zlen p') 0), (Z.compare_spec (zlen p) (zlen p')); auto; lia].
  - destruct (Z.eqb_spec la lb) as [->|N]; cbn [negb]. rewrite !Z.compare_refl. auto.
    rewrite wrapS_id by (unfold inS; lia).
    destruct (Z.compare_spec la lb), (Z.compare_spec (la - lb) 0); auto; lia.
  - destruct (Z.eqb_spec q q') as [->|N]; cbn [negb].
    + rewrite Z.compare_refl. destruct (Z.eqb_spec c c') as [->|N]; cbn [negb]. rewrite !Z.compare_refl. auto.
      rewrite wrap_cmp by tauto. destruct (Z.compare_spec c c'); auto.
    + rewrite wrap_cmp by tauto. destruct (Z.compare_spec q q'); auto. congruence.
Qed.

(** Equal places in the write set. *)
Lemma enc_eq d ts a b : (1 <= d)%nat -> wr_ok d ts (op a) -> wr_ok d ts (op b) -> enc a = enc b ->
  same_thing (op a) (op b) \/ (exists t q x u r y, op a = Enq t q x /\ op b = Enq u r y /\ lo a = lo b).
Proof.
  intros Hd [Na Ha] [Nb Hb]. unfold enc. destruct (op a) as [t p x|t p|t q x|t q c h|t q|t q], (op b) as [u p' x'|u p'|u q' x'|u q' c' h'|u q'|u q'];
    cbn [same_thing qtype]; try tauto; intros E; inversion E; subst; try tauto; auto.
  - exfalso. destruct Ha as (_ & L & _), Hb as (_ & L' & _). lia.
  - exfalso. destruct Ha as (_ & L & _), Hb as (_ & L' & _). lia.
  - right. do 6 eexists. eauto.
Qed.
Lemma same_enc a b : row_change (op a) -> same_thing (op a) (op b) -> enc a = enc b.
Proof.
  unfold enc. destruct (op a), (op b); cbn; try tauto; intros _ [-> ->]; auto.
Qed.

(** Changes that may be exchanged. *)
Lemma exchange n d ts a w v : (1 <= d)%nat -> wr_ok d ts (op a) -> wr_ok d ts (op w) -> lt w a -> lo a < lo w ->
  follows (op a) (op w) ->
  view_eq n (effs v [op w; op a]) (effs v [op a; op w]).
Proof.
  intros Hd [_ Ha] [_ Hw] L Hlo [F1 F2]. unfold lt, enc in L. unfold effs. cbn [fold_left].
  destruct (op a) as [t p x|t p|t q x|t q c h|t q|t q], (op w) as [u p' x'|u p'|u q' x'|u q' c' h'|u q'|u q'];
    cbn [same_thing] in *; try tauto; (split; [|split]); cbn [eff vcell vents vhead]; intros t0; intros; auto.
  - destruct (Z.eqb_spec t0 u), (Z.eqb_spec t0 t); cbn [andb]; auto. destruct (same p0 p') eqn:E1, (same p0 p) eqn:E2; auto.
    apply same_ok in E1, E2. subst. tauto.
  - destruct (Z.eqb_spec t0 u), (Z.eqb_spec t0 t); cbn [andb]; auto.
    destruct (same _ p') eqn:E1, (same p0 p) eqn:E2; auto. apply same_ok in E1, E2. subst.
    destruct Hw as (_ & Hl & _). destruct p' as [|k [|]]; try discriminate. destruct Ha as (_ & Hl' & _).
    destruct p as [|k' p]; [discriminate|]. cbn in E1. inversion E1; subst. tauto.
  - destruct (Z.eqb_spec t0 u), (Z.eqb_spec t0 t); cbn [andb]; auto.
    destruct (same p0 p') eqn:E1, (same _ p) eqn:E2; auto. apply same_ok in E1, E2. subst.
    cbn [lexc] in L. rewrite Z.compare_refl in L. destruct Ha as (_ & Hl & _), Hw as (_ & Hl' & _).
    destruct (Z.compare_spec (zlen p') (zlen p)); try congruence; exfalso;
      unfold zlen in *; lia.
  - destruct ((t0 =? u) && _), ((t0 =? t) && _); auto.
  - destruct (Z.eqb_spec t0 u), (Z.eqb_spec t0 t); cbn [andb]; auto.
    destruct (Z.eqb_spec q0 q'), (Z.eqb_spec q0 q); auto. subst. exfalso.
    cbn [lexc qtype] in L. rewrite !Z.compare_refl in L. destruct (Z.compare_spec (lo w) (lo a)); congruence || lia.
  - destruct (_ && (c0 =? c')) eqn:E1, (_ && (c0 =? c)) eqn:E2; auto.
    exfalso. apply F1. lia.
Qed.

(** The write set of a transaction whose changes are [iss], in the order of issue. *)
Definition wset (d : nat) (ts : list Z) (n : nat) (l : list node) (iss : list wr) : Prop :=
  Forall (fun x => nkey x = Some (nval x)) l /\
  StronglySorted lt (map nval l) /\
  Forall (fun x => 0 <= lo (nval x) < zlen l) l /\
  Permutation (map (fun x => op (nval x)) l) iss /\
  Forall (wr_ok d ts) iss /\
  zlen l < 2 ^ 31 /\
  forall v, view_eq n (effs v (map (fun x => op (nval x)) l)) (effs v iss).

Section One.
Variables (d : nat) (ts : list Z) (w : tw).
Hypothesis Hd : (1 <= d)%nat.
Hypothesis Hw : wr_ok d ts (op w).
Hypothesis Lw : 0 <= lo w < 2 ^ 31.

(** What the search for [w] and its insertion do in a sorted set. *)
Definition fine (n : node) : Prop := nkey n = Some (nval n) /\ wr_ok d ts (op (nval n)) /\ 0 <= lo (nval n) < 2 ^ 31.

Lemma cmp1 n : fine n -> (txn_write_cmp (nval n) w ?= 0) = lexc (enc (nval n)) (enc w).
Proof. intros (A & B & C). eapply cmp_ok; eauto. Qed.
Lemma cmp2 n : fine n -> (txn_write_cmp w (nval n) ?= 0) = lexc (enc w) (enc (nval n)).
Proof. intros (A & B & C). eapply cmp_ok; eauto. Qed.

Lemma hit_ok x : (forall n, x = Some n -> fine n) ->
  exists p, hit w x = Ok p /\ (p <> None <-> exists n, x = Some n /\ enc (nval n) = enc w).
Proof.
  intros H. destruct x as [n|]; cbn [hit].
  - specialize (H _ eq_refl). pose proof (cmp2 n H) as C. destruct H as (E & _). rewrite E. cbn [orUB bindr].
    destruct (Z.eqb_spec (txn_write_cmp w (nval n)) 0) as [Z|Z].
    + rewrite Z in C. symmetry in C. apply lexc_eq in C. eexists. split; eauto. split; [eauto|congruence].
    + eexists. split; eauto. split; [congruence|]. intros (m & Em & En). inversion Em; subst m. exfalso.
      symmetry in En. apply lexc_eq in En. rewrite En in C. apply Z.compare_eq in C. auto.
  - eexists. split; eauto. split; [congruence|]. intros (n & E & _). congruence.
Qed.

Lemma search_ok l : forall x, Forall fine l -> (forall n, x = Some n -> fine n) ->
  (forall n, x = Some n -> lexc (enc (nval n)) (enc w) <> Gt) ->
  (match x with Some n => StronglySorted lt (nval n :: map nval l) | None => StronglySorted lt (map nval l) end) ->
  exists p, wsearch l w x = Ok p /\ (p <> None <-> exists n, (x = Some n \/ In n l) /\ enc (nval n) = enc w).
Proof.
  induction l as [|n l IH]; intros x Hf Hx Hg Hs; cbn [wsearch].
  - destruct (hit_ok x Hx) as (p & E & P). exists p. split; auto. rewrite P. split; intros (n & A & B); exists n; cbn [In] in *; tauto.
  - inversion Hf as [|? ? Fn Fl]; subst. pose proof (cmp1 n Fn) as C. pose proof Fn as (E & _). rewrite E. cbn [orUB bindr].
    assert (Sn : StronglySorted lt (nval n :: map nval l)).
    { destruct x; auto. inversion Hs; subst; auto. }
    destruct (Z.leb_spec (txn_write_cmp (nval n) w) 0) as [Z|Z].
    + destruct (IH (Some n)) as (p & E' & P); auto.
      * intros m Em. inversion Em; subst; auto.
      * intros m Em. inversion Em; subst m. rewrite <- C. destruct (Z.compare_spec (txn_write_cmp (nval n) w) 0); lia || congruence.
      * exists p. split; auto. rewrite P. split.
        -- intros (m & [A|A] & B); exists m; split; auto. inversion A; subst. right. left. auto. right; right; auto.
        -- intros (m & [A|[A|A]] & B); subst; eauto.
           ++ inversion Hs; subst. exfalso. match goal with H : Forall _ _ |- _ => inversion H as [|? ? Hlt _]; subst end.
              unfold lt in Hlt. rewrite B in Hlt.
              rewrite lexc_opp in Hlt. rewrite <- C in Hlt. destruct (Z.compare_spec (txn_write_cmp (nval n) w) 0); cbn in Hlt; try congruence. lia.
    + destruct (hit_ok x Hx) as (p & E' & P). exists p. split; auto. rewrite P. split.
      * intros (m & A & B). exists m. auto.
      * intros (m & [A|A] & B); eauto. exfalso.
        assert (G : lexc (enc (nval n)) (enc w) = Gt). { rewrite <- C. destruct (Z.compare_spec (txn_write_cmp (nval n) w) 0); auto; lia. }
        destruct A as [->|A]. rewrite B in G. replace (lexc (enc w) (enc w)) with Eq in G. discriminate. symmetry. apply lexc_eq. auto.
        inversion Sn as [|? ? _ Hfa]; subst. rewrite Forall_forall in Hfa. specialize (Hfa (nval m) (in_map _ _ _ A)).
        unfold lt in Hfa. rewrite B in Hfa. congruence.
Qed.

Lemma insert_new l f : Forall fine l -> (forall n, In n l -> enc (nval n) <> enc w) -> StronglySorted lt (map nval l) ->
  exists a b, l = a ++ b /\ winsert l w f = Ok (a ++ Node (Some w) w :: b) /\
    Forall (fun n => lt (nval n) w) a /\ Forall (fun n => lt w (nval n)) b.
Proof.
  induction l as [|n l IH]; intros Hf Hn Hs; cbn [winsert].
  - exists [], []. auto.
  - inversion Hf as [|? ? Fn Fl]; subst. cbn [map] in Hs. inversion Hs as [|? ? Hs' Hfa]; subst.
    pose proof (cmp1 n Fn) as C. pose proof (cmp2 n Fn) as C2. pose proof Fn as (E & _). rewrite E. cbn [orUB bindr].
    destruct (Z.ltb_spec (txn_write_cmp (nval n) w) 0) as [Z|Z].
    + destruct IH as (a & b & -> & E' & A & B); auto. intros; apply Hn; right; auto.
      exists (n :: a), b. rewrite E'. cbn [bindr]. split; auto. split; auto. split; auto. constructor; auto.
      unfold lt. rewrite <- C. apply Z.compare_lt_iff. auto.
    + assert (G : lt w (nval n)).
      { unfold lt. rewrite lexc_opp. rewrite <- C. destruct (Z.compare_spec (txn_write_cmp (nval n) w) 0) as [Z0|Z0|Z0]; auto; [|lia].
        exfalso. apply (Hn n); [left; auto|]. apply lexc_eq. auto. }
      destruct (Z.eqb_spec (txn_write_cmp w (nval n)) 0) as [Z0|Z0].
      { exfalso. unfold lt in G. rewrite <- C2, Z0 in G. discriminate. }
      exists [], (n :: l). split; auto. split; auto. split; auto. constructor; auto.
      rewrite Forall_forall in *. intros m Hm. unfold lt in *. eapply lexc_trans; eauto. apply (Hfa _ (in_map _ _ _ Hm)).
Qed.
End One.

Lemma sorted_ins (R : tw -> tw -> Prop) (a b : list tw) w : StronglySorted R (a ++ b) ->
  Forall (fun x => R x w) a -> Forall (fun x => R w x) b -> StronglySorted R (a ++ w :: b).
Proof.
  induction a as [|x a IH]; cbn; intros Hs Ha Hb.
  - constructor; auto.
  - inversion Hs; subst. inversion Ha; subst. constructor; auto. rewrite Forall_app in *. destruct H2. split; auto.
Qed.

Lemma wset_fine d ts n l iss : wset d ts n l iss -> Forall (fine d ts) l.
Proof.
  intros (K & S & L & P & W & B & V). rewrite Forall_forall in *. intros x Hx. split; [auto|]. split.
  - apply W. eapply Permutation_in; eauto. apply (in_map (fun x => op (nval x))) in Hx. auto.
  - specialize (L _ Hx). lia.
Qed.

Lemma tx_last iss w : ForallOrdPairs follows (iss ++ [w]) -> Forall (fun a => follows a w) iss /\ ForallOrdPairs follows iss.
Proof.
  induction iss as [|a iss IH]; cbn; intros H. split; constructor.
  inversion H as [|? ? Ha Hr]; subst. apply IH in Hr as [A B]. rewrite Forall_app in Ha. destruct Ha as [Ha Hw].
  inversion Hw; subst. split; constructor; auto.
Qed.

Lemma effs_move n d ts b w v : (1 <= d)%nat -> wr_ok d ts (op w) ->
  Forall (fine d ts) b -> Forall (fun x => lt w (nval x)) b -> Forall (fun x => lo (nval x) < lo w) b ->
  Forall (fun x => follows (op (nval x)) (op w)) b ->
  view_eq n (effs v (op w :: map (fun x => op (nval x)) b)) (effs v (map (fun x => op (nval x)) b ++ [op w])).
Proof.
  intros Hd Hw. revert v. induction b as [|x b IH]; intros v F L O C; cbn [map app]. apply view_refl.
  inversion F; inversion L; inversion O; inversion C; subst.
  match goal with H : fine _ _ x |- _ => destruct H as (_ & Hx & _) end.
  eapply view_trans; [|apply (IH (eff v (op (nval x)))); auto].
  change (op w :: op (nval x) :: map (fun x => op (nval x)) b) with ([op w; op (nval x)] ++ map (fun x => op (nval x)) b).
  change (view_eq n (effs v ([op w; op (nval x)] ++ map (fun x => op (nval x)) b)) (effs v ([op (nval x); op w] ++ map (fun x => op (nval x)) b))).
  rewrite !effs_app. apply effs_eq. eapply exchange; eauto.
Qed.

Lemma add_ok d ts n l iss w : (1 <= d)%nat -> wset d ts n l iss -> wr_ok d ts w -> tx_ok (iss ++ [w]) ->
  exists l', add_write l w = Ok l' /\ wset d ts n l' (iss ++ [w]).
Proof.
  intros Hd Hl Hw [Ht Hb]. pose proof (wset_fine _ _ _ _ _ Hl) as Ff. destruct Hl as (K & S & L & P & W & B & V).
  apply tx_last in Ht as [Hf _].
  set (t := TW w (zlen l)).
  assert (Lt : 0 <= lo t < 2 ^ 31) by (cbn; pose proof (zlen_nn l); lia).
  assert (Hfo : Forall (fun x => follows (op (nval x)) (op t)) l).
  { rewrite Forall_forall in *. intros x Hx. apply Hf. eapply Permutation_in; eauto.
    apply (in_map (fun x => op (nval x))) in Hx. auto. }
  assert (Hno : Forall (fun x => enc (nval x) <> enc t) l).
  { rewrite Forall_forall in *. intros x Hx E. destruct (Ff _ Hx) as (_ & Hx' & _).
    destruct (enc_eq d ts (nval x) t Hd Hx' Hw E) as [Hs|(? & ? & ? & ? & ? & ? & _ & _ & El)].
    - apply (Hfo _ Hx). auto.
    - specialize (L _ Hx). cbn [lo t] in El. lia. }
  assert (I : forall f, exists l', winsert l t f = Ok l' /\ wset d ts n l' (iss ++ [w])).
  { intros f. destruct (insert_new d ts t Hd Hw Lt l f) as (a & b & El & E & A & Bb); auto.
    { rewrite Forall_forall in Hno. auto. }
    exists (a ++ Node (Some t) t :: b). split; auto. subst l.
    rewrite zlen_app in *. assert (Zl : zlen (a ++ Node (Some t) t :: b) = zlen a + zlen b + 1).
    { rewrite zlen_app, zlen_cons. lia. }
    rewrite map_app in *.
    split; [|split; [|split; [|split; [|split; [|split]]]]].
    - rewrite Forall_app in *. destruct K. split; auto.
    - rewrite map_app. cbn [map nval]. apply sorted_ins; auto; rewrite Forall_map; auto.
    - rewrite Zl. pose proof (zlen_nn a). pose proof (zlen_nn b). rewrite Forall_app in *. destruct L as [L1 L2].
      assert (Lt0 : lo t = zlen a + zlen b) by (unfold t; cbn [lo]; apply zlen_app).
      split; [|constructor; [cbn [nval]; lia|]]; [eapply Forall_impl; [|exact L1]|eapply Forall_impl; [|exact L2]]; cbv beta; intros; lia.
    - rewrite map_app. cbn [map nval op t]. eapply perm_trans; [symmetry; apply Permutation_middle|].
      eapply perm_trans; [|apply Permutation_cons_append]. constructor. auto.
    - apply Forall_app. split; auto.
    - rewrite Zl. rewrite app_length in Hb. cbn in Hb.
      pose proof (Permutation_length P) as PL. rewrite app_length, !map_length in PL. unfold zlen. lia.
    - intros v. rewrite map_app. cbn [map nval op t]. rewrite effs_app. eapply view_trans.
      + rewrite Forall_app in *. destruct Hfo, Ff, L as [L1 L2]. eapply (effs_move n d ts b t); auto.
        assert (Lt0 : lo t = zlen a + zlen b) by (unfold t; cbn [lo]; apply zlen_app).
        eapply Forall_impl; [|exact L2]. cbv beta. intros; lia.
      + cbn [op t]. rewrite app_assoc || idtac. rewrite effs_app with (a := map (fun x => op (nval x)) b).
        rewrite <- effs_app with (a := map (fun x => op (nval x)) a). rewrite (effs_app v iss [w]). apply effs_eq. apply V. }
  destruct (search_ok d ts t Hd Hw Lt l None) as (p & E & _); auto; try discriminate.
  unfold add_write. fold t. destruct w; auto; rewrite E; cbn [bindr]; auto.
Qed.

(** The database. *)
Definition db_ok (d : nat) (ts : list Z) (x : db) : Prop :=
  forall t, In t ts -> exists tb, zlook (tabs x) t = Some tb /\ twf d tb.

Lemma read_tval d tb p : (1 <= d)%nat -> twf d tb -> length p = S d -> read_cell tb p = tval tb p.
Proof.
  intros Hd (Hs & Hr & Hf) Hp. destruct p as [|k ks]; [discriminate|]. cbn [read_cell tval]. cbn in Hp.
  unfold table_search_clustering, table_search. destruct ks as [|k' ks]; [cbn in Hp; lia|]. cbn [M_Queue.assert].
  destruct (sget (rows tb) k) as [r|] eqn:G; auto. apply sget_in in G; auto. rewrite Forall_forall in Hf.
  destruct (descend_ok (k' :: ks) d r) as (p & E & V). apply (Hf _ G). lia. rewrite E. destruct p; cbn in V; auto.
Qed.

Lemma put_view d t tb x : zlook (tabs x) t <> None ->
  vcell (view_of (DB (zupd (tabs x) t tb) d)) t = read_cell tb /\
  (forall u, u <> t -> vcell (view_of (DB (zupd (tabs x) t tb) d)) u = vcell (view_of x) u).
Proof.
  intros H. cbn. split; [|intros u N]; rewrite zlook_upd.
  - rewrite Z.eqb_refl. destruct (zlook (tabs x) t); [auto|congruence].
  - replace (u =? t) with false by lia. auto.
Qed.

Lemma qlook_put x t q s u r : qlook x t q <> None ->
  qlook (qput x t q s) u r = if (u =? t) && (r =? q) then Some s else qlook x u r.
Proof.
  unfold qlook, qput. cbn [qs]. rewrite zlook_upd. intros H. destruct (zlook (qs x) t) as [l|] eqn:E; [|congruence].
  destruct (Z.eqb_spec u t) as [->|N]; cbn [andb option_map]; auto. rewrite E, zlook_upd.
  destruct (r =? q); auto. destruct (zlook l q); [auto|congruence].
Qed.

Lemma insert_view d ts x t p data : (1 <= d)%nat -> db_ok d ts x -> wr_ok d ts (Upd t p data) ->
  exists x', db_insert x t p data = Ok (x', 0) /\ db_ok d ts x' /\ view_eq (S d) (view_of x') (eff (view_of x) (Upd t p data)).
Proof.
  intros Hd Hx (_ & Ht & Hl & Hda & _). destruct (Hx _ Ht) as (tb & E & W).
  unfold db_insert. rewrite E. destruct p as [|pk ks]; [discriminate|].
  destruct (insert_ok d tb pk ks data) as (tb' & E' & W' & _ & V); auto.
  unfold server_write in E'. destruct data as [|y data]; [congruence|]. cbn [M_Queue.assert] in E'.
  rewrite E'. cbn [bindr]. eexists. split; [reflexivity|]. split.
  - intros u Hu. cbn [tabs]. rewrite zlook_upd, E. cbn [option_map]. destruct (Z.eqb_spec u t); eauto.
  - destruct (put_view (qs x) t tb' x) as [P1 P2]; [congruence|].
    split; [|split]; auto. intros u p Hp. cbn [eff vcell]. destruct (Z.eqb_spec u t) as [->|N]; cbn [andb].
    + rewrite P1. rewrite (read_tval d) by auto. rewrite V by auto. destruct (same p (pk :: ks)); auto.
      cbn. rewrite E. rewrite (read_tval d); auto.
    + rewrite P2 by auto. auto.
Qed.

Lemma delete_view d ts x t p : (1 <= d)%nat -> db_ok d ts x -> wr_ok d ts (Del t p) ->
  exists x' st, db_delete_row x t p = Ok (x', st) /\ db_ok d ts x' /\ view_eq (S d) (view_of x') (eff (view_of x) (Del t p)).
Proof.
  intros Hd Hx (_ & Ht & Hl & _). destruct (Hx _ Ht) as (tb & E & W).
  unfold db_delete_row. rewrite E. destruct p as [|pk [|]]; try discriminate. change (zget [pk] 0) with (Some pk). cbn [orUB bindr].
  destruct (delete_ok d tb pk W) as (W' & _ & V). destruct (table_delete_row tb pk) as [tb' st]. cbn [fst] in *.
  do 2 eexists. split; [reflexivity|]. split.
  - intros u Hu. cbn [tabs]. rewrite zlook_upd, E. cbn [option_map]. destruct (Z.eqb_spec u t); eauto.
  - destruct (put_view (qs x) t tb' x) as [P1 P2]; [congruence|].
    split; [|split]; auto. intros u p Hp. cbn [eff vcell length]. destruct (Z.eqb_spec u t) as [->|N]; cbn [andb].
    + rewrite P1. rewrite (read_tval d) by auto. rewrite V by auto. destruct (same _ [pk]); auto.
      cbn. rewrite E. rewrite (read_tval d); auto.
    + rewrite P2 by auto. auto.
Qed.

Lemma enqueue_view n x t q v x' st : do_enqueue x t q v = (x', st) ->
  view_eq n (view_of x') (eff (view_of x) (Enq t q v)) /\ tabs x' = tabs x.
Proof.
  unfold do_enqueue. destruct (qlook x t q) as [s|] eqn:E; intros H; inversion H; subst; clear H.
  - split; auto. split; [|split]; cbn [eff view_of vcell vents vhead]; auto; intros u r; intros; rewrite qlook_put by congruence;
      destruct (Z.eqb_spec u t) as [->|]; cbn [andb]; auto; destruct (Z.eqb_spec r q) as [->|]; auto; rewrite E; auto.
  - split; auto. split; [|split]; cbn [eff view_of vcell vents vhead]; auto. intros u r.
    destruct ((u =? t) && (r =? q)) eqn:B; auto. assert (u = t /\ r = q) as [-> ->] by lia. rewrite E. auto.
Qed.

Lemma consume_view n x t q c h x' st : set_consume_head x t q c h = Ok (x', st) ->
  view_eq n (view_of x') (eff (view_of x) (Csm t q c h)) /\ tabs x' = tabs x.
Proof.
  unfold set_consume_head. destruct (qlook x t q) as [s|] eqn:E; intros H.
  - destruct (zlook (heads s) c) as [[rd cs]|] eqn:E2.
    + unfold M_Queue.assert in H. destruct (_ <=? _); [|discriminate]. destruct (_ && _); [|discriminate].
      inversion H; subst; clear H. split; auto.
      split; [|split]; cbn [eff view_of vcell vents vhead]; auto; intros u r; intros; rewrite qlook_put by congruence;
        destruct (Z.eqb_spec u t) as [->|]; cbn [andb]; auto; destruct (Z.eqb_spec r q) as [->|]; cbn [andb]; auto; rewrite ?E; auto.
      cbn [heads]. rewrite zlook_upd. destruct (Z.eqb_spec c0 c) as [->|]; auto. rewrite E2. auto.
    + inversion H; subst; clear H. split; auto. split; [|split]; cbn [eff view_of vcell vents vhead]; auto. intros u r e.
      destruct (_ && (e =? c)) eqn:B; auto. assert (u = t /\ r = q /\ e = c) as (-> & -> & ->) by lia. rewrite E, E2. auto.
  - inversion H; subst; clear H. split; auto. split; [|split]; cbn [eff view_of vcell vents vhead]; auto. intros u r e.
    destruct (_ && (e =? c)) eqn:B; auto. assert (u = t /\ r = q /\ e = c) as (-> & -> & ->) by lia. rewrite E. auto.
Qed.

Lemma persist_write_view d ts x w x' st : (1 <= d)%nat -> db_ok d ts x -> wr_ok d ts w ->
  persist_write x w = Ok (x', st) -> db_ok d ts x' /\ view_eq (S d) (view_of x') (eff (view_of x) w).
Proof.
  intros Hd Hx Hw H. destruct w; cbn [persist_write] in H.
  - destruct (insert_view d ts x t path data) as (y & E & A & B); auto. rewrite E in H. inversion H; subst. auto.
  - destruct (delete_view d ts x t keys) as (y & st' & E & A & B); auto. rewrite E in H. inversion H; subst. auto.
  - destruct (do_enqueue x t q x0) as [y st'] eqn:E. inversion H; subst. apply (enqueue_view (S d)) in E as [A B]. split; auto.
    intros u Hu. rewrite B. auto.
  - apply (consume_view (S d)) in H as [A B]. split; auto. intros u Hu. rewrite B. auto.
  - destruct Hw as [_ []].
  - destruct Hw as [_ []].
Qed.

Lemma persist_view d ts l : (1 <= d)%nat -> forall x st x' st', db_ok d ts x -> Forall (fine d ts) l ->
  persist x l st = Ok (x', st') -> db_ok d ts x' /\ view_eq (S d) (view_of x') (effs (view_of x) (map (fun n => op (nval n)) l)).
Proof.
  intros Hd. induction l as [|n l IH]; intros x st x' st' Hx Hf H; cbn [persist map] in *.
  - inversion H; subst. split; auto. apply view_refl.
  - inversion Hf as [|? ? Fn Fl]; subst. destruct Fn as (_ & Fw & _). destruct (persist_write x (op (nval n))) as [[y st1]| | |] eqn:E; try discriminate. cbn [bindr] in H.
    eapply persist_write_view in E as [Hy Vy]; eauto. apply IH in H as [Hx' V']; auto. split; auto.
    eapply view_trans; eauto. change (effs (view_of x) (op (nval n) :: map (fun n => op (nval n)) l)) with
      (effs (eff (view_of x) (op (nval n))) (map (fun n => op (nval n)) l)). apply effs_eq. auto.
Qed.

Lemma persist_fine d ts l : (1 <= d)%nat -> forall x st, db_ok d ts x -> Forall (fine d ts) l ->
  Forall (fun n => match op (nval n) with Csm _ _ _ _ => False | _ => True end) l ->
  exists r, persist x l st = Ok r.
Proof.
  intros Hd. induction l as [|n l IH]; intros x st Hx Hf Hn; cbn [persist]. eauto.
  inversion Hf as [|? ? Fn Fl]; inversion Hn as [|? ? Nn Nl]; subst. destruct Fn as (_ & Fw & _).
  assert (exists y st1, persist_write x (op (nval n)) = Ok (y, st1)) as (y & st1 & E).
  { destruct (op (nval n)); cbn [persist_write]; try tauto.
    - destruct (insert_view d ts x t path data) as (y & E & _); eauto.
    - destruct (delete_view d ts x t keys) as (y & st' & E & _); eauto.
    - destruct (do_enqueue x t q x0); eauto.
    - destruct Fw as [_ []].
    - destruct Fw as [_ []]. }
  rewrite E. cbn [bindr]. apply IH; auto. eapply persist_write_view; eauto.
Qed.

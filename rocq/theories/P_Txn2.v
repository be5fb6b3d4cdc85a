(** The server against the book. *)
From Verif Require Import Base S_Table S_Txn M_Table M_Txn P_Base P_Bmh P_Table P_Txn.
From Coq Require Import Lia ZifyBool Sorting.Sorted Permutation.

Lemma zupd_keys {A} (l : list (Z * A)) i x : map fst (zupd l i x) = map fst l.
Proof.
  induction l as [|[j y] t IH]; cbn [zupd]; auto. destruct (j =? i); cbn [map fst]; auto. rewrite IH. auto.
Qed.
Lemma zdel_in {A} (l : list (Z * A)) i j : In j (map fst (zdel l i)) -> In j (map fst l) /\ j <> i.
Proof.
  induction l as [|[k y] t IH]; cbn [zdel map In]; auto. destruct (Z.eqb_spec k i) as [->|N]; cbn [map fst In].
  - intros H. apply IH in H. tauto.
  - intros [H|H]; [subst; auto|apply IH in H; tauto].
Qed.
Lemma zdel_nodup {A} (l : list (Z * A)) i : NoDup (map fst l) -> NoDup (map fst (zdel l i)).
Proof.
  induction l as [|[k y] t IH]; cbn [zdel map]; auto. intros H. inversion H; subst. destruct (k =? i); auto.
  cbn [map fst]. constructor; auto. intros C. apply zdel_in in C. tauto.
Qed.
Lemma zlook_in {A} (l : list (Z * A)) i x : NoDup (map fst l) -> (In (i, x) l <-> zlook l i = Some x).
Proof.
  induction l as [|[k y] t IH]; cbn [zlook map In fst]; intros H. split; [tauto|discriminate].
  inversion H as [|? ? Hn Ht]; subst. destruct (Z.eqb_spec k i) as [->|N].
  - split; [|intros E; inversion E; auto]. intros [E|E]; [inversion E; auto|]. exfalso. apply Hn.
    change i with (fst (i, x)). apply in_map. auto.
  - rewrite <- IH by auto. split; [intros [E|E]; [inversion E; congruence|auto]|auto].
Qed.
Lemma zlook_none {A} (l : list (Z * A)) i : zlook l i = None -> ~ In i (map fst l).
Proof.
  induction l as [|[k y] t IH]; cbn [zlook map In fst]; auto. destruct (Z.eqb_spec k i); [discriminate|]. intros H [E|E]; auto.
  apply IH in E; auto.
Qed.

Section S.
Variables (d : nat) (ts : list Z) (v0 : view).
Hypothesis Hd : (1 <= d)%nat.

Definition paired (x : option txn) (y : option (list wr * bool)) : Prop :=
  match x, y with
  | Some x, Some (iss, asked) => wset d ts (S d) (ws x) iss /\ (valid x = true -> asked = true)
  | None, None => True
  | _, _ => False
  end.

Definition inv (s : srv) (b : book) (g : list Z) : Prop :=
  db_ok d ts (sdb s) /\
  (forall i, paired (zlook (txns s) i) (zlook (bopen b) i)) /\
  NoDup (map fst (txns s)) /\
  view_eq (S d) (view_of (sdb s)) (effs v0 (blog b)) /\
  (forall i, In i g <-> exists x, zlook (txns s) i = Some x /\ valid x = true).

Lemma wset_nil n : wset d ts n [] [].
Proof.
  split; [constructor|]. split; [constructor|]. split; [constructor|]. split; [constructor|]. split; [constructor|].
  split. reflexivity. intros. apply view_refl.
Qed.

Lemma direct_ok x w x' st : db_ok d ts x -> wr_ok d ts w -> match w with Csm _ _ _ _ => False | _ => True end ->
  direct x w = Ok (x', st) -> db_ok d ts x' /\ view_eq (S d) (view_of x') (eff (view_of x) w).
Proof.
  intros Hx Hw Hc H. apply (persist_write_view d ts x w x' st); auto.
  destruct w; cbn [direct persist_write] in *; try tauto; unfold M_Queue.assert in H.
  - destruct (zlook (tabs x) t) eqn:E; [|discriminate]. cbn [orUB bindr] in H. destruct data; [discriminate|].
    destruct (db_insert x t path (z :: data)) as [[y s]| | |]; try discriminate. cbn [bindr] in H.
    destruct (s =? 0); [auto|discriminate].
  - destruct (zlook (tabs x) t) eqn:E; [|discriminate]. cbn [orUB bindr] in H. destruct (_ =? 1); [|discriminate].
    destruct (db_delete_row x t keys) as [[y s]| | |]; try discriminate. cbn [bindr] in H.
    destruct (s =? 0); [auto|discriminate].
  - destruct (do_enqueue x t q x0) as [y s]. destruct (s =? 0); [auto|discriminate].
  - destruct Hw as [_ []].
Qed.

Lemma step_ok s b g r s' a : inv s b g -> req_ok d ts b r -> serve s r = Ok (s', a) -> inv s' (note b r) (grant g (r, a)).
Proof.
  intros (Hx & Hp & Hn & Hv & Hg) Hr H. destruct r as [i|[i|] w|i t pk|i|i|i]; cbn [serve note grant] in *.
  - (* begin *) pose proof (Hp i) as Pi. destruct (zlook (txns s) i) eqn:E; inversion H; subst; clear H.
    + destruct (zlook (bopen b) i) eqn:E2; [|destruct Pi]. unfold inv; auto 10.
    + destruct (zlook (bopen b) i) eqn:E2; [destruct Pi|].
      split; [|split; [|split; [|split]]]; auto; cbn [txns sdb bopen blog].
      * intros j. rewrite !zlook_app by auto. destruct (Z.eqb_spec j i); [|apply Hp]. cbn. split. apply wset_nil. discriminate.
      * rewrite map_app. cbn [map fst]. apply NoDup_Add with (a := i) (l := map fst (txns s)).
        -- pose proof (Add_app i (map fst (txns s)) []) as A. rewrite app_nil_r in A. auto.
        -- split; auto. apply zlook_none. auto.
      * intros j. rewrite Hg. rewrite zlook_app by auto. destruct (Z.eqb_spec j i) as [->|]; [|tauto].
        rewrite E. split; intros (x & E' & V); [discriminate|]. inversion E'; subst. discriminate.
  - (* write in a transaction *) destruct Hr as [Hw Ht]. destruct (acceptable (sdb s) w); try discriminate. cbn [bindr] in H.
    pose proof (Hp i) as Pi. destruct (zlook (txns s) i) as [x|] eqn:E.
    + destruct (zlook (bopen b) i) as [[iss v]|] eqn:E2; [|destruct Pi]. destruct Pi as [Pw Pv].
      destruct (add_ok d ts (S d) (ws x) iss w) as (l & El & Wl); auto. eapply Ht; eauto. rewrite El in H. cbn [bindr] in H.
      inversion H; subst; clear H. split; [|split; [|split; [|split]]]; auto; cbn [txns sdb bopen blog].
      * intros j. rewrite !zlook_upd. destruct (Z.eqb_spec j i); [|apply Hp]. rewrite E, E2. cbn. split; auto.
      * rewrite zupd_keys. auto.
      * intros j. rewrite Hg. rewrite zlook_upd. destruct (Z.eqb_spec j i) as [->|]; [|tauto]. rewrite E. cbn [option_map].
        split; intros (y & E' & V); inversion E'; subst; eexists; split; eauto.
    + destruct (zlook (bopen b) i) eqn:E2; [destruct Pi|]. unfold M_Queue.assert in H. destruct (unknown_ok w); [|discriminate].
      inversion H; subst. unfold inv; auto 10.
  - (* write outside *) destruct Hr as [Hw Hc]. destruct (direct (sdb s) w) as [[y st]| | |] eqn:E; try discriminate. cbn [bindr] in H.
    inversion H; subst; clear H. eapply direct_ok in E as [Hy Vy]; eauto.
    split; [|split; [|split; [|split]]]; auto. cbn [sdb blog].
    rewrite effs_app. eapply view_trans; eauto. apply (effs_eq (S d) [w]). auto.
  - (* read *) destruct (zlook (tabs (sdb s)) t); [|discriminate]. cbn [orUB bindr] in H.
    destruct (server_read t0 pk []); try discriminate. cbn [bindr] in H. inversion H; subst. unfold inv; auto 10.
  - (* validate *) unfold validate_txn in H. pose proof (Hp i) as Pi. destruct (zlook (txns s) i) as [x|] eqn:E.
    + destruct (zlook (bopen b) i) as [[iss v]|] eqn:E2; [|destruct Pi]. destruct Pi as [Pw Pv].
      unfold M_Queue.assert in H. destruct (valid x) eqn:Ev; [discriminate|]. cbn [negb] in H.
      destruct (validate_writes s i (ws x)) as [st| | |] eqn:Es; try discriminate. cbn [bindr] in H.
      inversion H; subst; clear H. destruct (Z.eqb_spec st VAL_STATUS_COMMIT) as [->|Ns].
      * cbn [VAL_STATUS_COMMIT]. split; [|split; [|split; [|split]]]; auto; cbn [txns sdb bopen blog].
        -- intros j. rewrite !zlook_upd. destruct (Z.eqb_spec j i); [|apply Hp]. rewrite E, E2. cbn. split; auto.
        -- rewrite zupd_keys. auto.
        -- intros j. cbn [In]. rewrite Hg. rewrite zlook_upd. destruct (Z.eqb_spec j i) as [->|N].
           ++ rewrite E. cbn [option_map]. split; auto. intros _. eexists. split; eauto.
           ++ split; [intros [C|C]; [congruence|auto]|auto].
      * split; [|split; [|split; [|split]]]; auto; cbn [txns sdb bopen blog].
        -- intros j. rewrite !zlook_upd. destruct (Z.eqb_spec j i) as [->|]; [|apply Hp]. rewrite E, E2. cbn. split; auto.
        -- unfold VAL_STATUS_COMMIT in Ns. intros j. rewrite <- Hg. destruct st; tauto.
    + destruct (zlook (bopen b) i) eqn:E2; [destruct Pi|]. inversion H; subst. unfold inv; auto 10.
  - (* commit *) pose proof (Hp i) as Pi. destruct (zlook (txns s) i) as [x|] eqn:E.
    + destruct (zlook (bopen b) i) as [[iss v]|] eqn:E2; [|destruct Pi]. destruct Pi as [Pw Pv].
      destruct (persist (sdb s) (ws x) 0) as [[y st]| | |] eqn:Ep; try discriminate. cbn [bindr] in H. inversion H; subst; clear H.
      pose proof (wset_fine _ _ _ _ _ Pw) as Ff.
      eapply persist_view in Ep as [Hy Vy]; eauto.
      split; [|split; [|split; [|split]]]; auto; cbn [txns sdb bopen blog].
      * intros j. rewrite !zlook_del. destruct (j =? i); [exact I|apply Hp].
      * apply zdel_nodup. auto.
      * rewrite effs_app. destruct Pw as (_ & _ & _ & _ & _ & _ & V). eapply view_trans; eauto. eapply view_trans; [apply V|].
        apply effs_eq. auto.
      * intros j. rewrite filter_In, Hg, zlook_del. destruct (Z.eqb_spec j i); cbn [negb].
        split; [intros [_ C]; discriminate|intros (y0 & C & _); discriminate]. tauto.
    + destruct (zlook (bopen b) i) eqn:E2; [destruct Pi|]. inversion H; subst. split; auto. split; auto. split; auto. split; auto.
      intros j. rewrite filter_In, Hg. split; [tauto|]. intros C. split; auto. destruct (Z.eqb_spec j i) as [->|]; auto.
      rewrite E in C. destruct C as (? & C & _). discriminate.
  - (* abort *) destruct (zlook (txns s) i) as [x|] eqn:E; [|discriminate]. inversion H; subst; clear H.
    split; [|split; [|split; [|split]]]; auto; cbn [txns sdb bopen blog].
    + intros j. rewrite !zlook_del. destruct (j =? i); [exact I|apply Hp].
    + apply zdel_nodup. auto.
    + intros j. rewrite filter_In, Hg, zlook_del. destruct (Z.eqb_spec j i); cbn [negb].
      split; [intros [_ C]; discriminate|intros (y0 & C & _); discriminate]. tauto.
Qed.

Lemma run_inv rs : forall s b g s' l, inv s b g -> legal d ts b rs -> run s rs = Ok (s', l) ->
  inv s' (fold_left note rs b) (fold_left grant (combine rs l) g).
Proof.
  induction rs as [|r rs IH]; intros s b g s' l Hi Hl H; cbn [run fold_left combine] in *.
  - inversion H; subst. auto.
  - destruct Hl as [Hr Hl]. destruct (serve s r) as [[s1 a]| | |] eqn:E; try discriminate. cbn [bindr] in H.
    destruct (run s1 rs) as [[s2 l2]| | |] eqn:E2; try discriminate. cbn [bindr] in H. inversion H; subst.
    cbn [combine fold_left]. eapply IH; eauto. eapply step_ok; eauto.
Qed.

(** Validation. *)
Lemma conflict_ok w l i : wr_ok d ts (op w) -> row_change (op w) -> 0 <= lo w < 2 ^ 31 ->
  (forall j x, In (j, x) l -> exists iss, wset d ts (S d) (ws x) iss) ->
  exists b, conflict l i w = Ok b /\
    (b = true <-> exists j x n, In (j, x) l /\ j <> i /\ valid x = true /\ In n (ws x) /\ same_thing (op w) (op (nval n))).
Proof.
  intros Hw Hr Lw. induction l as [|[j x] l IH]; intros H; cbn [conflict].
  - exists false. split; auto. split; [discriminate|]. intros (j & x & n & [] & _).
  - destruct IH as (b & E & B). { intros; eapply H; right; eauto. }
    destruct (valid x) eqn:Ev; cbn [negb orb].
    2: { exists b. split; auto. rewrite B. split; intros (j' & x' & n & I & R); exists j', x', n; split; auto.
         right; auto. destruct I as [I|I]; auto. inversion I; subst. destruct R as (_ & R & _). congruence. }
    destruct (Z.eqb_spec j i) as [->|N].
    { exists b. split; auto. rewrite B. split; intros (j' & x' & n & I & R); exists j', x', n; split; auto.
         right; auto. destruct I as [I|I]; auto. inversion I; subst. destruct R as (R & _). congruence. }
    destruct (H j x ltac:(left; auto)) as (iss & Ws). pose proof (wset_fine _ _ _ _ _ Ws) as Ff.
    destruct (search_ok d ts w Hd Hw Lw (ws x) None) as (p & Ep & P); auto; try discriminate.
    { apply Ws. }
    rewrite Ep. cbn [bindr]. destruct p as [n0|].
    + exists true. split; auto. split; auto. intros _. destruct P as [P _]. destruct P as (n & [C|In_] & Ee); [congruence|congruence|].
      exists j, x, n. split. left; auto. split; auto. split; auto. split; auto.
      rewrite Forall_forall in Ff. destruct (Ff _ In_) as (_ & Fn & _).
      destruct (enc_eq d ts w (nval n) Hd Hw Fn (eq_sym Ee)) as [S|(? & ? & ? & ? & ? & ? & S & _)]; auto.
      rewrite S in Hr. destruct Hr.
    + exists b. split; auto. rewrite B. split; intros (j' & x' & n & I & R); exists j', x', n; split; auto. right; auto.
      destruct I as [I|I]; auto. inversion I; subst j' x'. exfalso. destruct R as (_ & _ & In_ & St).
      apply (proj2 P); auto. exists n. split; auto. symmetry. apply same_enc; auto.
Qed.

Lemma validate_ok s b g i iss : inv s b g -> zlook (bopen b) i = Some (iss, false) -> Forall row_change iss ->
  exists s' st, serve s (RValidate i) = Ok (s', Status st) /\ (st = VAL_STATUS_COMMIT \/ st = VAL_STATUS_ABORT) /\
    (st = VAL_STATUS_ABORT <-> exists j iss' a', j <> i /\ In j g /\ zlook (bopen b) j = Some (iss', a') /\
                                 exists w w', In w iss /\ In w' iss' /\ same_thing w w').
Proof.
  intros (Hx & Hp & Hn & Hv & Hg) Hb Hr. cbn [serve]. unfold validate_txn. pose proof (Hp i) as Pi. rewrite Hb in Pi.
  destruct (zlook (txns s) i) as [x|] eqn:E; [|destruct Pi]. destruct Pi as [Pw Pv].
  destruct (valid x) eqn:Ev. specialize (Pv eq_refl). discriminate. cbn [negb M_Queue.assert].
  assert (Q : exists st, validate_writes s i (ws x) = Ok st /\ (st = VAL_STATUS_COMMIT \/ st = VAL_STATUS_ABORT) /\
    (st = VAL_STATUS_ABORT <-> exists j iss' a', j <> i /\ In j g /\ zlook (bopen b) j = Some (iss', a') /\
                                 exists w w', In w (map (fun n => op (nval n)) (ws x)) /\ In w' iss' /\ same_thing w w')).
  { pose proof (wset_fine _ _ _ _ _ Pw) as Ff. destruct Pw as (_ & _ & _ & Pp & _).
    assert (Rr : Forall (fun n => row_change (op (nval n))) (ws x)).
    { rewrite Forall_forall in *. intros n Hi. apply Hr. eapply Permutation_in; [exact Pp|].
      apply (in_map (fun n => op (nval n)) _ _ Hi). }
    clear Pp. induction (ws x) as [|n l IH]; cbn [validate_writes map].
    - exists VAL_STATUS_COMMIT. split; auto. split; auto. split; [discriminate|].
      intros (_ & _ & _ & _ & _ & _ & w & _ & [] & _).
    - inversion Ff as [|? ? Fn Fl]; inversion Rr as [|? ? Rn Rl]; subst. destruct Fn as (_ & Fw & Flo).
      destruct IH as (st & Est & Sst & Q); auto.
      destruct (conflict_ok (nval n) (txns s) i) as (c & Ec & C); auto.
      { intros j y Hi. apply zlook_in in Hi; auto. pose proof (Hp j) as Pj. rewrite Hi in Pj.
        destruct (zlook (bopen b) j) as [[is ?]|]; [|destruct Pj]. exists is. apply Pj. }
      assert (Ei : invalidated s i (nval n) = Ok (if c then VAL_STATUS_ABORT else 0)).
      { unfold invalidated. destruct (op (nval n)); try destruct Rn; rewrite Ec; auto. }
      rewrite Ei. cbn [bindr]. destruct c; cbn [Z.eqb VAL_STATUS_ABORT].
      + exists VAL_STATUS_ABORT. split; auto. split; auto. split; auto. intros _.
        destruct C as [C _]. destruct (C eq_refl) as (j & y & m & Hi & Nj & Vy & Hm & Sm).
        apply zlook_in in Hi; auto. pose proof (Hp j) as Pj. rewrite Hi in Pj.
        destruct (zlook (bopen b) j) as [[is a']|] eqn:Ej; [|destruct Pj]. destruct Pj as [(_ & _ & _ & Pm & _) _].
        exists j, is, a'. split; auto. split. apply Hg. eauto. split; auto. exists (op (nval n)), (op (nval m)).
        split. left; auto. split; auto. eapply Permutation_in; [exact Pm|]. apply (in_map (fun n => op (nval n)) _ _ Hm).
      + exists st. split; auto. split; auto. rewrite Q. split.
        * intros (j & is & a' & A & B & D & w & w' & F & G & H). exists j, is, a'. split; auto. split; auto. split; auto.
          exists w, w'. split; auto. right; auto.
        * intros (j & is & a' & A & B & D & w & w' & [F|F] & G & H).
          -- exfalso. subst w. enough (false = true) by discriminate. apply C. apply Hg in B as (y & Ey & Vy).
             pose proof (Hp j) as Pj. rewrite Ey, D in Pj. destruct Pj as [(_ & _ & _ & Pm & _) _].
             apply Permutation_sym in Pm. pose proof (Permutation_in _ Pm G) as Gi. apply in_map_iff in Gi as (m & Em & Im).
             exists j, y, m. split. apply zlook_in; auto. subst w'. auto.
          -- exists j, is, a'. split; auto. split; auto. split; auto. exists w, w'. auto. }
  destruct Q as (st & Est & Sst & Q). rewrite Est. cbn [bindr]. do 2 eexists. split; [reflexivity|]. split; auto. rewrite Q.
  destruct Pw as (_ & _ & _ & Pp & _).
  split; intros (j & is & a' & A & B & D & w & w' & F & G); exists j, is, a'; (split; [auto|split; [auto|split; [auto|]]]);
    exists w, w'; (split; [|auto]); [|apply Permutation_sym in Pp]; eapply Permutation_in; eauto.
Qed.

(** Orderly histories do not fail. *)
Lemma validate_total s i l : (forall j x, In (j, x) (txns s) -> exists iss, wset d ts (S d) (ws x) iss) ->
  Forall (fine d ts) l -> exists st, validate_writes s i l = Ok st.
Proof.
  intros Ht. induction l as [|n l IH]; intros F; cbn [validate_writes]. eauto.
  inversion F as [|? ? Fn Fl]; subst. destruct Fn as (_ & Fw & Flo).
  assert (exists st, invalidated s i (nval n) = Ok st) as (st & E).
  { unfold invalidated. destruct (op (nval n)) eqn:Eo; eauto;
      (destruct (conflict_ok (nval n) (txns s) i) as (c & Ec & _); auto; [rewrite Eo; exact I|auto|]; [rewrite Eo; auto|rewrite Ec; cbn [bindr]; eauto]) ||
      (destruct (conflict_ok (nval n) (txns s) i) as (c & Ec & _); auto; try (rewrite Eo; auto; exact I); rewrite Ec; cbn [bindr]; eauto). }
  rewrite E. cbn [bindr]. destruct (st =? 0); eauto.
Qed.

Lemma serve_total s b g r : inv s b g -> req_ok d ts b r -> kept ts b r ->
  (forall i iss v, zlook (bopen b) i = Some (iss, v) -> Forall (fun w => match w with Csm _ _ _ _ => False | _ => True end) iss) ->
  exists s' a, serve s r = Ok (s', a).
Proof.
  intros (Hx & Hp & Hn & Hv & Hg) Hr Hk Hc.
  assert (Ht : forall j x, In (j, x) (txns s) -> exists iss, wset d ts (S d) (ws x) iss).
  { intros j x Hi. apply zlook_in in Hi; auto. pose proof (Hp j) as Pj. rewrite Hi in Pj.
    destruct (zlook (bopen b) j) as [[is ?]|]; [|destruct Pj]. exists is. apply Pj. }
  destruct r as [i|[i|] w|i t pk|i|i|i]; cbn [serve req_ok kept] in *.
  - destruct (zlook (txns s) i); eauto.
  - destruct Hr as [Hw Htx]. destruct Hk as [(y & Ey) Hcs]. pose proof (Hp i) as Pi. rewrite Ey in Pi. destruct y as [iss v].
    destruct (zlook (txns s) i) as [x|] eqn:E; [|destruct Pi]. destruct Pi as [Pw _].
    assert (acceptable (sdb s) w = Ok tt) as ->.
    { destruct Hw as [_ Hw]. destruct w; cbn [acceptable] in *; auto.
      - destruct Hw as (Hin & _ & Hda & _). destruct (Hx _ Hin) as (tb & Et & _). rewrite Et. cbn. destruct data; [congruence|auto].
      - destruct Hw as (Hin & _). destruct (Hx _ Hin) as (tb & Et & _). rewrite Et. auto. }
    cbn [bindr]. destruct (add_ok d ts (S d) (ws x) iss w) as (l & El & _); eauto. rewrite El. cbn [bindr]. eauto.
  - destruct Hr as [Hw _]. destruct w; try tauto. cbn [direct]. destruct (insert_view d ts (sdb s) t path data) as (y & E & _); auto.
    destruct Hw as (_ & Hin & _ & Hda & _). destruct (Hx _ Hin) as (tb & Et & _). rewrite Et. cbn [orUB bindr].
    destruct data; [congruence|]. cbn [M_Queue.assert]. rewrite E. cbn. eauto.
  - destruct (Hx _ Hk) as (tb & Et & Wt). rewrite Et. cbn [orUB bindr]. destruct (row_read_ok d tb pk Hd Wt) as (cs & R & _).
    rewrite R. cbn [bindr]. eauto.
  - unfold validate_txn. pose proof (Hp i) as Pi. destruct (zlook (txns s) i) as [x|] eqn:E; cbn [bindr]; eauto.
    destruct (zlook (bopen b) i) as [[iss v]|] eqn:E2; [|destruct Pi]. destruct Pi as [Pw Pv]. specialize (Hk _ _ eq_refl). subst v.
    destruct (valid x). specialize (Pv eq_refl). discriminate. cbn [negb M_Queue.assert].
    destruct (validate_total s i (ws x) Ht (wset_fine _ _ _ _ _ Pw)) as (st & Es). rewrite Es. cbn [bindr]. eauto.
  - pose proof (Hp i) as Pi. destruct (zlook (txns s) i) as [x|] eqn:E; eauto.
    destruct (zlook (bopen b) i) as [[iss v]|] eqn:E2; [|destruct Pi]. destruct Pi as [Pw Pv].
    destruct (persist_fine d ts (ws x) Hd (sdb s) 0) as ([y st] & Ep); auto. eapply wset_fine; eauto.
    { specialize (Hc _ _ _ E2). destruct Pw as (_ & _ & _ & Pp & _). rewrite Forall_forall in *. intros n Hi.
      apply Hc. eapply Permutation_in; [exact Pp|]. apply (in_map (fun n => op (nval n)) _ _ Hi). }
    rewrite Ep. cbn [bindr]. eauto.
  - destruct Hk as (y & Ey). pose proof (Hp i) as Pi. rewrite Ey in Pi. destruct (zlook (txns s) i); [eauto|destruct Pi].
Qed.

Lemma csm_kept b r : kept ts b r ->
  (forall i iss v, zlook (bopen b) i = Some (iss, v) -> Forall (fun w => match w with Csm _ _ _ _ => False | _ => True end) iss) ->
  (forall i iss v, zlook (bopen (note b r)) i = Some (iss, v) -> Forall (fun w => match w with Csm _ _ _ _ => False | _ => True end) iss).
Proof.
  intros Hk Hc i iss v. destruct r as [j|[j|] w|j t pk|j|j|j]; cbn [note kept] in *; eauto.
  - destruct (zlook (bopen b) j) eqn:E; eauto. cbn [bopen]. rewrite zlook_app by auto. destruct (i =? j); eauto.
    intros X. inversion X; subst. constructor.
  - destruct Hk as [_ Hw]. destruct (zlook (bopen b) j) as [[is u]|] eqn:E; eauto. cbn [bopen]. rewrite zlook_upd, E.
    destruct (i =? j); eauto. intros X. inversion X; subst. apply Forall_app. split; eauto.
  - destruct (zlook (bopen b) j) as [[is u]|] eqn:E; eauto. cbn [bopen]. rewrite zlook_upd, E.
    destruct (i =? j); eauto. intros X. inversion X; subst. eauto.
  - destruct (zlook (bopen b) j) as [[is u]|] eqn:E; eauto. cbn [bopen]. rewrite zlook_del. destruct (i =? j); eauto. discriminate.
  - cbn [bopen]. rewrite zlook_del. destruct (i =? j); eauto. discriminate.
Qed.

Lemma run_total rs : forall s b g, inv s b g -> legal d ts b rs -> orderly ts b rs ->
  (forall i iss v, zlook (bopen b) i = Some (iss, v) -> Forall (fun w => match w with Csm _ _ _ _ => False | _ => True end) iss) ->
  exists s' l, run s rs = Ok (s', l).
Proof.
  induction rs as [|r rs IH]; intros s b g Hi Hl Ho Hc; cbn [run]. eauto.
  destruct Hl as [Hr Hl], Ho as [Hk Ho]. destruct (serve_total s b g r) as (s1 & a & E); auto. rewrite E. cbn [bindr].
  destruct (IH s1 (note b r) (grant g (r, a))) as (s2 & l & E2); auto. eapply step_ok; eauto. apply csm_kept; auto.
  rewrite E2. cbn [bindr]. eauto.
Qed.

(** Two transactions that may commit change different things. *)
Definition apart (b : book) (g : list Z) : Prop :=
  forall i j iss a iss' a' w w', i <> j -> In i g -> In j g ->
    zlook (bopen b) i = Some (iss, a) -> zlook (bopen b) j = Some (iss', a') -> In w iss -> In w' iss' ->
    row_change w -> ~ same_thing w w'.

Lemma same_sym w w' : same_thing w w' -> same_thing w' w.
Proof. destruct w, w'; cbn; try tauto; intuition auto. Qed.
Lemma same_row w w' : same_thing w w' -> row_change w -> row_change w'.
Proof. destruct w, w'; cbn; tauto. Qed.

Lemma granted_asked s b g i iss a : inv s b g -> In i g -> zlook (bopen b) i = Some (iss, a) -> a = true.
Proof.
  intros (Hx & Hp & Hn & Hv & Hg) Hi E. apply Hg in Hi as (x & Ex & Vx). pose proof (Hp i) as Pi. rewrite Ex, E in Pi.
  apply Pi. auto.
Qed.

Lemma validated_apart s b g i x iss a : inv s b g -> zlook (txns s) i = Some x -> zlook (bopen b) i = Some (iss, a) ->
  validate_writes s i (ws x) = Ok 0 ->
  forall j iss' a' w w', i <> j -> In j g -> zlook (bopen b) j = Some (iss', a') -> In w iss -> In w' iss' ->
    row_change w -> ~ same_thing w w'.
Proof.
  intros (Hx & Hp & Hn & Hv & Hg) Ex Eb Hval j iss' a' w w' Nij Ij Ej Iw Iw' Rw St.
  pose proof (Hp i) as Pi. rewrite Ex, Eb in Pi. destruct Pi as [Pw _]. pose proof (wset_fine _ _ _ _ _ Pw) as Ff.
  destruct Pw as (_ & _ & _ & Pp & _). apply Permutation_sym in Pp. pose proof (Permutation_in _ Pp Iw) as Q.
  apply in_map_iff in Q as (n & En & In_). clear Pp. subst w. revert Ff In_ Hval. generalize (ws x) as l.
  induction l as [|m l IH]; intros Ff In_ Hval; cbn [validate_writes] in Hval; [destruct In_|].
  inversion Ff as [|? ? Fm Fl]; subst. destruct (invalidated s i (nval m)) as [st| | |] eqn:Ei; try discriminate. cbn [bindr] in Hval.
  destruct (Z.eqb_spec st 0) as [->|]; [|congruence]. destruct In_ as [->|In_]; [|auto].
  destruct Fm as (_ & Fw & Flo). destruct (conflict_ok (nval n) (txns s) i) as (c & Ec & C); auto.
  { intros k y Hi. apply zlook_in in Hi; auto. pose proof (Hp k) as Pj. rewrite Hi in Pj.
    destruct (zlook (bopen b) k) as [[is ?]|]; [|destruct Pj]. exists is. apply Pj. }
  assert (c = false) as ->.
  { unfold invalidated in Ei. destruct (op (nval n)); try destruct Rw; rewrite Ec in Ei; cbn [bindr] in Ei; destruct c; auto; discriminate. }
  enough (false = true) by discriminate. apply C. apply Hg in Ij as (y & Ey & Vy). pose proof (Hp j) as Pj. rewrite Ey, Ej in Pj.
  destruct Pj as [(_ & _ & _ & Pm & _) _]. apply Permutation_sym in Pm. pose proof (Permutation_in _ Pm Iw') as Gi.
  apply in_map_iff in Gi as (m & Em & Im). subst w'. exists j, y, m. split. apply zlook_in; auto. auto.
Qed.

Lemma step_apart s b g r s' a : inv s b g -> apart b g -> req_ok d ts b r -> settled b r -> serve s r = Ok (s', a) ->
  apart (note b r) (grant g (r, a)).
Proof.
  intros Hi Ha Hr Hs H. pose proof Hi as (Hx & Hp & Hn & Hv & Hg).
  destruct r as [i|[i|] w|i t pk|i|i|i]; cbn [note grant settled] in *; auto.
  - destruct (zlook (bopen b) i) eqn:E; auto. intros j k iss u iss' u' w w' N Ij Ik. cbn [bopen]. rewrite !zlook_app by auto.
    destruct (Z.eqb_spec j i) as [->|]; [|destruct (Z.eqb_spec k i) as [->|]].
    + apply Hg in Ij as (x & Ex & _). pose proof (Hp i) as P. rewrite Ex, E in P. destruct P.
    + apply Hg in Ik as (x & Ex & _). pose proof (Hp i) as P. rewrite Ex, E in P. destruct P.
    + apply Ha; auto.
  - destruct (zlook (bopen b) i) as [[iss0 v]|] eqn:E; auto. specialize (Hs _ _ eq_refl). subst v.
    intros j k iss u iss' u' w1 w' N Ij Ik. cbn [bopen]. rewrite !zlook_upd, E.
    destruct (Z.eqb_spec j i) as [->|]; [|destruct (Z.eqb_spec k i) as [->|]].
    + pose proof (granted_asked _ _ _ _ _ _ Hi Ij E). discriminate.
    + pose proof (granted_asked _ _ _ _ _ _ Hi Ik E). discriminate.
    + apply Ha; auto.
  - destruct (zlook (bopen b) i) as [[iss0 v]|] eqn:E.
    2: { cbn [serve] in H. unfold validate_txn in H. pose proof (Hp i) as P. rewrite E in P.
         destruct (zlook (txns s) i); [destruct P|]. cbn [bindr] in H. inversion H; subst. auto. }
    assert (Ha' : apart (Book (zupd (bopen b) i (iss0, true)) (blog b)) g).
    { intros j k iss u iss' u' w1 w' N Ij Ik. cbn [bopen]. rewrite !zlook_upd, E.
      destruct (Z.eqb_spec j i) as [->|]; [|destruct (Z.eqb_spec k i) as [->|]]; cbn [option_map]; intros A B.
      - replace (k =? i) with false in B by lia. inversion A; subst. exact (Ha i k iss v iss' u' w1 w' N Ij Ik E B).
      - inversion B; subst. exact (Ha j i iss u iss' v w1 w' N Ij Ik A E).
      - exact (Ha j k iss u iss' u' w1 w' N Ij Ik A B). }
    cbn [serve] in H. unfold validate_txn in H. pose proof (Hp i) as P. rewrite E in P.
    destruct (zlook (txns s) i) as [x|] eqn:Ex; [|destruct P]. unfold M_Queue.assert in H. destruct (valid x); [discriminate|].
    cbn [negb] in H. destruct (validate_writes s i (ws x)) as [st| | |] eqn:Ev; try discriminate. cbn [bindr] in H. inversion H; subst; clear H.
    destruct st; auto. pose proof (validated_apart s b g i x iss0 v Hi Ex E Ev) as V.
    intros j k iss u iss' u' w1 w' N Ij Ik. cbn [bopen]. rewrite !zlook_upd, E. cbn [In] in Ij, Ik.
    destruct (Z.eqb_spec j i) as [->|Nj]; [|destruct (Z.eqb_spec k i) as [->|Nk]]; cbn [option_map]; intros A B.
    + replace (k =? i) with false in B by lia. inversion A; subst. eapply V; eauto. destruct Ik; [congruence|auto].
    + inversion B; subst. intros I1 I2 R St. eapply (V j iss u w' w1); eauto. destruct Ij; [congruence|auto].
      eapply same_row; eauto. apply same_sym. auto.
    + destruct Ij; [congruence|]. destruct Ik; [congruence|]. apply (Ha j k iss u iss' u'); auto.
  - intros j k iss u iss' u' w1 w' N Ij Ik. apply filter_In in Ij as [Ij Nj], Ik as [Ik Nk].
    destruct (zlook (bopen b) i) as [[iss0 v]|] eqn:E; [|apply Ha; auto]. cbn [bopen]. rewrite !zlook_del.
    destruct (j =? i); [discriminate|]. destruct (k =? i); [discriminate|]. apply Ha; auto.
  - intros j k iss u iss' u' w1 w' N Ij Ik. apply filter_In in Ij as [Ij Nj], Ik as [Ik Nk]. cbn [bopen]. rewrite !zlook_del.
    destruct (j =? i); [discriminate|]. destruct (k =? i); [discriminate|]. apply Ha; auto.
Qed.

Lemma run_apart rs : forall s b g s' l, inv s b g -> apart b g -> legal d ts b rs -> all_settled b rs -> run s rs = Ok (s', l) ->
  apart (fold_left note rs b) (fold_left grant (combine rs l) g).
Proof.
  induction rs as [|r rs IH]; intros s b g s' l Hi Ha Hl Hs H; cbn [run fold_left combine] in *.
  - inversion H; subst. auto.
  - destruct Hl as [Hr Hl], Hs as [Hs1 Hs]. destruct (serve s r) as [[s1 a]| | |] eqn:E; try discriminate. cbn [bindr] in H.
    destruct (run s1 rs) as [[s2 l2]| | |] eqn:E2; try discriminate. cbn [bindr] in H. inversion H; subst.
    cbn [combine fold_left]. eapply IH; eauto. eapply step_ok; eauto. eapply step_apart; eauto.
Qed.
End S.

(** Lemmas for the command line theorems: one parser. *)
From Verif Require Import Base P_Base S_Argparse M_Argparse.

Lemma teqb_ok a b : teqb a b = true <-> a = b.
Proof. unfold teqb. destruct (list_eq_dec Z.eq_dec a b); split; congruence. Qed.
Lemma teqb_no a b : teqb a b = false <-> a <> b.
Proof. unfold teqb. destruct (list_eq_dec Z.eq_dec a b); split; congruence. Qed.
Lemma teqb_refl a : teqb a a = true.
Proof. apply teqb_ok. reflexivity. Qed.

Lemma lookup_set {A} k (v : A) m k' : lookup k' (set k v m) = if teqb k' k then Some v else lookup k' m.
Proof.
  induction m as [|[k0 v0] m IH]; cbn [set lookup].
  - reflexivity.
  - destruct (teqb k k0) eqn:E; cbn [lookup].
    + apply teqb_ok in E. subst k0. destruct (teqb k' k); reflexivity.
    + rewrite IH. destruct (teqb k' k0) eqn:E1; [|reflexivity].
      apply teqb_ok in E1. subst k0. destruct (teqb k' k) eqn:E2; [|reflexivity].
      apply teqb_ok in E2. subst k'. rewrite teqb_refl in E. discriminate.
Qed.

Lemma lookup_in {A} k (v : A) m : lookup k m = Some v -> In k (map fst m).
Proof.
  induction m as [|[k0 v0] m IH]; cbn [lookup map fst In]; [discriminate|].
  destruct (teqb k k0) eqn:E; [apply teqb_ok in E; auto|]. intros H. right. auto.
Qed.
Lemma lookup_none {A} k (m : list (list Z * A)) : lookup k m = None <-> ~ In k (map fst m).
Proof.
  induction m as [|[k0 v0] m IH]; cbn [lookup map fst In]; [tauto|].
  destruct (teqb k k0) eqn:E.
  - apply teqb_ok in E. subst. split; [discriminate|tauto].
  - apply teqb_no in E. rewrite IH. split; [intros H [K|K]; congruence|tauto].
Qed.

(** ** Bind *)
Lemma bindo_assoc {A B C} (r : out A) (f : A -> out B) (g : B -> out C) :
  bindo (bindo r f) g = bindo r (fun x => bindo (f x) g).
Proof. destruct r; reflexivity. Qed.

Lemma add_rest_nil r : add_rest [] r = r.
Proof. destruct r as [[[res rest] cmd]| | | | |]; reflexivity. Qed.
Lemma add_rest_app a b r : add_rest a (add_rest b r) = add_rest (a ++ b) r.
Proof. destruct r as [[[res rest] cmd]| | | | |]; cbn; try reflexivity. rewrite app_assoc. reflexivity. Qed.
Lemma add_rest_bind {A} a (r : out A) f : add_rest a (bindo r f) = bindo r (fun x => add_rest a (f x)).
Proof. destruct r; reflexivity. Qed.

Section Scan.
Variable int_of : list Z -> option Z.
Notation set_val := (set_val int_of).
Notation scan := (scan int_of).

(** The uses of this level's options, applied in order. *)
Fixpoint apply (p : parser) (us : list (list Z * list Z)) (res : opts_t) : out opts_t :=
  match us with
  | [] => Done res
  | (n, v) :: us' =>
      match lookup n (p_opts p) with
      | Some d => let! res := set_val n d v res in apply p us' res
      | None => OtherExn
      end
  end.

Lemma apply_app p a b res : apply p (a ++ b) res = bindo (apply p a res) (apply p b).
Proof.
  revert res. induction a as [|[n v] a IH]; intros res; cbn [app apply]; [reflexivity|].
  destruct (lookup n (p_opts p)); [|reflexivity]. rewrite bindo_assoc.
  destruct (set_val n o v res); cbn [bindo]; try reflexivity. apply IH.
Qed.

Definition own (j : nat) (us : list (nat * list Z * list Z)) : list (list Z * list Z) :=
  map (fun u => (snd (fst u), snd u)) (filter (fun u => Nat.eqb (fst (fst u)) j) us).
Lemma own_app j a b : own j (a ++ b) = own j a ++ own j b.
Proof. unfold own. rewrite filter_app, map_app. reflexivity. Qed.

Definition flag_uses (fs : list (nat * Z * list Z)) : list (nat * list Z * list Z) :=
  map (fun f => (fst (fst f), snd f, [])) fs.
Definition others (j : nat) := filter (fun f : nat * Z * list Z => negb (Nat.eqb (fst (fst f)) j)).

Lemma is_bool_mine p n : mine p n is_bool -> exists d, lookup n (p_opts p) = Some d /\ od_type d = OBool.
Proof. intros (d & H & E). exists d. auto. Qed.

Lemma group_flags p j fs cs res : Forall (flag_ok p j) fs ->
  group p (chars fs ++ cs) res =
  let! res := apply p (own j (flag_uses fs)) res in
  let! (r, u, o) := group p cs res in Done (r, chars (others j fs) ++ u, o).
Proof.
  intros F. revert res. induction F as [|[[k c] n] fs H F IH]; intros res.
  - cbn. destruct (group p cs res) as [[[r u] o]| | | | |]; reflexivity.
  - destruct H as (Nc & Hk & Hme & Hno).
    unfold chars. cbn [map fst snd app]. fold (chars fs). cbn [group].
    unfold flag_uses, own, others. cbn [map filter fst snd]. fold (flag_uses fs). fold (others j fs).
    destruct (Nat.eqb k j) eqn:E.
    + apply Nat.eqb_eq in E. destruct (Hme E) as [-> Hm]. apply is_bool_mine in Hm as (d & Hd & Ht).
      rewrite Hd. rewrite Ht. cbn [is_bool_t negb map fst snd apply]. rewrite Hd. unfold M_Argparse.set_val. rewrite Ht. cbn [bindo].
      rewrite IH. reflexivity.
    + apply Nat.eqb_neq in E. rewrite (Hno E). cbn [negb]. rewrite IH. fold (own j (flag_uses fs)).
      rewrite bindo_assoc. destruct (apply p (own j (flag_uses fs)) res); cbn [bindo]; try reflexivity.
      rewrite bindo_assoc. destruct (group p cs a) as [[[r u] o]| | | | |]; reflexivity.
Qed.

Lemma inline_none_flags p j fs cs : fs <> [] -> Forall (flag_ok p j) fs -> inline p (chars fs ++ cs) = None.
Proof.
  intros N F. destruct fs as [|[[k c] n] fs]; [contradiction|]. inversion F as [|? ? H0 _]; subst. destruct H0 as (Nc & Hk & Hme & Hno).
  unfold chars. cbn [map fst snd app inline]. destruct (map (fun f => snd (fst f)) fs ++ cs); [reflexivity|].
  destruct (Nat.eq_dec k j) as [E|E].
  - destruct (Hme E) as [-> Hm]. apply is_bool_mine in Hm as (d & -> & ->). reflexivity.
  - rewrite (Hno E). reflexivity.
Qed.

Lemma group_unknown p cs res : (forall c, In c cs -> lookup_short c (p_shorts p) = None) ->
  group p cs res = Done (res, cs, None).
Proof.
  induction cs as [|c cs IH]; intros H; cbn [group]; [reflexivity|].
  rewrite (H c (or_introl eq_refl)). rewrite IH by (intros x Hx; apply H; right; exact Hx). reflexivity.
Qed.

Lemma split_eq_none n : ~ In 61 n -> split_eq n = (n, None).
Proof.
  induction n as [|c n IH]; intros H; cbn [split_eq]; [reflexivity|].
  cbn in H. destruct (c =? 61) eqn:E; [exfalso; apply H; left; lia|]. rewrite IH by tauto. reflexivity.
Qed.
Lemma split_eq_some n v : ~ In 61 n -> split_eq (n ++ 61 :: v) = (n, Some v).
Proof.
  induction n as [|c n IH]; intros H; cbn [split_eq app]; [reflexivity|].
  cbn in H. destruct (c =? 61) eqn:E; [exfalso; apply H; left; lia|]. rewrite IH by tauto. reflexivity.
Qed.

Lemma plain_teqb v : plain v -> teqb v [45; 45] = false.
Proof. intros [->|H]; [reflexivity|]. apply teqb_no. apply H. Qed.
Lemma plain_starts2 v : plain v -> starts2 v = false.
Proof.
  intros [->|H]; [reflexivity|]. destruct v as [|c [|d v]]; try reflexivity. cbn.
  destruct (c =? 45) eqn:E; [|reflexivity]. exfalso. eapply H. f_equal. lia.
Qed.
Lemma plain_starts1 v : plain v -> starts1 v = false.
Proof.
  intros [->|H]; [reflexivity|]. destruct v as [|c [|d v]]; try reflexivity. cbn.
  destruct (c =? 45) eqn:E; [|reflexivity]. exfalso. eapply H. f_equal. lia.
Qed.

Lemma scan_plain p v t res seen : plain v ->
  scan p (v :: t) res seen =
  match lookup v (p_cmds p), seen with
  | Some _, None => scan p t res (Some v)
  | _, _ => add_rest [v] (scan p t res seen)
  end.
Proof.
  intros H. cbn [M_Argparse.scan]. rewrite plain_teqb, plain_starts2, plain_starts1 by assumption. reflexivity.
Qed.

Lemma scan_not_mine p v t res (seen : option (list Z)) sb : (sb = false -> seen = None) -> (sb = true -> seen <> None) ->
  not_mine p sb v -> scan p (v :: t) res seen = add_rest [v] (scan p t res seen).
Proof.
  intros S1 S2 (Hp & Hc). rewrite scan_plain by assumption.
  destruct sb.
  - destruct seen; [|exfalso; apply S2; reflexivity]. destruct (lookup v (p_cmds p)); reflexivity.
  - rewrite Hc by reflexivity. reflexivity.
Qed.

Lemma scan_long p n t res seen : n <> [] ->
  scan p ((45 :: 45 :: n) :: t) res seen =
        let '(key, val) := split_eq n in
        match lookup key (p_opts p) with
        | None => add_rest [45 :: 45 :: n] (scan p t res seen)
        | Some d =>
            if is_bool_t (od_type d) then let! res := set_val key d [] res in scan p t res seen
            else match val, t with
                 | Some v, _ => let! res := set_val key d v res in scan p t res seen
                 | None, v :: t' => let! res := set_val key d v res in scan p t' res seen
                 | None, [] => ArgError
                 end
        end.
Proof.
  intros H. cbn [M_Argparse.scan]. replace (teqb (45 :: 45 :: n) [45; 45]) with false.
  - cbn [starts2 andb skipn]. change (45 =? 45) with true. cbn [andb]. reflexivity.
  - symmetry. apply teqb_no. congruence.
Qed.

Lemma scan_short p c cs t res seen : c <> 45 ->
  scan p ((45 :: c :: cs) :: t) res seen =
        match inline p (c :: cs) with
        | Some (key, v, d) => let! res := set_val key d v res in scan p t res seen
        | None =>
            let! (res, unknown, o) := group p (c :: cs) res in
            match o, t with
            | None, _ => add_rest (dashed unknown) (scan p t res seen)
            | Some (key, d), v :: t' =>
                let! res := set_val key d v res in add_rest (dashed unknown) (scan p t' res seen)
            | Some _, [] => ArgError
            end
        end.
Proof.
  intros H. cbn [M_Argparse.scan]. replace (teqb (45 :: c :: cs) [45; 45]) with false.
  - cbn [starts2 starts1 skipn]. change (45 =? 45) with true. replace (c =? 45) with false by lia. cbn [andb]. reflexivity.
  - symmetry. apply teqb_no. congruence.
Qed.

Lemma write_group fs : write (match fs with [] => [] | _ => [Group fs] end) = dashed (chars fs).
Proof. destruct fs; reflexivity. Qed.

Lemma scan_item p j i t res seen sb : (sb = false -> seen = None) -> (sb = true -> seen <> None) ->
  item_ok p j sb i -> (forall n, i <> Cmd n) ->
  scan p (write1 i ++ t) res seen =
  let! res := apply p (own j (uses1 i)) res in add_rest (write (left1 j i)) (scan p t res seen).
Proof.
  intros S1 S2 Hi Nc. destruct i as [k n|k n v|k n v|fs|fs k c n v|k c n v|v|n]; cbn [item_ok] in Hi; cbn [write1 app].
  - destruct Hi as (Hn & H61 & Hk & Hme & Hno). rewrite scan_long, split_eq_none by assumption.
    unfold own. cbn [uses1 filter map fst snd left1]. destruct (Nat.eqb k j) eqn:E; cbn [negb].
    + apply Nat.eqb_eq in E. destruct (is_bool_mine _ _ (Hme E)) as (d & Hd & Ht).
      cbn [map fst snd apply]. rewrite Hd, Ht. cbn [is_bool_t]. rewrite bindo_assoc.
      destruct (set_val n d [] res); cbn [bindo]; try reflexivity. cbn [write flat_map]. rewrite add_rest_nil. reflexivity.
    + apply Nat.eqb_neq in E. rewrite (Hno E). reflexivity.
  - destruct Hi as (H61 & Hk & Hme & Hno). rewrite scan_long by (destruct n; discriminate). rewrite split_eq_some by assumption.
    unfold own. cbn [uses1 filter map fst snd left1]. destruct (Nat.eqb k j) eqn:E; cbn [negb].
    + apply Nat.eqb_eq in E. destruct (Hme E) as (d & Hd & Ht).
      cbn [map fst snd apply]. rewrite Hd. replace (is_bool_t (od_type d)) with false by (destruct (od_type d); [exfalso; apply Ht; reflexivity|reflexivity..]).
      rewrite bindo_assoc. destruct (set_val n d v res); cbn [bindo]; try reflexivity. cbn [write flat_map]. rewrite add_rest_nil. reflexivity.
    + apply Nat.eqb_neq in E. rewrite (Hno E). reflexivity.
  - destruct Hi as (Hn & H61 & Hk & Hme & Hno). rewrite scan_long, split_eq_none by assumption.
    unfold own. cbn [uses1 filter map fst snd left1]. destruct (Nat.eqb k j) eqn:E; cbn [negb].
    + apply Nat.eqb_eq in E. destruct (Hme E) as (d & Hd & Ht).
      cbn [map fst snd apply]. rewrite Hd. replace (is_bool_t (od_type d)) with false by (destruct (od_type d); [exfalso; apply Ht; reflexivity|reflexivity..]).
      rewrite bindo_assoc. destruct (set_val n d v res); cbn [bindo]; try reflexivity. cbn [write flat_map]. rewrite add_rest_nil. reflexivity.
    + apply Nat.eqb_neq in E. destruct (Hno E) as (-> & Hv). rewrite (scan_not_mine p v t res seen sb) by assumption.
      rewrite add_rest_app. reflexivity.
  - destruct Hi as (Hn & F). destruct fs as [|f0 fs0] eqn:Efs; [contradiction|]. rewrite <- Efs in *.
    assert (Hc : exists c cs, chars fs = c :: cs /\ c <> 45).
    { subst fs. inversion F as [|? ? H0 _]; subst. destruct f0 as [[k c] n]. exists c, (chars fs0). split; [reflexivity|]. apply H0. }
    destruct Hc as (c & cs & Ec & Nc45). rewrite Ec, scan_short by assumption. rewrite <- Ec.
    assert (Hinl : inline p (chars fs) = None).
    { rewrite <- (app_nil_r (chars fs)). apply (inline_none_flags p j); [subst fs; discriminate|exact F]. }
    rewrite Hinl. rewrite <- (app_nil_r (chars fs)). rewrite (group_flags p j) by exact F.
    cbn [uses1]. fold (flag_uses fs). rewrite bindo_assoc.
    destruct (apply p (own j (flag_uses fs)) res) as [r| | | | |]; cbn [bindo group]; try reflexivity.
    rewrite app_nil_r. cbn [left1]. fold (others j fs).
    destruct (others j fs); reflexivity.
  - destruct Hi as (F & Nc45 & Hk & Hme & Hno).
    assert (Hc : exists c' cs, chars fs ++ [c] = c' :: cs /\ c' <> 45).
    { destruct fs as [|f0 fs]; [exists c, []; auto|]. inversion F as [|? ? H0 _]; subst. destruct f0 as [[k' c'] n'].
      exists c', (chars fs ++ [c]). split; [reflexivity|]. apply H0. }
    destruct Hc as (c' & cs & Ec & Nc'). rewrite Ec, scan_short by assumption. rewrite <- Ec.
    assert (Hinl : inline p (chars fs ++ [c]) = None).
    { destruct fs as [|f0 fs]; [reflexivity|]. apply (inline_none_flags p j); [discriminate|exact F]. }
    rewrite Hinl. rewrite (group_flags p j) by exact F. cbn [uses1]. fold (flag_uses fs). rewrite own_app, apply_app, !bindo_assoc.
    destruct (apply p (own j (flag_uses fs)) res) as [r| | | | |]; cbn [bindo]; try reflexivity.
    cbn [left1]. unfold own. cbn [filter map fst snd group]. fold (others j fs).
    destruct (Nat.eqb k j) eqn:E; cbn [negb].
    + apply Nat.eqb_eq in E. destruct (Hme E) as (-> & d & Hd & Ht). rewrite Hd.
      replace (is_bool_t (od_type d)) with false by (destruct (od_type d); [exfalso; apply Ht; reflexivity|reflexivity..]).
      cbn [bindo map fst snd apply]. rewrite Hd, app_nil_r, bindo_assoc.
      destruct (set_val n d v r); cbn [bindo]; try reflexivity.
      destruct (others j fs); reflexivity.
    + apply Nat.eqb_neq in E. destruct (Hno E) as (-> & Hv). cbn [bindo map apply].
      rewrite (scan_not_mine p v t r seen sb) by assumption. rewrite add_rest_app.
      replace (dashed (chars (others j fs) ++ [c])) with [45 :: chars (others j fs) ++ [c]] by (destruct (chars (others j fs)); reflexivity).
      reflexivity.
  - destruct Hi as (Hv & Nc45 & Hk & Hme & Hno). rewrite scan_short by assumption.
    unfold own. cbn [uses1 filter map fst snd left1]. destruct (Nat.eqb k j) eqn:E; cbn [negb].
    + apply Nat.eqb_eq in E. destruct (Hme E) as (Hs & d & Hd & Ht). destruct v as [|x v]; [contradiction|].
      cbn [inline]. rewrite Hs, Hd. cbn [map fst snd apply]. rewrite Hd.
      replace (is_bool_t (od_type d)) with false by (destruct (od_type d); [exfalso; apply Ht; reflexivity|reflexivity..]).
      rewrite bindo_assoc. destruct (set_val n d (x :: v) res); cbn [bindo]; try reflexivity. cbn [write flat_map]. rewrite add_rest_nil. reflexivity.
    + apply Nat.eqb_neq in E. specialize (Hno E).
      assert (inline p (c :: v) = None) as ->.
      { cbn [inline]. destruct v; [reflexivity|]. rewrite (Hno c (or_introl eq_refl)). reflexivity. }
      rewrite group_unknown by exact Hno. reflexivity.
  - rewrite (scan_not_mine p v t res seen sb) by assumption. reflexivity.
  - exfalso. eapply Nc. reflexivity.
Qed.

Lemma scan_items p j l : forall t res (seen : option (list Z)) sb,
  (sb = false -> seen = None) -> (sb = true -> seen <> None) -> items_ok p j sb l ->
  scan p (write l ++ t) res seen =
  let! res := apply p (own j (uses l)) res in
  add_rest (write (left_over j sb l)) (scan p t res (match seen with Some _ => seen | None => first_cmd l end)).
Proof.
  induction l as [|i l IH]; intros t res seen sb S1 S2 H.
  - cbn. rewrite add_rest_nil. destruct seen; reflexivity.
  - cbn [items_ok] in H. destruct H as [Hi H].
    change (write (i :: l)) with (write1 i ++ write l). change (uses (i :: l)) with (uses1 i ++ uses l).
    rewrite <- app_assoc.
    destruct i as [k n|k n v|k n v|fs|fs k c n v|k c n v|v|n];
      try (rewrite (scan_item p j _ _ _ _ sb) by (assumption || discriminate);
           rewrite own_app, apply_app, bindo_assoc;
           destruct (apply p (own j (uses1 _)) res) as [r| | | | |]; cbn [bindo]; try reflexivity;
           rewrite (IH t r seen sb) by assumption; rewrite add_rest_bind;
           destruct (apply p (own j (uses l)) r) as [r'| | | | |]; cbn [bindo]; try reflexivity;
           rewrite add_rest_app; cbn [left_over first_cmd]; unfold write; rewrite flat_map_app; reflexivity).
    cbn [write1 app uses1 first_cmd left_over]. destruct Hi as [Hp Hc]. rewrite scan_plain by assumption.
    destruct sb.
    + destruct seen as [s|]; [|exfalso; apply S2; reflexivity].
      rewrite (IH t res (Some s) true) by assumption.
      replace (match lookup n (p_cmds p) with Some _ => _ | None => _ end) with
        (add_rest [n] (let! res0 := apply p (own j (uses l)) res in add_rest (write (left_over j true l)) (scan p t res0 (Some s)))) by (destruct (lookup n (p_cmds p)); reflexivity).
      rewrite add_rest_bind. destruct (apply p (own j (uses l)) res) as [r'| | | | |]; cbn [bindo]; try reflexivity.
      rewrite add_rest_app. reflexivity.
    + rewrite (S1 eq_refl) in *. destruct (lookup n (p_cmds p)) eqn:E; [|exfalso; apply Hc; reflexivity].
      rewrite (IH t res (Some n) true); [reflexivity|discriminate|discriminate|assumption].
Qed.

(** ** What the uses do to one option *)
Definition listof (o : option (otype * value)) : list (list Z) := match o with Some (_, VList l) => l | _ => [] end.
Definition step (d : optdecl) (cur : option (otype * value)) (v : list Z) : option (otype * value) :=
  match od_type d with
  | OBool => Some (OBool, VBool true)
  | OInt => match int_of v with Some z => Some (OInt, VInt z) | None => None end
  | OStr => Some (OStr, VStr v)
  | OList => Some (OList, VList (listof cur ++ [v]))
  end.
Definition vals (n : list Z) (us : list (list Z * list Z)) : list (list Z) :=
  map snd (filter (fun u => teqb (fst u) n) us).

Lemma set_val_look n d v res res' : set_val n d v res = Done res' ->
  forall n', lookup n' res' = if teqb n' n then step d (lookup n res) v else lookup n' res.
Proof.
  unfold M_Argparse.set_val, step, list_add, listof. destruct (od_type d).
  - intros [= <-] n'. apply lookup_set.
  - destruct (int_of v); [|discriminate]. intros [= <-] n'. apply lookup_set.
  - intros [= <-] n'. apply lookup_set.
  - intros [= <-] n'. rewrite lookup_set. reflexivity.
Qed.

Lemma apply_look p us : forall res res', apply p us res = Done res' ->
  (forall n d, lookup n (p_opts p) = Some d -> lookup n res' = fold_left (step d) (vals n us) (lookup n res)) /\
  (forall n, lookup n (p_opts p) = None -> lookup n res' = lookup n res).
Proof.
  induction us as [|[n v] us IH]; intros res res' H; cbn [apply] in H.
  - injection H as <-. split; reflexivity.
  - destruct (lookup n (p_opts p)) as [d|] eqn:Hd; [|discriminate].
    destruct (set_val n d v res) as [r| | | | |] eqn:E; try discriminate. cbn [bindo] in H.
    pose proof (set_val_look _ _ _ _ _ E) as L. destruct (IH _ _ H) as [I1 I2]. split.
    + intros n' d' Hd'. rewrite (I1 _ _ Hd'). unfold vals. cbn [filter fst]. rewrite L.
      destruct (teqb n' n) eqn:E1.
      * apply teqb_ok in E1. subst n'. rewrite teqb_refl. cbn [map snd fold_left]. congruence.
      * replace (teqb n n') with false; [reflexivity|]. symmetry. apply teqb_no. apply teqb_no in E1. congruence.
    + intros n' Hn'. rewrite (I2 _ Hn'), L. destruct (teqb n' n) eqn:E1; [|reflexivity].
      apply teqb_ok in E1. congruence.
Qed.

Definition good_use (p : parser) (u : list Z * list Z) : Prop :=
  exists d, lookup (fst u) (p_opts p) = Some d /\ (od_type d = OInt -> int_of (snd u) <> None).

Lemma apply_done p us : forall res, Forall (good_use p) us -> exists res', apply p us res = Done res'.
Proof.
  induction us as [|[n v] us IH]; intros res H; cbn [apply]; [eauto|].
  inversion H as [|? ? (d & Hd & Hi) H']; subst. cbn [fst snd] in *. rewrite Hd.
  unfold M_Argparse.set_val. destruct (od_type d) eqn:E; cbn [bindo]; auto.
  destruct (int_of v) eqn:Ei; [cbn [bindo]; auto|]. exfalso. apply Hi; auto.
Qed.

Lemma apply_bad p us : forall res, Forall (fun u => lookup (fst u) (p_opts p) <> None) us ->
  ~ Forall (good_use p) us -> apply p us res = ArgError.
Proof.
  induction us as [|[n v] us IH]; intros res H N; [exfalso; apply N; constructor|].
  inversion H as [|? ? Hn H']; subst. cbn [fst snd apply] in *.
  destruct (lookup n (p_opts p)) as [d|] eqn:Hd; [|contradiction].
  assert (Rec : (od_type d = OInt -> int_of v <> None) -> forall r, apply p us r = ArgError).
  { intros G r. apply IH; [assumption|]. intros K. apply N. constructor; [exists d; auto|exact K]. }
  unfold M_Argparse.set_val. destruct (od_type d) eqn:E; cbn [bindo]; try (apply Rec; intros K; discriminate).
  destruct (int_of v) eqn:Ei; [|reflexivity]. cbn [bindo]. apply Rec. intros _. discriminate.
Qed.

(** Uses that can be understood are declared. *)
Lemma uses_declared p j l : forall sb, made p -> items_ok p j sb l ->
  Forall (fun u => lookup (fst u) (p_opts p) <> None) (own j (uses l)).
Proof.
  intros sb M. revert sb.
  assert (FL : forall fs, Forall (flag_ok p j) fs -> Forall (fun u => lookup (fst u) (p_opts p) <> None) (own j (flag_uses fs))).
  { induction 1 as [|[[k c] n] fs (Nc & Hk & Hme & Hno) _ IH]; [constructor|].
    unfold flag_uses, own. cbn [map filter fst snd]. destruct (Nat.eqb k j) eqn:E; [|exact IH].
    cbn [map fst snd]. constructor; [|exact IH]. apply Nat.eqb_eq in E. destruct (Hme E) as [_ (d & Hd & _)]. cbn. congruence. }
  assert (ONE : forall k n v t, (k = j -> mine p n t) -> Forall (fun u => lookup (fst u) (p_opts p) <> None) (own j [(k, n, v)])).
  { intros k n v t H. unfold own. cbn [filter fst snd]. destruct (Nat.eqb k j) eqn:E; [|constructor].
    apply Nat.eqb_eq in E. destruct (H E) as (d & Hd & _). cbn. constructor; [cbn; congruence|constructor]. }
  induction l as [|i l IH]; intros sb H; [constructor|]. cbn [items_ok] in H. destruct H as [Hi H].
  change (uses (i :: l)) with (uses1 i ++ uses l). rewrite own_app. apply Forall_app. split; [|eapply IH; exact H].
  destruct i as [k n|k n v|k n v|fs|fs k c n v|k c n v|v|n]; cbn [item_ok uses1] in *.
  - eapply ONE. apply Hi.
  - eapply ONE. apply Hi.
  - eapply ONE. apply Hi.
  - apply FL. apply Hi.
  - rewrite own_app. apply Forall_app. split; [apply FL; apply Hi|]. eapply ONE. intros K. apply Hi. exact K.
  - eapply ONE. intros K. apply Hi. exact K.
  - constructor.
  - constructor.
Qed.

(** ** The value after all uses *)
Definition mean (d : optdecl) (vs : list (list Z)) : option (otype * value) :=
  match meaning int_of d vs with Some v => Some (od_type d, v) | None => None end.

Lemma steps_mean d vs : ints_ok int_of d vs ->
  fold_left (step d) vs (match od_default d with Some v => Some (od_type d, v) | None => None end) = mean d vs.
Proof.
  intros HI. unfold mean, meaning, step.
  destruct (od_type d) eqn:E.
  - destruct vs as [|v vs]; [cbn; reflexivity|]. cbn [fold_left].
    clear HI. induction vs as [|w vs IH] using rev_ind; [reflexivity|]. rewrite fold_left_app. reflexivity.
  - destruct vs as [|w vs _] using rev_ind; [reflexivity|]. rewrite fold_left_app. cbn [fold_left].
    unfold last_of. rewrite rev_app_distr. cbn [rev app]. destruct (int_of w); reflexivity.
  - destruct vs as [|w vs _] using rev_ind; [reflexivity|]. rewrite fold_left_app. cbn [fold_left].
    unfold last_of. rewrite rev_app_distr. reflexivity.
  - set (base := match od_default d with Some (VList l) => l | _ => [] end).
    assert (G : forall vs, vs <> [] -> fold_left (fun cur v => Some (OList, VList (listof cur ++ [v]))) vs
       (match od_default d with Some v => Some (OList, v) | None => None end) = Some (OList, VList (base ++ vs))).
    { clear vs HI. intros vs. induction vs as [|w vs IH] using rev_ind; [contradiction|]. intros _. rewrite fold_left_app.
      destruct vs as [|w' vs].
      - cbn. do 3 f_equal. unfold base. destruct (od_default d) as [[]|]; reflexivity.
      - rewrite IH by discriminate. cbn [fold_left listof]. rewrite <- app_assoc. reflexivity. }
    destruct vs as [|w vs]; [reflexivity|]. apply G. discriminate.
Qed.
End Scan.

(** ** Defaults *)
Definition defval (d : optdecl) : option (otype * value) :=
  match od_default d with Some v => Some (od_type d, v) | None => None end.

Lemma opt_defaults_look o : NoDup (map fst o) -> forall res n,
  lookup n (opt_defaults o res) =
  match lookup n o with
  | Some d => match defval d with Some x => Some x | None => lookup n res end
  | None => lookup n res
  end.
Proof.
  induction o as [|[n0 d0] o IH]; intros ND res n; cbn [opt_defaults lookup map fst] in *; [reflexivity|].
  inversion ND as [|? ? N0 ND']; subst. rewrite IH by assumption.
  destruct (teqb n n0) eqn:E.
  - apply teqb_ok in E. subst n0. replace (lookup n o) with (@None optdecl) by (symmetry; apply lookup_none; assumption).
    unfold defval. destruct (od_default d0); [|reflexivity]. rewrite lookup_set, teqb_refl. reflexivity.
  - destruct (od_default d0); [|reflexivity]. rewrite lookup_set, E. reflexivity.
Qed.

Definition argdef (d : argdecl) : option (otype * value) :=
  if negb (ad_required d) then match ad_nargs d with Many => Some (OList, VList []) | _ => None end else None.

Lemma arg_defaults_other a : forall res n, ~ In n (map ad_name a) -> lookup n (arg_defaults a res) = lookup n res.
Proof.
  induction a as [|d a IH]; intros res n H; cbn [arg_defaults map In] in *; [reflexivity|].
  rewrite IH by tauto. destruct (negb (ad_required d)); [|reflexivity]. destruct (ad_nargs d); try reflexivity.
  rewrite lookup_set. replace (teqb n (ad_name d)) with false; [reflexivity|]. symmetry. apply teqb_no. intuition.
Qed.

Lemma arg_defaults_look a : NoDup (map ad_name a) -> forall res d, In d a -> lookup (ad_name d) res = None ->
  lookup (ad_name d) (arg_defaults a res) = argdef d.
Proof.
  induction a as [|d0 a IH]; intros ND res d Hd Hr; [destruct Hd|]. cbn [arg_defaults map] in *.
  inversion ND as [|? ? N0 ND']; subst. destruct Hd as [->|Hd].
  - rewrite arg_defaults_other by assumption. unfold argdef.
    destruct (negb (ad_required d)); [|assumption]. destruct (ad_nargs d); try assumption. rewrite lookup_set, teqb_refl. reflexivity.
  - apply IH; [assumption|assumption|].
    assert (Ne : teqb (ad_name d) (ad_name d0) = false).
    { apply teqb_no. intros K. apply N0. rewrite <- K. apply in_map. assumption. }
    destruct (negb (ad_required d0)); [|assumption]. destruct (ad_nargs d0); try assumption. rewrite lookup_set, Ne. assumption.
Qed.

(** ** Dealing *)
Notation typ := type_of (only parsing).
Definition typed (v : value) : otype * value := (typ v, v).

Lemma deal_many n r ds m vs res : m <> [] -> (length vs = length ds \/ (vs = [] /\ (length m <= length ds)%nat)) ->
  forall cur, cur = match lookup n res with Some (_, VList l) => l | _ => [] end ->
  exists res', (deal (Arg n r Many :: ds) (m ++ vs) res =
     if Nat.eqb (length vs) (length ds) then deal ds vs res' else (res', [], Arg n r Many :: ds)) /\
    forall n', lookup n' res' = if teqb n' n then Some (OList, VList (cur ++ m)) else lookup n' res.
Proof.
  revert res. induction m as [|v m IH]; intros res Hm Hv cur Hc; [contradiction|].
  cbn [app deal ad_nargs ad_name].
  set (res1 := list_add n v res).
  assert (L1 : forall n', lookup n' res1 = if teqb n' n then Some (OList, VList (cur ++ [v])) else lookup n' res).
  { intros n'. unfold res1, list_add. rewrite lookup_set. subst cur. reflexivity. }
  destruct m as [|w m].
  - cbn [app]. exists res1. split; [|exact L1].
    destruct (Nat.eqb (length vs) (length ds)) eqn:E; [reflexivity|].
    destruct Hv as [Hv|[-> Hv]]; [apply Nat.eqb_neq in E; contradiction|]. reflexivity.
  - assert (E : Nat.eqb (length ((w :: m) ++ vs)) (length ds) = false).
    { apply Nat.eqb_neq. rewrite app_length. cbn [length] in *. destruct Hv as [Hv|[-> Hv]]; cbn [length] in *; lia. }
    rewrite E.
    destruct (IH res1) with (cur := cur ++ [v]) as (res' & R1 & R2).
    + discriminate.
    + destruct Hv as [Hv|[-> Hv]]; [left; assumption|right; split; [reflexivity|cbn [length] in *; lia]].
    + rewrite (L1 n), teqb_refl. reflexivity.
    + exists res'. split; [exact R1|]. intros n'. rewrite R2. rewrite <- app_assoc. cbn [app].
      destruct (teqb n' n) eqn:En; [reflexivity|]. rewrite L1, En. reflexivity.
Qed.

Lemma deal_ok ds vs a lo : deals ds vs a lo -> NoDup (map ad_name ds) -> forall res,
  (forall d, In d ds -> match lookup (ad_name d) res with Some (_, VList l) => l | _ => [] end = []) ->
  exists res' ds', deal ds vs res = (res', lo, ds') /\
    (forall n, lookup n res' = match lookup n a with Some v => Some (typed v) | None => lookup n res end) /\
    (forall d, In d ds -> lookup (ad_name d) a = None -> In d ds') /\ incl ds' ds /\
    (forall n, lookup n a <> None -> In n (map ad_name ds)).
Proof.
  induction 1 as [vs|d ds|n r ds v vs a lo _ IH|n r ds m vs a lo Hm Hl _ IH|n r ds m Hm Hl]; intros ND res HL.
  - exists res, []. split; [|split; [reflexivity|split; [intros d []|split; [intros d []|intros n Hn; exfalso; apply Hn; reflexivity]]]].
    clear. induction vs as [|v vs IH]; cbn [deal]; [reflexivity|]. rewrite IH. reflexivity.
  - exists res, (d :: ds). split; [reflexivity|]. split; [reflexivity|]. split; [auto|]. split; [apply incl_refl|].
    intros n Hn. exfalso. apply Hn. reflexivity.
  - cbn [map] in ND. inversion ND as [|? ? N0 ND']; subst.
    destruct (IH ND' (set n (OStr, VStr v) res)) as (res' & ds' & E & L & I1 & I2 & I3).
    { intros d Hd. rewrite lookup_set. replace (teqb (ad_name d) n) with false; [apply HL; right; exact Hd|].
      symmetry. apply teqb_no. intros K. apply N0. cbn. rewrite <- K. apply in_map. exact Hd. }
    exists res', ds'. split; [cbn [deal ad_nargs ad_name]; exact E|]. split; [|split; [|split]].
    + intros n'. rewrite L. cbn [lookup]. rewrite lookup_set. destruct (teqb n' n) eqn:En; [|reflexivity].
      apply teqb_ok in En. subst n'. destruct (lookup n a) eqn:Ea; [|reflexivity].
      exfalso. apply N0. cbn. apply I3. congruence.
    + intros d [<-|Hd] Hn.
      * cbn [ad_name lookup] in Hn. rewrite teqb_refl in Hn. discriminate.
      * apply I1; [exact Hd|]. cbn [lookup] in Hn. destruct (teqb (ad_name d) n); [discriminate|exact Hn].
    + intros d Hd. right. apply I2. exact Hd.
    + intros n' Hn'. cbn [lookup map] in *. destruct (teqb n' n) eqn:En; [left; apply teqb_ok in En; cbn; congruence|right; apply I3; exact Hn'].
  - cbn [map] in ND. inversion ND as [|? ? N0 ND']; subst.
    destruct (deal_many n r ds m vs res Hm (or_introl Hl) []) as (res1 & E1 & L1).
    { symmetry. apply (HL (Arg n r Many)). left. reflexivity. }
    rewrite (proj2 (Nat.eqb_eq _ _) Hl) in E1.
    destruct (IH ND' res1) as (res' & ds' & E & L & I1 & I2 & I3).
    { intros d Hd. rewrite L1. replace (teqb (ad_name d) n) with false; [apply HL; right; exact Hd|].
      symmetry. apply teqb_no. intros K. apply N0. cbn. rewrite <- K. apply in_map. exact Hd. }
    exists res', ds'. split; [rewrite E1; exact E|]. split; [|split; [|split]].
    + intros n'. rewrite L. cbn [lookup]. rewrite L1. destruct (teqb n' n) eqn:En; [|reflexivity].
      apply teqb_ok in En. subst n'. destruct (lookup n a) eqn:Ea; [|reflexivity].
      exfalso. apply N0. cbn. apply I3. congruence.
    + intros d [<-|Hd] Hn.
      * cbn [ad_name lookup] in Hn. rewrite teqb_refl in Hn. discriminate.
      * apply I1; [exact Hd|]. cbn [lookup] in Hn. destruct (teqb (ad_name d) n); [discriminate|exact Hn].
    + intros d Hd. right. apply I2. exact Hd.
    + intros n' Hn'. cbn [lookup map] in *. destruct (teqb n' n) eqn:En; [left; apply teqb_ok in En; cbn; congruence|right; apply I3; exact Hn'].
  - destruct (deal_many n r ds m [] res Hm (or_intror (conj eq_refl Hl)) []) as (res1 & E1 & L1).
    { symmetry. apply (HL (Arg n r Many)). left. reflexivity. }
    assert (Ne : Nat.eqb (@length (list Z) []) (length ds) = false).
    { apply Nat.eqb_neq. destruct m; [contradiction|]. cbn [length] in *. lia. }
    rewrite Ne, app_nil_r in E1. exists res1, (Arg n r Many :: ds). split; [exact E1|]. split; [|split; [|split]].
    + intros n'. rewrite L1. cbn [lookup]. destruct (teqb n' n); reflexivity.
    + intros d Hd _. exact Hd.
    + apply incl_refl.
    + intros n' Hn'. cbn [lookup map] in *. destruct (teqb n' n) eqn:En; [left; apply teqb_ok in En; cbn; congruence|contradiction].
Qed.

Lemma deals_total ds : Forall (fun a => ad_nargs a <> Other) ds -> forall vs, exists a lo, deals ds vs a lo.
Proof.
  induction 1 as [|[n r k] ds Hk _ IH]; intros vs; [exists [], vs; constructor|].
  destruct vs as [|v vs]; [exists [], []; constructor|].
  destruct k; [| |exfalso; apply Hk; reflexivity].
  - destruct (IH vs) as (a & lo & D). eexists _, lo. apply D_one. exact D.
  - destruct (le_lt_dec (length (v :: vs)) (length ds)) as [L|L].
    + eexists _, []. apply D_few; [discriminate|exact L].
    + set (k := (length (v :: vs) - length ds)%nat).
      destruct (IH (skipn k (v :: vs))) as (a & lo & D).
      exists ((n, VList (firstn k (v :: vs))) :: a), lo. rewrite <- (firstn_skipn k (v :: vs)) at 1.
      apply D_many; [|rewrite skipn_length; unfold k; lia|exact D].
      intros K. apply (f_equal (@length _)) in K. rewrite firstn_length in K. unfold k in K. cbn [length] in *. lia.
Qed.

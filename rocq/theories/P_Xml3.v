(** Lemmas for the XML theorems: the tree keeps what the parser delivers. *)
From Verif Require Import Base P_Base M_Str S_Str S_Xml M_Xml P_Xml P_Xml2.
From Coq Require Import ZifyBool ZifyNat.

Lemma dom_ind2 (P : dom -> Prop) :
  (forall p n ns props kids, Forall P kids -> P (Elem p n ns props kids)) ->
  (forall s, P (Text s)) -> (forall s, P (CData s)) -> (forall s, P (Comment s)) -> P OtherNode -> forall d, P d.
Proof.
  intros H1 H2 H3 H4 H5. fix IH 1. intros [p n ns props kids|s|s|s|]; [|apply H2|apply H3|apply H4|exact H5].
  apply H1. induction kids as [|k kids IHk]; constructor; [apply IH|exact IHk].
Qed.

Lemma sbytes_to_str b : no_nul b -> sbytes (to_str b) = b.
Proof. intros H. unfold to_str. cbn [sbytes]. apply cut_id. exact H. Qed.
Lemma obytes_to_str o : no_nul_opt o -> obytes (option_map to_str o) = o.
Proof. destruct o; [|reflexivity]. intros H. unfold obytes. cbn [option_map]. rewrite sbytes_to_str by exact H. reflexivity. Qed.

Definition tree_kids : list node -> list event :=
  fix go l := match l with [] => [] | k :: l' => tree_events k ++ map Char (opt sbytes (n_tail k)) ++ go l' end.
Lemma tree_events_unfold n : tree_events n =
  Open (obytes (n_prefix n)) (sbytes (n_tag n)) (map (fun d => (obytes (fst d), sbytes (snd d))) (n_nsdefs n))
       (map (fun a => (sbytes (fst a), sbytes (snd a))) (n_attrs n)) ::
  map Char (opt sbytes (n_text n)) ++ tree_kids (n_children n) ++ [Close].
Proof. destruct n. reflexivity. Qed.
Definition dom_kids : list dom -> list event :=
  fix go l := match l with [] => [] | k :: l' => events k ++ go l' end.
Lemma set_tail_events t n : tree_events (set_tail t n) = tree_events n.
Proof. destruct n. reflexivity. Qed.
Lemma set_tail_tail t n : n_tail (set_tail t n) = t.
Proof. destruct n. reflexivity. Qed.

Definition ob (o : option (list Z)) : list Z := match o with Some b => b | None => [] end.
Lemma before_ob s o : ob (before s o) = s ++ ob o.
Proof. unfold before. change (match o with Some t => t | None => [] end) with (ob o). destruct (s ++ ob o); reflexivity. Qed.
Lemma opt_ob o : no_nul (ob o) -> opt sbytes (option_map to_str o) = ob o.
Proof. destruct o; [|reflexivity]. intros H. cbn [option_map opt ob]. apply sbytes_to_str. exact H. Qed.

Lemma collect_events kids :
  Forall (fun d => dom_ok d -> match d with Elem _ _ _ _ _ => exists n, node_of d = Ok n /\ tree_events n = events d /\ n_tail n = None | _ => True end) kids ->
  Forall dom_ok kids ->
  exists t ks, collect kids = Ok (t, ks) /\ no_nul (ob t) /\ map Char (ob t) ++ tree_kids ks = dom_kids kids.
Proof.
  induction 1 as [|d kids Hd _ IH]; intros K.
  - exists None, []. repeat split; try reflexivity. constructor.
  - inversion K as [|? ? K1 K2]; subst. destruct (IH K2) as (t & ks & E & N & F). specialize (Hd K1).
    destruct d as [p n ns props ds|s|s|s|].
    + destruct Hd as (k & Ek & Ev & _).
      exists None, (set_tail (option_map to_str t) k :: ks). split.
      * match goal with |- collect (?e :: ?r) = _ => change (collect (e :: r)) with (do k0 <- node_of e; do tc <- collect r; Ok (@None (list Z), set_tail (option_map to_str (fst tc)) k0 :: snd tc)) end.
        rewrite Ek. cbn [bindr]. rewrite E. reflexivity.
      * split; [constructor|]. change (tree_kids (set_tail (option_map to_str t) k :: ks)) with
          (tree_events (set_tail (option_map to_str t) k) ++ map Char (opt sbytes (n_tail (set_tail (option_map to_str t) k))) ++ tree_kids ks).
        rewrite set_tail_events, set_tail_tail, opt_ob by exact N. cbn [ob map app]. rewrite F, Ev. reflexivity.
    + inversion K1 as [|? Hs| |]; subst. exists (before s t), ks. split.
      * change (collect (Text s :: kids)) with (do tc <- collect kids; Ok (before (cut s) (fst tc), snd tc)). rewrite E, cut_id by exact Hs. reflexivity.
      * rewrite before_ob. split; [apply Forall_app; split; assumption|]. rewrite map_app, <- app_assoc, F. reflexivity.
    + inversion K1 as [| |? Hs|]; subst. exists (before s t), ks. split.
      * change (collect (CData s :: kids)) with (do tc <- collect kids; Ok (before (cut s) (fst tc), snd tc)). rewrite E, cut_id by exact Hs. reflexivity.
      * rewrite before_ob. split; [apply Forall_app; split; assumption|]. rewrite map_app, <- app_assoc, F. reflexivity.
    + exists t, ks. split; [exact E|]. split; [exact N|exact F].
    + inversion K1.
Qed.

Lemma props_kept (props : list (option (list Z) * list Z * list Z)) :
  Forall (fun a => no_nul_opt (fst (fst a)) /\ no_nul (snd (fst a)) /\ no_nul (snd a)) props ->
  NoDup (map (fun a => snd (fst a)) props) ->
  map (fun a => (sbytes (fst a), sbytes (snd a))) (map (attr_of props) props) = map (fun a => (qualified (fst (fst a)) (snd (fst a)), snd a)) props.
Proof.
  intros H N. rewrite map_map. apply map_ext_in. intros [[p n] v] Hin. rewrite Forall_forall in H. destruct (H _ Hin) as (H1 & H2 & H3). cbn [fst snd] in *.
  unfold attr_of. cbn [fst snd]. rewrite (get_prop_ok props p n v N Hin), (sbytes_to_str v H3). f_equal. unfold qualified. destruct p as [p|]; cbn [opt].
  - rewrite <- app_assoc. apply sbytes_to_str. cbn in H1. apply Forall_app. split; [exact H1|]. constructor; [lia|exact H2].
  - apply sbytes_to_str. exact H2.
Qed.

Lemma node_events d : dom_ok d -> match d with Elem _ _ _ _ _ => exists n, node_of d = Ok n /\ tree_events n = events d /\ n_tail n = None | _ => True end.
Proof.
  induction d as [p n ns props kids IH|s|s|s|] using dom_ind2; intros H; try exact I.
  inversion H as [? ? ? ? ? Hp Hn Hns Hpr Nd Hk| | |]; subst.
  destruct (collect_events kids IH Hk) as (t & ks & E & N & F).
  eexists. split; [rewrite node_of_unfold, E; cbn [bindr fst snd]; reflexivity|]. split; [|reflexivity].
  rewrite tree_events_unfold. cbn [n_prefix n_tag n_nsdefs n_attrs n_text n_children].
  rewrite (obytes_to_str _ Hp), (sbytes_to_str _ Hn), (opt_ob _ N), props_kept by assumption.
  rewrite app_assoc, F. cbn [events]. change ((fix go l := match l with [] => [] | k :: l' => events k ++ go l' end) kids) with (dom_kids kids).
  do 2 f_equal. rewrite map_map. transitivity (map (fun a : option (list Z) * list Z => a) ns); [|apply map_id].
  apply map_ext_in. intros [q h] Hin. rewrite Forall_forall in Hns. destruct (Hns _ Hin) as [A B]. cbn [fst snd] in *. rewrite obytes_to_str, sbytes_to_str by assumption. reflexivity.
Qed.

(** C34-C38, C62-C64: strings.  [ustr cs] is the str object of the character sequence
    [cs] (S_Str.v); all statements compare with plain operations on that sequence. *)
From Verif Require Import Base M_Slice S_Slice M_Str S_Str P_Base P_Bmh P_Str P_Str2 P_Str3 P_Str4 P_Str5.
From Coq Require Import ZifyBool ZifyNat.

(** Characters used in the cases: "é", "€", "😀", and an ASCII text. *)
Local Notation eacute := [195; 169].
Local Notation euro := [226; 130; 172].
Local Notation smile := [240; 159; 152; 128].
Local Definition txt (l : list Z) : list char := map (fun a => [a]) l.
Local Ltac istext := repeat constructor; cbn; lia.

(** ** C34: substring search. *)

(** Missing for the full property: negative bounds (C34_negative_refuted), bounds beyond
    int (C34_bound_refuted), counting the empty pattern in texts that are not ASCII
    (C34_count_refuted). *)
Theorem C34_find_partial : forall cs ps st en, text cs -> text ps -> pos_bound st -> pos_bound en ->
  exists r, str_find (ustr cs) (ustr ps) st en = Ok r /\ find_spec first_occ cs ps st en r.
Proof. exact find_ok. Qed.
Print Assumptions C34_find_partial.

Theorem C34_rfind_partial : forall cs ps st en, text cs -> text ps -> pos_bound st -> pos_bound en ->
  exists r, str_rfind (ustr cs) (ustr ps) st en = Ok r /\ find_spec last_occ cs ps st en r.
Proof. exact rfind_ok. Qed.
Print Assumptions C34_rfind_partial.

(** index and rindex raise ValueError exactly when there is no occurrence. *)
Theorem C34_index_partial : forall cs ps st en, text cs -> text ps -> pos_bound st -> pos_bound en ->
  exists r, find_spec first_occ cs ps st en r /\
    str_index (ustr cs) (ustr ps) st en = (if r =? -1 then Exn ValueError else Ok r).
Proof.
  intros cs ps st en H1 H2 H3 H4. destruct (find_ok cs ps st en H1 H2 H3 H4) as (r & Hr & Hs). exists r. split; [exact Hs|].
  unfold str_index. rewrite Hr. cbn [bindr]. destruct Hs as [(_ & m & ((a & b & _ & Hm) & _) & E)|(-> & _)]; [|reflexivity].
  pose proof (zlen_nn a). pose proof (py_start_nn (zlen cs) st (zlen_nn cs) H3). destruct (r <? 0) eqn:E1; [lia|]. destruct (r =? -1) eqn:E2; [lia|]. reflexivity.
Qed.
Print Assumptions C34_index_partial.

Theorem C34_rindex_partial : forall cs ps st en, text cs -> text ps -> pos_bound st -> pos_bound en ->
  exists r, find_spec last_occ cs ps st en r /\
    str_rindex (ustr cs) (ustr ps) st en = (if r =? -1 then Exn ValueError else Ok r).
Proof.
  intros cs ps st en H1 H2 H3 H4. destruct (rfind_ok cs ps st en H1 H2 H3 H4) as (r & Hr & Hs). exists r. split; [exact Hs|].
  unfold str_rindex. rewrite Hr. cbn [bindr]. destruct Hs as [(_ & m & ((a & b & _ & Hm) & _) & E)|(-> & _)]; [|reflexivity].
  pose proof (zlen_nn a). pose proof (py_start_nn (zlen cs) st (zlen_nn cs) H3). destruct (r <? 0) eqn:E1; [lia|]. destruct (r =? -1) eqn:E2; [lia|]. reflexivity.
Qed.
Print Assumptions C34_rindex_partial.

Theorem C34_contains : forall cs ps, text cs -> text ps ->
  exists r, str_contains (ustr cs) (ustr ps) = Ok r /\ str_containsnot (ustr cs) (ustr ps) = Ok (negb r) /\
    (r = true <-> exists n, occurs cs ps n).
Proof.
  intros cs ps H1 H2. destruct (contains_ok cs ps H1 H2) as (r & Hr & Hs). exists r. unfold str_containsnot. rewrite Hr. auto.
Qed.
Print Assumptions C34_contains.

(** count is the number of cuts made by splitting from the left at every occurrence. *)
Theorem C34_count_partial : forall cs ps st en, text cs -> text ps -> ps <> [] -> pos_bound st -> pos_bound en ->
  let a := py_start (zlen cs) st in let b := py_end (zlen cs) en in
  exists l, (if b <? a then l = [[]] else splits ps None (window cs a b) l) /\
    str_count (ustr cs) (ustr ps) st en = Ok (zlen l - 1).
Proof. exact count_ok. Qed.
Print Assumptions C34_count_partial.

(** The empty pattern is counted once per byte, plus one: right for ASCII texts only. *)
Theorem C34_count_empty_partial : forall cs, text cs ->
  str_count (ustr cs) (ustr []) None None = Ok (zlen (concat cs) + 1).
Proof. exact count_empty_bytes. Qed.
Print Assumptions C34_count_empty_partial.

Example C34_case : let cs := [[97]; eacute; euro; [97]; eacute; euro; smile] in
  text cs /\ text [eacute; euro] /\ pos_bound (Some 2) /\
  str_find (ustr cs) (ustr [eacute; euro]) (Some 2) None = Ok 4 /\
  str_rfind (ustr cs) (ustr [[97]]) None (Some 3) = Ok 0 /\
  str_index (ustr cs) (ustr [smile; smile]) None None = Exn ValueError /\
  str_count (ustr (txt [97; 97; 97; 97; 97])) (ustr (txt [97; 97])) None None = Ok 2.
Proof. cbn zeta. repeat split; try istext; reflexivity. Qed.

(** "abc".find("c", -1) is -1 (a negative bound counts from one past the end). *)
Theorem C34_negative_refuted : exists cs ps st en r, text cs /\ text ps /\
  str_find (ustr cs) (ustr ps) st en = Ok r /\ ~ find_spec first_occ cs ps st en r.
Proof.
  exists (txt [97; 98; 99]), (txt [99]), (Some (-1)), None, (-1). repeat split; try istext.
  intros [(_ & m & ((a & b & _ & Hm) & _) & E)|(_ & [H|H])].
  - change (py_start (zlen (txt [97; 98; 99])) (Some (-1))) with 2 in E. pose proof (zlen_nn a). lia.
  - change (py_end (zlen (txt [97; 98; 99])) None) with 3 in H. change (py_start (zlen (txt [97; 98; 99])) (Some (-1))) with 2 in H. lia.
  - apply (H 0). exists [], []. split; reflexivity.
Qed.
Print Assumptions C34_negative_refuted.

(** "abc".find("a", 2^32) is 0 (the bound is converted to int). *)
Theorem C34_bound_refuted : exists cs ps st, 0 <= st /\ text cs /\ text ps /\
  str_find (ustr cs) (ustr ps) (Some st) None = Ok 0 /\ ~ find_spec first_occ cs ps (Some st) None 0.
Proof.
  exists (txt [97; 98; 99]), (txt [97]), (2 ^ 32). repeat split; try istext.
  intros [(H & _)|(H & _)]; [|lia].
  change (py_end (zlen (txt [97; 98; 99])) None) with 3 in H. change (py_start (zlen (txt [97; 98; 99])) (Some (2 ^ 32))) with (2 ^ 32) in H. lia.
Qed.
Print Assumptions C34_bound_refuted.

(** "é".count("") is 3, not 2. *)
Theorem C34_count_refuted : exists cs, text cs /\ zlen cs + 1 = 2 /\ str_count (ustr cs) (ustr []) None None = Ok 3.
Proof. exists [eacute]. repeat split; try istext; reflexivity. Qed.
Print Assumptions C34_count_refuted.

(** ** C35: positions are character positions. *)

(** Missing for the full property: indices that do not fit an int
    (C35_index_refuted), iteration over texts with NUL (C35_nul_refuted). *)
Theorem C35_getitem_partial : forall cs i, text cs -> is_int i ->
  str_getitem (ustr cs) i =
  (if (- zlen cs <=? i) && (i <? zlen cs)
   then Ok (ustr [nth (Z.to_nat (if i <? 0 then i + zlen cs else i)) cs []]) else Exn IndexError).
Proof. exact getitem_ok. Qed.
Print Assumptions C35_getitem_partial.

(** Iterating delivers the characters one by one. *)
Theorem C35_iter_partial : forall cs fuel, text cs -> nulfree cs -> (length cs < fuel)%nat ->
  iter_all fuel (ustr cs) 0 = Ok (map (fun c => ustr [c]) cs).
Proof. intros cs fuel H N Hf. exact (iter_ok cs fuel [] H N Hf (ustr cs) eq_refl). Qed.
Print Assumptions C35_iter_partial.

(** A byte-level match of a text in a text starts and ends at characters. *)
Theorem C35_sync : forall cs ps a b, text cs -> text ps -> ps <> [] -> concat cs = a ++ concat ps ++ b ->
  exists A B, cs = A ++ ps ++ B /\ concat A = a /\ concat B = b.
Proof. exact sync. Qed.
Print Assumptions C35_sync.

(** len is the number of characters; a found position indexes the pattern's first
    character. *)
Theorem C35_find_item : forall cs c ps n, text cs -> text (c :: ps) -> fits cs ->
  str_find (ustr cs) (ustr (c :: ps)) None None = Ok n -> 0 <= n ->
  str_len (ustr cs) = zlen cs /\ n < zlen cs /\ str_getitem (ustr cs) n = Ok (ustr [c]).
Proof.
  intros cs c ps n H1 H2 F Hn Hn0. split; [reflexivity|].
  destruct (find_ok cs (c :: ps) None None H1 H2 I I) as (r & Hr & [(Hab & m & ((a & b & E & Hm) & _) & Er)|(-> & _)]); rewrite Hr in Hn; injection Hn as <-; [|lia].
  change (py_start (zlen cs) None) with 0 in *. change (py_end (zlen cs) None) with (Z.min (zlen cs) (zlen cs)) in *.
  rewrite Z.min_id in *. rewrite window_all in E. rewrite Z.add_0_l in Er. subst r.
  assert (Hlt : m < zlen cs) by (rewrite E, zlen_app, zlen_app, zlen_cons; pose proof (zlen_nn ps); pose proof (zlen_nn b); lia).
  split; [exact Hlt|]. pose proof (zlen_concat cs H1). unfold fits in F. pose proof (zlen_nn a).
  rewrite getitem_ok by (assumption || (unfold is_int; lia)). destruct ((- zlen cs <=? m) && (m <? zlen cs)) eqn:E1; [|lia]. destruct (m <? 0) eqn:E2; [lia|].
  do 3 f_equal. rewrite E, <- Hm. unfold zlen. rewrite Nat2Z.id, app_nth2, Nat.sub_diag by lia. reflexivity.
Qed.
Print Assumptions C35_find_item.

Example C35_case : let cs := [[97]; eacute; euro; smile] in
  text cs /\ nulfree cs /\ fits cs /\ is_int (-2) /\ str_getitem (ustr cs) (-2) = Ok (ustr [euro]) /\
  iter_all 5 (ustr cs) 0 = Ok [ustr [[97]]; ustr [eacute]; ustr [euro]; ustr [smile]] /\
  str_find (ustr cs) (ustr [smile]) None None = Ok 3.
Proof. cbn zeta. repeat split; try istext; try reflexivity; try (repeat constructor; discriminate). Qed.

(** "ab"[2^32] is "a". *)
Theorem C35_index_refuted : exists cs i, text cs /\ zlen cs <= i /\ str_getitem (ustr cs) i = Ok (ustr [[97]]).
Proof. exists (txt [97; 98]), (2 ^ 32). repeat split; try istext; cbn; lia. Qed.
Print Assumptions C35_index_refuted.

(** Iterating over "a\0b" delivers "a" only. *)
Theorem C35_nul_refuted : exists cs, text cs /\ zlen cs = 3 /\ forall fuel, (1 < fuel)%nat -> iter_all fuel (ustr cs) 0 = Ok [ustr [[97]]].
Proof. exists (txt [97; 0; 98]). repeat split; try istext. intros [|[|fuel]] H; [lia|lia|reflexivity]. Qed.
Print Assumptions C35_nul_refuted.

(** ** C36: split, join, partition, replace. *)

(** Missing for the full property: split with the limit 0 (C36_split_refuted), replace
    of the empty pattern in texts that are not ASCII (C36_empty_refuted) and with a
    negative count (C36_count_refuted). *)
Theorem C36_split_partial : forall cs ps m, text cs -> text ps -> ps <> [] -> fits cs -> m <> Some 0 ->
  exists l, splits ps (limit m) cs l /\ str_split (ustr cs) (ustr ps) m = Ok (map ustr l).
Proof. exact split_ok. Qed.
Print Assumptions C36_split_partial.

Theorem C36_split_empty : forall cs m, str_split (ustr cs) (ustr []) m = Exn ValueError.
Proof. reflexivity. Qed.
Print Assumptions C36_split_empty.

Theorem C36_join : forall ps l, text ps -> Forall text l -> fits (joined ps l) ->
  str_join (ustr ps) (map ustr l) = Ok (ustr (joined ps l)).
Proof. exact join_ok. Qed.
Print Assumptions C36_join.

(** sep.join(s.split(sep)) is s. *)
Theorem C36_roundtrip_partial : forall cs ps m, text cs -> text ps -> ps <> [] -> fits cs -> m <> Some 0 ->
  (do l <- str_split (ustr cs) (ustr ps) m; str_join (ustr ps) l) = Ok (ustr cs).
Proof.
  intros cs ps m H1 H2 Hne F Hm. destruct (split_ok cs ps m H1 H2 Hne F Hm) as (l & Hl & ->). cbn [bindr].
  pose proof (splits_joined _ _ _ _ Hl) as (E & _). rewrite join_ok; [rewrite E; reflexivity|assumption|eapply splits_text; eassumption|rewrite E; assumption].
Qed.
Print Assumptions C36_roundtrip_partial.

Theorem C36_partition : forall cs ps, text cs -> text ps -> fits cs ->
  (absent cs ps /\ str_partition (ustr cs) (ustr ps) = Ok (ustr cs, ustr [], ustr [])) \/
  exists A B, cs = A ++ ps ++ B /\ first_occ cs ps (zlen A) /\
    str_partition (ustr cs) (ustr ps) = Ok (ustr A, ustr ps, ustr B).
Proof. exact partition_ok. Qed.
Print Assumptions C36_partition.

Theorem C36_rpartition : forall cs ps, text cs -> text ps -> fits cs ->
  (absent cs ps /\ str_rpartition (ustr cs) (ustr ps) = Ok (ustr [], ustr [], ustr cs)) \/
  exists A B, cs = A ++ ps ++ B /\ last_occ cs ps (zlen A) /\
    str_rpartition (ustr cs) (ustr ps) = Ok (ustr A, ustr ps, ustr B).
Proof. exact rpartition_ok. Qed.
Print Assumptions C36_rpartition.

(** replace is new.join(s.split(old, count)), with both counts of the result right. *)
Theorem C36_replace_partial : forall cs ps ns cnt, text cs -> text ps -> text ns -> ps <> [] -> fits cs ->
  (match cnt with None => True | Some c => 0 <= c end) ->
  (forall l, splits ps (limit cnt) cs l -> fits (joined ns l)) ->
  exists l, splits ps (limit cnt) cs l /\ str_replace (ustr cs) (ustr ps) (ustr ns) cnt = Ok (ustr (joined ns l)).
Proof. exact replace_ok. Qed.
Print Assumptions C36_replace_partial.

Theorem C36_add : forall a b, text a -> text b -> fits (a ++ b) -> str_add (ustr a) (ustr b) = Ok (ustr (a ++ b)).
Proof. exact add_ok. Qed.
Print Assumptions C36_add.

Theorem C36_mul : forall a n, text a -> fits (concat (repeat a (Z.to_nat n))) ->
  str_mul (ustr a) n = Ok (ustr (concat (repeat a (Z.to_nat n)))).
Proof. exact mul_ok. Qed.
Print Assumptions C36_mul.

(** The result of splitting is determined by text, separator and limit. *)
Theorem C36_splits_unique : forall (P : list char) k X l, splits P k X l -> forall l', splits P k X l' -> l = l'.
Proof.
  intros P k X l H. induction H as [X|k X Ha|k X a b l Hk E Hf Hs IH]; intros l' H'.
  - inversion H'; subst; try reflexivity. congruence.
  - inversion H'; subst; try reflexivity. exfalso. eapply Ha. exists a, b. split; [reflexivity|reflexivity].
  - inversion H' as [|k' X' Ha'|k' X' a' b' l'' Hk' E' Hf' Hs']; subst.
    + congruence.
    + exfalso. eapply Ha'. exists a, b. split; reflexivity.
    + assert (Hl : zlen a = zlen a'). { destruct Hf as [O1 M1], Hf' as [O2 M2]. specialize (M1 _ O2). specialize (M2 _ O1). lia. }
      assert (a = a' /\ b = b') as [<- <-].
      { assert (L : length a = length a') by (unfold zlen in Hl; lia). destruct (app_len_eq _ _ _ _ E' Hl) as [-> E2].
        split; [reflexivity|]. apply app_inv_head in E2. assumption. }
      f_equal. apply IH. assumption.
Qed.
Print Assumptions C36_splits_unique.

Example C36_case : let cs := [eacute; [44]; [44]; euro; [44]] in
  text cs /\ fits cs /\ text [[44]] /\ [[44]] <> [] /\
  str_split (ustr cs) (ustr [[44]]) None = Ok [ustr [eacute]; ustr []; ustr [euro]; ustr []] /\
  str_split (ustr cs) (ustr [[44]]) (Some 1) = Ok [ustr [eacute]; ustr [[44]; euro; [44]]] /\
  str_rpartition (ustr cs) (ustr [[44]; [44]]) = Ok (ustr [eacute], ustr [[44]; [44]], ustr [euro; [44]]) /\
  str_replace (ustr cs) (ustr [[44]]) (ustr [smile; [98]]) (Some 2) = Ok (ustr [eacute; smile; [98]; smile; [98]; euro; [44]]) /\
  str_mul (ustr [eacute]) 3 = Ok (ustr [eacute; eacute; eacute]).
Proof. cbn zeta. repeat split; try istext; try reflexivity; discriminate. Qed.

(** s.split(sep, 0) reads a variable that was never set. *)
Theorem C36_split_refuted : forall cs ps, cs <> [] -> ps <> [] -> str_split (ustr cs) (ustr ps) (Some 0) = UB.
Proof.
  intros cs ps H1 H2. unfold str_split. cbn [nchars ustr]. destruct cs as [|c cs]; [congruence|]. destruct ps as [|p ps]; [congruence|].
  rewrite !zlen_cons. pose proof (zlen_nn cs). pose proof (zlen_nn ps). destruct (1 + zlen ps =? 0) eqn:E1; [lia|]. destruct (1 + zlen cs =? 0) eqn:E2; [lia|].
  cbn [split_loop]. change (zlen (@nil str) <? max_splits (Some 0)) with false. rewrite andb_false_r. reflexivity.
Qed.
Print Assumptions C36_split_refuted.

(** "aa".replace("a", "bb", -1) writes to a buffer of another size. *)
Theorem C36_count_refuted : exists cs ps ns, text cs /\ text ps /\ text ns /\ ps <> [] /\
  str_replace (ustr cs) (ustr ps) (ustr ns) (Some (-1)) = UB.
Proof. exists (txt [97; 97]), (txt [97]), (txt [98; 98]). repeat split; try istext; try discriminate; try reflexivity. Qed.
Print Assumptions C36_count_refuted.

(** "é".replace("", "-") puts the separator inside the character: the result is not the
    encoding of any text. *)
Theorem C36_empty_refuted : exists cs ns s, text cs /\ text ns /\ str_replace (ustr cs) (ustr []) (ustr ns) None = Ok s /\
  sbytes s = [45; 195; 45; 169; 45].
Proof. exists [eacute], (txt [45]), (Str 4 [45; 195; 45; 169; 45]). repeat split; try istext; reflexivity. Qed.
Print Assumptions C36_empty_refuted.

(** ** C37: strip. *)

(** lstrip: the longest prefix of characters of the set is removed. *)
Theorem C37_lstrip : forall cs o, text cs -> fits cs -> (forall ss, o = Some ss -> text ss) ->
  exists D K, cs = D ++ K /\ all_in (set_str o) D /\ starts_out (set_str o) K /\
    str_lstrip (ustr cs) (option_map ustr o) = Ok (ustr K).
Proof. exact lstrip_ok. Qed.
Print Assumptions C37_lstrip.

(** Missing for the full property: texts of which nothing remains (C37_refuted). *)
Theorem C37_rstrip_partial : forall cs o, text cs -> fits cs -> (forall ss, o = Some ss -> text ss) ->
  (cs = [] \/ ~ all_in (set_str o) cs) ->
  exists K D, cs = K ++ D /\ all_in (set_str o) D /\ ends_out (set_str o) K /\
    str_rstrip (ustr cs) (option_map ustr o) = Ok (ustr K).
Proof. intros cs o H F Ho Hc. destruct (rstrip_ok cs o H F Ho Hc) as (K & D & E & A & B & _ & R). exists K, D. auto. Qed.
Print Assumptions C37_rstrip_partial.

Theorem C37_strip_partial : forall cs o, text cs -> fits cs -> (forall ss, o = Some ss -> text ss) ->
  (cs = [] \/ ~ all_in (set_str o) cs) ->
  exists D K E, cs = D ++ K ++ E /\ all_in (set_str o) D /\ all_in (set_str o) E /\ starts_out (set_str o) K /\ ends_out (set_str o) K /\
    str_strip (ustr cs) (option_map ustr o) = Ok (ustr K).
Proof. exact strip_ok. Qed.
Print Assumptions C37_strip_partial.

Example C37_case : let cs := [eacute; [32]; euro; eacute; eacute] in
  text cs /\ fits cs /\ ~ all_in (set_str (Some [eacute; [32]])) cs /\
  str_strip (ustr cs) (Some (ustr [eacute; [32]])) = Ok (ustr [euro]) /\
  str_rstrip (ustr (txt [32; 97; 32; 10])) None = Ok (ustr (txt [32; 97])).
Proof.
  cbn zeta. repeat split; try istext; try reflexivity. intros H. apply Forall_inv_tail, Forall_inv_tail, Forall_inv in H. cbn in H.
  destruct H as [H|[H|H]]; [discriminate|discriminate|contradiction].
Qed.

(** " ".strip() keeps a byte: its length is 0 but it differs from the empty string. *)
Theorem C37_refuted : exists cs s, text cs /\ str_rstrip (ustr cs) None = Ok s /\ str_strip (ustr cs) None = Ok s /\
  str_len s = 0 /\ str_eq s (ustr []) = Ok false.
Proof. exists (txt [32]), (Str 0 [32]). repeat split; try istext; reflexivity. Qed.
Print Assumptions C37_refuted.

(** ** C38: startswith, endswith. *)

(** Missing for the full property: an end bound (C38_end_refuted), negative bounds, NUL
    in the prefix (C38_nul_refuted). *)
Theorem C38_startswith_partial : forall cs ps st, text cs -> text ps -> nulfree ps -> pos_bound st ->
  exists r, str_startswith (ustr cs) (ustr ps) st None = Ok r /\
    (r = true <-> py_start (zlen cs) st <= zlen cs /\ exists B, window cs (py_start (zlen cs) st) (zlen cs) = ps ++ B).
Proof. exact startswith_ok. Qed.
Print Assumptions C38_startswith_partial.

(** The prefix test of a whole text. *)
Theorem C38_prefix_partial : forall cs ps, text cs -> text ps -> nulfree ps ->
  exists r, str_startswith (ustr cs) (ustr ps) None None = Ok r /\ (r = true <-> exists B, cs = ps ++ B).
Proof.
  intros cs ps H1 H2 N. destruct (startswith_ok cs ps None H1 H2 N I) as (r & Hr & Hs). exists r. split; [exact Hr|]. rewrite Hs.
  change (py_start (zlen cs) None) with 0. rewrite window_all. pose proof (zlen_nn cs). tauto.
Qed.
Print Assumptions C38_prefix_partial.

(** The suffix test for suffixes in ASCII.  Missing for the full property: other
    suffixes, where the answer may be wrong (C38_suffix_refuted); negative bounds; NUL. *)
Theorem C38_endswith_partial : forall cs ps st en, text cs -> ascii ps -> nulfree ps -> pos_bound st -> pos_bound en ->
  let a := py_start (zlen cs) st in let b := py_end (zlen cs) en in
  exists r, str_endswith (ustr cs) (ustr ps) st en = Ok r /\
    (r = true <-> a <= b /\ exists A, window cs a b = A ++ ps).
Proof.
  intros cs ps st en H1 H2 N S E a b. destruct (endswith_shape cs ps st en H1 (ascii_text ps H2) N S E) as (r & Hr & Hs).
  exists r. split; [exact Hr|]. rewrite Hs. fold a b. rewrite ascii_len by assumption. pose proof (zlen_nn ps).
  assert (Hb : b <= zlen cs) by (unfold b, py_end; lia). assert (Ha : 0 <= a) by (apply py_start_nn; [apply zlen_nn|assumption]). split.
  - intros (L & _ & A & EA). split; [lia|eauto].
  - intros (L & A & EA). split; [|split; [lia|eauto]].
    assert (Hw : zlen (window cs a b) <= b - a) by (unfold window, zlen; rewrite firstn_length, skipn_length; unfold zlen in *; lia).
    rewrite EA, zlen_app in Hw. pose proof (zlen_nn A). lia.
Qed.
Print Assumptions C38_endswith_partial.

(** Without bounds on how short the rest is: exactly when the answer is right for every suffix. *)
Theorem C38_endswith_shape_partial : forall cs ps st en, text cs -> text ps -> nulfree ps -> pos_bound st -> pos_bound en ->
  let a := py_start (zlen cs) st in let b := py_end (zlen cs) en in
  exists r, str_endswith (ustr cs) (ustr ps) st en = Ok r /\
    (r = true <-> zlen (concat ps) <= b - a /\ a <= zlen cs /\ exists A, window cs a b = A ++ ps).
Proof. exact endswith_shape. Qed.
Print Assumptions C38_endswith_shape_partial.

Example C38_case : let cs := [eacute; euro; [97]; [98]] in
  text cs /\ text [eacute; euro] /\ nulfree [eacute; euro] /\ ascii (txt [97; 98]) /\ nulfree (txt [97; 98]) /\ pos_bound (Some 1) /\
  str_startswith (ustr cs) (ustr [eacute; euro]) None None = Ok true /\
  str_startswith (ustr cs) (ustr [euro; [97]]) (Some 1) None = Ok true /\
  str_endswith (ustr cs) (ustr (txt [97; 98])) (Some 1) None = Ok true /\
  str_endswith (ustr cs) (ustr (txt [97])) None (Some 3) = Ok true.
Proof. cbn zeta. repeat split; try istext; try reflexivity; try (repeat constructor; discriminate).
  repeat constructor; eexists; (split; [reflexivity|lia]). Qed.

(** "aé".endswith("aé") is False. *)
Theorem C38_suffix_refuted : exists cs, text cs /\ nulfree cs /\ str_endswith (ustr cs) (ustr cs) None None = Ok false.
Proof. exists [[97]; eacute]. repeat split; try istext; try (repeat constructor; discriminate); reflexivity. Qed.
Print Assumptions C38_suffix_refuted.

(** "abc".startswith("abc", 0, 1) is True. *)
Theorem C38_end_refuted : exists cs ps, text cs /\ text ps /\
  str_startswith (ustr cs) (ustr ps) (Some 0) (Some 1) = Ok true /\ ~ exists B, window cs 0 1 = ps ++ B.
Proof. exists (txt [97; 98; 99]), (txt [97; 98; 99]). repeat split; try istext. intros (B & H). discriminate. Qed.
Print Assumptions C38_end_refuted.

(** "\0".startswith("\0") is False. *)
Theorem C38_nul_refuted : exists cs, text cs /\ cs <> [] /\ str_startswith (ustr cs) (ustr cs) None None = Ok false.
Proof. exists [[0]]. repeat split; try istext; try discriminate; try reflexivity. Qed.
Print Assumptions C38_nul_refuted.

(** ** C62: slices. *)

(** Missing for the full property: steps that leave a text that is not ASCII
    (C62_refuted), backward bounds before the first character (C03). *)
Theorem C62_slice_partial : forall cs s, text cs -> fits cs -> slice_ok (length cs) s ->
  (ascii cs \/ forall ps p, select (length cs) s = Some (ps ++ [p]) -> 0 <= p + step_of s <= zlen cs) ->
  str_getslice (ustr cs) s = mapr ustr (py_slice cs s).
Proof. exact getslice_ok. Qed.
Print Assumptions C62_slice_partial.

(** Every slice s[a:b] of every text. *)
Theorem C62_range : forall cs a b, text cs -> fits cs ->
  str_getslice (ustr cs) (mkSlice a b None) = mapr ustr (py_slice cs (mkSlice a b None)).
Proof.
  intros cs a b H F. apply getslice_ok; [assumption|assumption|left; cbn; lia|]. right. intros ps p E. cbn in E. injection E as E.
  assert (Hp : In p (select_forward (length cs) a b 1)) by (rewrite E; apply in_or_app; right; left; reflexivity).
  unfold select_forward in Hp. apply filter_In in Hp. destruct Hp as [Hp _]. unfold positions in Hp. apply in_map_iff in Hp.
  destruct Hp as (j & <- & Hj). apply in_seq in Hj. unfold zlen. change (step_of (mkSlice a b None)) with 1. lia.
Qed.
Print Assumptions C62_range.

Example C62_case : let cs := [eacute; euro; [97]; smile] in
  text cs /\ fits cs /\ str_getslice (ustr cs) (mkSlice (Some 1) (Some (-1)) None) = Ok (ustr [euro; [97]]) /\
  str_getslice (ustr cs) (mkSlice (Some (-1)) (Some 0) (Some (-1))) = Ok (ustr [smile; [97]; euro]) /\
  select 4 (mkSlice (Some (-1)) (Some 0) (Some (-1))) = Some ([3; 2] ++ [1]) /\
  slice_ok 4 (mkSlice (Some (-1)) (Some 0) (Some (-1))) /\
  str_getslice (ustr (txt [97; 98; 99; 100])) (mkSlice None None (Some (-3))) = Ok (ustr (txt [100; 97])).
Proof. cbn zeta. repeat split; try istext; try reflexivity; right; cbn; lia. Qed.

(** "é"[::-1] reads before, "é"[::3] behind the text. *)
Theorem C62_refuted : exists cs, text cs /\ slice_ok (length cs) (mkSlice None None (Some (-1))) /\
  str_getslice (ustr cs) (mkSlice None None (Some (-1))) = UB /\
  str_getslice (ustr cs) (mkSlice None None (Some 3)) = UB.
Proof. exists [eacute]. repeat split; try istext; try reflexivity; right; cbn; lia. Qed.
Print Assumptions C62_refuted.

(** ** C63: words, lines, padding, tabs. *)

(** split() yields the maximal runs of characters that are not white space, the last one
    being the unsplit rest once the limit is reached; [isspace] is the library's
    classification of characters. *)
Theorem C63_words : forall isspace cs m, text cs -> fits cs ->
  exists l, words isspace (limit m) cs l /\ str_split_space isspace (ustr cs) m = Ok (map ustr l).
Proof. exact split_space_ok. Qed.
Print Assumptions C63_words.

Theorem C63_splitlines : forall cs keep, text cs -> fits cs ->
  exists r, lines cs r /\ str_splitlines (ustr cs) keep = Ok (map (line_of keep) r).
Proof. exact splitlines_ok. Qed.
Print Assumptions C63_splitlines.

(** Lines and terminators add up to the text. *)
Theorem C63_lines_all : forall cs r, lines cs r -> concat (map (fun le => fst le ++ snd le) r) = cs.
Proof.
  intros cs r H. induction H as [|l Hl Hn|l e X r Hn He Hc H IH]; [reflexivity| |].
  - cbn. rewrite !app_nil_r. reflexivity.
  - cbn [map concat fst snd]. rewrite IH, app_assoc. reflexivity.
Qed.
Print Assumptions C63_lines_all.

(** Widths that fit an int (C63_width_refuted). *)
Theorem C63_ljust_partial : forall cs w o, text cs -> is_int w -> uchar (fill_of o) ->
  let r := cs ++ repeat (fill_of o) (Z.to_nat (w - zlen cs)) in
  fits r -> str_ljust (ustr cs) w (option_map (fun c => ustr [c]) o) = Ok (ustr r).
Proof. exact ljust_ok. Qed.
Print Assumptions C63_ljust_partial.
Theorem C63_rjust_partial : forall cs w o, text cs -> is_int w -> uchar (fill_of o) ->
  let r := repeat (fill_of o) (Z.to_nat (w - zlen cs)) ++ cs in
  fits r -> str_rjust (ustr cs) w (option_map (fun c => ustr [c]) o) = Ok (ustr r).
Proof. exact rjust_ok. Qed.
Print Assumptions C63_rjust_partial.
Theorem C63_center_partial : forall cs w o, text cs -> is_int w -> uchar (fill_of o) ->
  let pad := Z.max 0 (w - zlen cs) in
  let r := repeat (fill_of o) (Z.to_nat (pad / 2)) ++ cs ++ repeat (fill_of o) (Z.to_nat (pad - pad / 2)) in
  fits r -> str_center (ustr cs) w (option_map (fun c => ustr [c]) o) = Ok (ustr r).
Proof. exact center_ok. Qed.
Print Assumptions C63_center_partial.
(** The zeros go behind a sign. *)
Theorem C63_zfill_partial : forall cs w, text cs -> is_int w ->
  let zs : list char := repeat [48] (Z.to_nat (w - zlen cs)) in
  let r := match cs with
           | [43] :: t => [43] :: zs ++ t
           | [45] :: t => [45] :: zs ++ t
           | _ => zs ++ cs
           end in
  fits r -> str_zfill (ustr cs) w = Ok (ustr r).
Proof. exact zfill_ok. Qed.
Print Assumptions C63_zfill_partial.
(** A fill that is not one character is refused. *)
Theorem C63_fill_refused : forall s w f, nchars f <> 1 ->
  str_ljust s w (Some f) = Exn ValueError /\ str_rjust s w (Some f) = Exn ValueError /\ str_center s w (Some f) = Exn ValueError.
Proof.
  intros s w f H. unfold str_ljust, str_rjust, str_center, fill_char. destruct (nchars f =? 1) eqn:E; [lia|]. cbn [negb]. auto.
Qed.
Print Assumptions C63_fill_refused.

(** Missing for the full property: texts that are not ASCII (C63_tabs_refuted) and
    sizes beyond int. *)
Theorem C63_expandtabs_partial : forall cs o, ascii cs -> (forall t, o = Some t -> is_int t) ->
  let tab := match o with None => 8 | Some t => if t <=? 0 then 1 else t end in
  tab * zlen cs < 2 ^ 31 ->
  str_expandtabs (ustr cs) o = Ok (ustr (expanded tab 0 cs)).
Proof. exact expandtabs_ok. Qed.
Print Assumptions C63_expandtabs_partial.

Example C63_case : let cs := [eacute; [13]; [10]; [10]; euro] in
  text cs /\ fits cs /\ str_splitlines (ustr cs) true = Ok [ustr [eacute; [13]; [10]]; ustr [[10]]; ustr [euro]] /\
  str_splitlines (ustr cs) false = Ok [ustr [eacute]; ustr []; ustr [euro]] /\
  str_split_space (fun c => hd 0 c <=? 32) (ustr (txt [32; 97; 98; 32; 99; 32])) None = Ok [ustr (txt [97; 98]); ustr (txt [99])] /\
  str_split_space (fun c => hd 0 c <=? 32) (ustr (txt [32; 97; 98; 32; 99; 32])) (Some 1) = Ok [ustr (txt [97; 98]); ustr (txt [99; 32])] /\
  str_center (ustr [euro]) 4 (Some (ustr [eacute])) = Ok (ustr [eacute; euro; eacute; eacute]) /\
  str_zfill (ustr (txt [45; 55])) 4 = Ok (ustr (txt [45; 48; 48; 55])) /\
  str_expandtabs (ustr (txt [97; 9; 98; 10; 9; 99])) (Some 4) = Ok (ustr (txt [97; 32; 32; 32; 98; 10; 32; 32; 32; 32; 99])).
Proof. cbn zeta. repeat split; try istext; reflexivity. Qed.

(** "a".ljust(2^32) is "a". *)
Theorem C63_width_refuted : exists cs w, text cs /\ zlen cs < w /\ str_ljust (ustr cs) w None = Ok (ustr cs).
Proof. exists (txt [97]), (2 ^ 32). repeat split; try istext; reflexivity. Qed.
Print Assumptions C63_width_refuted.

(** "é".expandtabs(1) overruns its buffer; "€".expandtabs(8) contains a byte that was
    never written; and the column after "é" counts its bytes. *)
Theorem C63_tabs_refuted : exists a b c, text a /\ text b /\ text c /\
  str_expandtabs (ustr a) (Some 1) = UB /\ str_expandtabs (ustr b) None = UB /\
  exists s, str_expandtabs (ustr c) (Some 4) = Ok s /\ str_len s = 3 /\ zlen (expanded 4 0 c) = 4.
Proof. exists [eacute], [euro], [eacute; [9]]. repeat split; try istext; try reflexivity. eexists. repeat split; reflexivity. Qed.
Print Assumptions C63_tabs_refuted.

(** ** C64: comparison and hash. *)

(** Missing for the full property: NUL characters (C64_nul_refuted); sequences that are
    not the shortest encoding of their character (the runtime's own conversions produce
    none). *)
Theorem C64_eq_partial : forall a b, text a -> text b -> nulfree a -> nulfree b ->
  exists r, str_eq (ustr a) (ustr b) = Ok r /\ str_ne (ustr a) (ustr b) = Ok (negb r) /\ (r = true <-> a = b).
Proof.
  intros a b Ha Hb Na Nb. destruct (cmp_bytes a b Ha Hb Na Nb) as (c & Hc & Hcase). exists (c =? 0).
  unfold str_eq, str_ne. rewrite Hc. repeat split; try reflexivity; intros H.
  - apply concat_inj; [assumption|assumption|]. destruct Hcase as [[-> E]|[[-> _]|[-> _]]]; [exact E|discriminate|discriminate].
  - subst b. destruct Hcase as [[-> _]|[[_ H]|[_ H]]]; [reflexivity|destruct (lex_irrefl _ H)|destruct (lex_irrefl _ H)].
Qed.
Print Assumptions C64_eq_partial.

(** The order is that of the sequences of code points. *)
Theorem C64_order_partial : forall a b, Forall canonical a -> Forall canonical b -> nulfree a -> nulfree b ->
  let lt x y := lex_lt (map codepoint x) (map codepoint y) in
  (exists r, str_lt (ustr a) (ustr b) = Ok r /\ (r = true <-> lt a b)) /\
  (exists r, str_le (ustr a) (ustr b) = Ok r /\ (r = true <-> a = b \/ lt a b)) /\
  (exists r, str_gt (ustr a) (ustr b) = Ok r /\ (r = true <-> lt b a)) /\
  (exists r, str_ge (ustr a) (ustr b) = Ok r /\ (r = true <-> a = b \/ lt b a)).
Proof.
  intros a b Ca Cb Na Nb lt. pose proof (canonical_text a Ca) as Ha. pose proof (canonical_text b Cb) as Hb.
  destruct (cmp_bytes a b Ha Hb Na Nb) as (c & Hc & Hcase). unfold str_lt, str_le, str_gt, str_ge. rewrite Hc. cbn [bindr].
  pose proof (order_points a b Ca Cb) as O1. pose proof (order_points b a Cb Ca) as O2. fold (lt a b) in O1. fold (lt b a) in O2.
  pose proof (lex_irrefl (concat a)) as Ia. pose proof (lex_irrefl (concat b)) as Ib. pose proof (lex_asym (concat a) (concat b)) as As.
  assert (Eq : a = b <-> concat a = concat b) by (split; [intros ->; reflexivity|apply concat_inj; assumption]).
  assert (Ne : lex_lt (concat a) (concat b) \/ lex_lt (concat b) (concat a) -> concat a <> concat b) by (intros X E; rewrite E in X; tauto).
  destruct Hcase as [[-> E]|[[-> E]|[-> E]]]; (split; [|split; [|split]]); eexists; (split; [reflexivity|]); cbn.
  1-4: assert (~ lt a b /\ ~ lt b a) by (rewrite <- O1, <- O2, E; tauto).
  all: split; intros X; try reflexivity; try discriminate; tauto.
Qed.
Print Assumptions C64_order_partial.

(** Equal strings hash alike: the hash function is given the same bytes, and different
    texts give it different bytes. *)
Theorem C64_hash_partial : forall a b, text a -> text b -> nulfree a -> nulfree b ->
  (hash_input (ustr a) = hash_input (ustr b) <-> a = b).
Proof.
  intros a b Ha Hb Na Nb. unfold hash_input. cbn [sbytes ustr]. rewrite !c_string_id by (apply nulfree_bytes; assumption).
  split; [apply concat_inj; assumption|intros ->; reflexivity].
Qed.
Print Assumptions C64_hash_partial.

Example C64_case : let a := [[97]; eacute] in let b := [[97]; euro] in
  Forall canonical a /\ Forall canonical b /\ nulfree a /\ nulfree b /\ map codepoint b = [97; 8364] /\
  str_lt (ustr a) (ustr b) = Ok true /\ str_ge (ustr a) (ustr b) = Ok false /\ str_eq (ustr a) (ustr a) = Ok true.
Proof. cbn zeta. repeat split; try reflexivity; try (repeat constructor; try discriminate; cbn; lia). Qed.

(** chr(0) == "" although their lengths differ. *)
Theorem C64_nul_refuted : str_eq (chr_ascii 0) (ustr []) = Ok true /\ str_len (chr_ascii 0) = 1 /\ chr_ascii 0 = ustr [[0]].
Proof. repeat split. Qed.
Print Assumptions C64_nul_refuted.

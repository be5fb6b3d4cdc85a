(** Lemmas for the XML theorems: what is printed, and the tree made of what was read. *)
From Verif Require Import Base P_Base M_Str S_Str P_Str2 S_Xml M_Xml P_Xml.
From Coq Require Import ZifyBool ZifyNat.

(** ** Texts *)
Definition utext (b : list Z) : Prop := exists cs, text cs /\ b = concat cs.
Definition tstr (b : list Z) : str := Str (char_count b) b.

Lemma count_app a b : char_count (a ++ b) = char_count a + char_count b.
Proof. unfold char_count. rewrite filter_app. unfold zlen. rewrite app_length. lia. Qed.
Lemma count_le b : 0 <= char_count b <= zlen b.
Proof.
  induction b as [|c b IH]; [cbv; split; discriminate|]. change (c :: b) with ([c] ++ b). rewrite count_app.
  unfold char_count at 1 3. cbn [filter]. destruct (negb _); unfold zlen in *; cbn [length app] in *; lia.
Qed.
Lemma count_chars cs : text cs -> char_count (concat cs) = zlen cs.
Proof.
  induction 1 as [|c cs Hc _ IH]; [reflexivity|]. cbn [concat]. rewrite count_app, IH.
  assert (E : char_count c = 1).
  { unfold char_count. destruct c as [|a [|b [|x [|y [|]]]]]; cbn [uchar] in Hc; try contradiction; unfold cont in *; cbn [filter].
    - replace (_ && _) with false by lia. reflexivity.
    - replace ((128 <=? a) && _) with false by lia. replace ((128 <=? b) && _) with true by lia. reflexivity.
    - replace ((128 <=? a) && _) with false by lia. replace ((128 <=? b) && _) with true by lia. replace ((128 <=? x) && _) with true by lia. reflexivity.
    - replace ((128 <=? a) && _) with false by lia. replace ((128 <=? b) && _) with true by lia. replace ((128 <=? x) && _) with true by lia.
      replace ((128 <=? y) && _) with true by lia. reflexivity. }
  rewrite E. unfold zlen. cbn [length]. lia.
Qed.
Lemma text_tstr s : is_text s -> s = tstr (sbytes s) /\ utext (sbytes s).
Proof. intros (cs & H & ->). unfold tstr, ustr. cbn [sbytes]. rewrite count_chars by exact H. split; [reflexivity|exists cs; auto]. Qed.
Lemma utext_is b : utext b -> is_text (tstr b).
Proof. intros (cs & H & ->). exists cs. split; [exact H|]. unfold tstr, ustr. rewrite count_chars by exact H. reflexivity. Qed.
Lemma utext_app a b : utext a -> utext b -> utext (a ++ b).
Proof. intros (x & Hx & ->) (y & Hy & ->). exists (x ++ y). split; [apply Forall_app; auto|]. rewrite concat_app. reflexivity. Qed.
Lemma utext_ascii b : Forall (fun c => 0 <= c < 128) b -> utext b.
Proof.
  intros H. exists (map (fun c => [c]) b). split.
  - induction H; constructor; auto.
  - clear. induction b as [|c b IH]; [reflexivity|]. cbn [map concat app]. rewrite <- IH. reflexivity.
Qed.
Lemma utext_nil : utext [].
Proof. apply utext_ascii. constructor. Qed.
Lemma utext_concat l : Forall utext l -> utext (concat l).
Proof. induction 1; [apply utext_nil|]. cbn [concat]. apply utext_app; assumption. Qed.
Lemma utext_escape q b : utext b -> utext (escape q b).
Proof.
  intros (cs & H & ->). induction H as [|c cs Hc _ IH]; [apply utext_nil|]. cbn [concat]. rewrite escape_app. apply utext_app; [|exact IH].
  destruct c as [|a [|b c]]; [contradiction| |].
  - unfold escape. cbn [flat_map]. rewrite app_nil_r. apply utext_ascii. unfold escape1. cbn in Hc.
    destruct (a =? 38); [repeat constructor; lia|]. destruct (a =? 60); [repeat constructor; lia|]. destruct (q && _); repeat constructor; lia.
  - exists [a :: b :: c]. split; [constructor; [exact Hc|constructor]|]. cbn [concat]. rewrite app_nil_r.
    assert (Hi : Forall (fun z => 128 <= z) (a :: b :: c)).
    { destruct c as [|x [|y [|]]]; cbn [uchar] in Hc; unfold cont in Hc; try contradiction; repeat constructor; lia. }
    clear - Hi. unfold escape. induction Hi as [|z l Hz _ IH]; [reflexivity|]. cbn [flat_map]. rewrite IH. unfold escape1.
    replace (z =? 38) with false by lia. replace (z =? 60) with false by lia. replace (z =? 34) with false by lia. rewrite andb_false_r. reflexivity.
Qed.

Lemma joined_concat ps l : concat (joined ps l) = joined (concat ps) (map (@concat Z) l).
Proof.
  induction l as [|x [|y l] IH]; [reflexivity|reflexivity|]. cbn [joined map] in *. rewrite !concat_app, IH. reflexivity.
Qed.
Lemma utext_all l : Forall utext l -> exists css, Forall text css /\ l = map (@concat Z) css.
Proof.
  induction 1 as [|x l (cs & Hc & ->) _ (css & H & ->)]; [exists []; auto|]. exists (cs :: css). auto.
Qed.
Lemma join_tstr p l : utext p -> Forall utext l -> zlen (joined p l) < 2 ^ 31 ->
  str_join (tstr p) (map tstr l) = Ok (tstr (joined p l)).
Proof.
  intros (ps & Hp & ->) Hl F. destruct (utext_all _ Hl) as (css & Hc & ->).
  assert (E : forall cs, text cs -> tstr (concat cs) = ustr cs) by (intros cs H; unfold tstr, ustr; rewrite count_chars by exact H; reflexivity).
  assert (T : text (joined ps css)).
  { clear - Hp Hc. induction Hc as [|x l Hx Hl IH]; [constructor|]. destruct l; [exact Hx|]. cbn [joined] in *. apply Forall_app. split; [exact Hx|]. apply Forall_app. split; [exact Hp|exact IH]. }
  rewrite <- joined_concat in F. rewrite <- (joined_concat ps css). rewrite (E ps Hp). transitivity (Ok (ustr (joined ps css))); [|f_equal; symmetry; exact (E _ T)].
  replace (map tstr (map (@concat Z) css)) with (map ustr css).
  - apply join_ok; assumption.
  - rewrite map_map. apply map_ext_in. intros x Hx. symmetry. apply E. rewrite Forall_forall in Hc. apply Hc. exact Hx.
Qed.

(** ** Encoding *)
Lemma copy_is q s : copy_escape q s = escape q s.
Proof.
  induction s as [|c s IH]; [reflexivity|]. cbn [copy_escape]. rewrite IH. unfold escape. cbn [flat_map]. f_equal. unfold escape1.
  destruct (c =? 38); [reflexivity|]. destruct (c =? 60); [reflexivity|]. destruct (c =? 34), q; reflexivity.
Qed.

Record measure (m : list Z -> Z) : Prop := {
  m_app : forall a b, m (a ++ b) = m a + m b;
  m_one : forall c, 0 <= c < 128 -> m [c] = 1 }.
Lemma zlen_measure : measure (fun b => zlen b).
Proof. split; intros; [unfold zlen; rewrite app_length; lia|reflexivity]. Qed.
Lemma count_measure : measure char_count.
Proof. split; [apply count_app|]. intros c Hc. unfold char_count. cbn [filter]. replace (_ && _) with false by lia. reflexivity. Qed.

Section measured.
  Variable m : list Z -> Z.
  Hypothesis M : measure m.
  Lemma m_nil : m [] = 0.
  Proof. pose proof (m_app m M [] []). cbn in H. lia. Qed.
  Lemma m_cons c b : 0 <= c < 128 -> m (c :: b) = 1 + m b.
  Proof. intros H. change (c :: b) with ([c] ++ b). rewrite (m_app m M), (m_one m M) by exact H. reflexivity. Qed.
  Lemma m_escape q s : m (escape q s) = m s + count_extra q s.
  Proof.
    induction s as [|c s IH]; [cbn; lia|]. change (c :: s) with ([c] ++ s). rewrite escape_app, !(m_app m M), IH. cbn [app count_extra].
    unfold escape. cbn [flat_map]. unfold escape1. rewrite app_nil_r.
    destruct (c =? 38) eqn:E1; [apply Z.eqb_eq in E1; subst c; rewrite !m_cons, m_nil by lia; lia|].
    destruct (c =? 60) eqn:E2; [apply Z.eqb_eq in E2; subst c; rewrite !m_cons, m_nil by lia; lia|].
    destruct (c =? 34) eqn:E3; [|rewrite andb_false_r; lia]. destruct q; cbn [andb]; [|lia].
    apply Z.eqb_eq in E3; subst c; rewrite !m_cons, m_nil by lia; lia.
  Qed.
  Lemma m_spaces k : m (repeat 32 k) = Z.of_nat k.
  Proof. induction k as [|k IH]; [exact m_nil|]. cbn [repeat]. rewrite m_cons, IH by lia. lia. Qed.
  Lemma m_opt {A} (f : A -> list Z) o : m (opt f o) = match o with Some a => m (f a) | None => 0 end.
  Proof. destruct o; [reflexivity|exact m_nil]. Qed.
  Lemma m_print_attr name v : m (print_attr name v) = m name + m (sbytes v) + count_extra true (sbytes v) + 4.
  Proof. unfold print_attr. cbn [app]. rewrite m_cons, (m_app m M), !m_cons, (m_app m M), m_cons, m_nil, m_escape by lia. lia. Qed.
  Lemma m_flat {A} (f : A -> list Z) (g : A -> Z) l : Forall (fun a => g a = m (f a)) l -> sum (map g l) = m (flat_map f l).
  Proof.
    unfold sum. induction 1 as [|a l E _ IH]; [symmetry; exact m_nil|]. cbn [map fold_right flat_map]. rewrite (m_app m M), IH, E. reflexivity.
  Qed.
  Lemma m_qtag n len : len (n_tag n) = m (sbytes (n_tag n)) -> all_opt (fun p => len p = m (sbytes p)) (n_prefix n) -> qlen len n = m (qtag n).
  Proof.
    intros H1 H2. unfold qlen, qtag. rewrite (m_app m M), H1, m_opt. destruct (n_prefix n) as [p|]; [|lia]. cbn in H2.
    rewrite (m_app m M), m_cons, m_nil by lia. lia.
  Qed.
End measured.

Lemma fill_ok b : zlen b < 2 ^ 31 -> fill (char_count b) (zlen b) b = Ok (tstr b).
Proof. intros H. unfold fill. pose proof (count_le b). replace (_ && _) with true by lia. reflexivity. Qed.

Lemma is_nchars s : is_text s -> nchars s = char_count (sbytes s).
Proof. intros H. destruct (text_tstr _ H) as [E _]. rewrite E. reflexivity. Qed.

Lemma nsdefs_ok l : Forall (fun d => is_text (snd d) /\ all_opt is_text (fst d)) l -> zlen (flat_map print_ns l) < 2 ^ 31 ->
  encode_nsdefs l = Ok (tstr (flat_map print_ns l)).
Proof.
  intros H B. unfold encode_nsdefs.
  assert (W : concat (map ns_write l) = flat_map print_ns l).
  { rewrite flat_map_concat_map. f_equal. apply map_ext. intros [[p|] h]; unfold ns_write, print_ns, print_attr; cbn [fst snd opt]; rewrite copy_is; reflexivity. }
  rewrite W. rewrite (m_flat _ count_measure print_ns ns_chars), (m_flat _ zlen_measure print_ns ns_bytes).
  - apply fill_ok. exact B.
  - apply Forall_forall. intros [[p|] h] _; unfold print_ns, ns_bytes; rewrite (m_print_attr _ zlen_measure); unfold nbytes, zlen, xmlns; cbn [fst snd opt]; rewrite app_length; cbn [length]; lia.
  - eapply Forall_impl; [|exact H]. intros [[p|] h] [H1 H2]; unfold print_ns, ns_chars; cbn [fst snd opt all_opt] in *; rewrite (m_print_attr _ count_measure), count_app, !is_nchars by assumption.
    + rewrite (m_cons _ count_measure) by lia. change (char_count xmlns) with 5. lia.
    + change (char_count xmlns) with 5. change (char_count []) with 0. lia.
Qed.
Lemma attrs_ok l : Forall (fun a => is_text (fst a) /\ is_text (snd a)) l -> zlen (flat_map (fun a => print_attr (sbytes (fst a)) (snd a)) l) < 2 ^ 31 ->
  encode_attrs l = Ok (tstr (flat_map (fun a => print_attr (sbytes (fst a)) (snd a)) l)).
Proof.
  intros H B. unfold encode_attrs.
  assert (W : concat (map attr_write l) = flat_map (fun a => print_attr (sbytes (fst a)) (snd a)) l).
  { rewrite flat_map_concat_map. f_equal. apply map_ext. intros [k v]; unfold attr_write, print_attr; cbn [fst snd]; rewrite copy_is; reflexivity. }
  rewrite W. rewrite (m_flat _ count_measure (fun a => print_attr (sbytes (fst a)) (snd a)) attr_chars), (m_flat _ zlen_measure (fun a => print_attr (sbytes (fst a)) (snd a)) attr_bytes).
  - apply fill_ok. exact B.
  - apply Forall_forall. intros [k v] _; unfold attr_bytes; rewrite (m_print_attr _ zlen_measure); reflexivity.
  - eapply Forall_impl; [|exact H]. intros [k v] [H1 H2]; unfold attr_chars; cbn [fst snd] in *; rewrite (m_print_attr _ count_measure), !is_nchars by assumption. reflexivity.
Qed.

Lemma print_unfold p d n : print p d n =
  let ind := if p then repeat 32 (2 * d) else [] in
  let nl := if p then [10] else [] in
  ind ++ [60] ++ start_of n ++
  match n_text n, n_children n with
  | None, [] => [47; 62]
  | t, ks =>
      [62] ++ opt (fun t => escape false (sbytes t)) t ++
      match ks with [] => [] | _ => nl ++ joinb nl (map (print p (S d)) ks) ++ nl ++ ind end ++
      [60; 47] ++ qtag n ++ [62]
  end ++ opt (fun t => escape false (sbytes t)) (n_tail n).
Proof.
  assert (K : forall l, (fix go l := match l with [] => [] | k :: l' => print p (S d) k :: go l' end) l = map (print p (S d)) l).
  { induction l as [|k l IH]; [reflexivity|]. cbn [map]. rewrite <- IH. reflexivity. }
  destruct n as [t ds pr a c x l]. cbn [print n_children n_text n_tail]. rewrite K. destruct x, c; reflexivity.
Qed.
Definition encode_kids (p : bool) (depth : Z) : list node -> res (list str) :=
  fix go l := match l with [] => Ok [] | k :: l' => do s <- node2str p depth k; do r <- go l'; Ok (s :: r) end.
Lemma node2str_unfold p depth n : node2str p depth n =
  do nsdefs <- encode_nsdefs (n_nsdefs n);
  do attrs <- encode_attrs (n_attrs n);
  let has_children := match n_children n with [] => false | _ => true end in
  let is_empty := match n_text n with None => negb has_children | Some _ => false end in
  do children_str <-
    (if has_children then do l <- encode_kids p (depth + 1) (n_children n); str_join (if p then Str 1 [10] else null_str) l else Ok null_str);
  let indent_size := if p then depth * 2 else 0 in
  let indent := repeat 32 (Z.to_nat indent_size) in
  fill (total nchars n indent_size is_empty has_children p nsdefs attrs children_str)
       (total nbytes n indent_size is_empty has_children p nsdefs attrs children_str)
       (indent ++ [60] ++ qwrite n ++ sbytes nsdefs ++ sbytes attrs ++
        (if is_empty then [47] ++ [62]
         else [62] ++ match n_text n with Some t => copy_escape false (sbytes t) | None => [] end ++
              (if has_children
               then (if p then [10] else []) ++ sbytes children_str ++ (if p then [10] ++ indent else [])
               else []) ++
              [60] ++ [47] ++ qwrite n ++ [62]) ++
        match n_tail n with Some t => copy_escape false (sbytes t) | None => [] end).
Proof. destruct n. reflexivity. Qed.

Lemma joined_len {A} (sep : list A) l x : In x l -> zlen x <= zlen (joined sep l).
Proof.
  induction l as [|y [|z l] IH]; intros H; [contradiction| |].
  - destruct H as [->|[]]. reflexivity.
  - change (joined sep (y :: z :: l)) with (y ++ sep ++ joined sep (z :: l)). unfold zlen in *. rewrite !app_length.
    destruct H as [->|H]; [lia|]. specialize (IH H). lia.
Qed.

Lemma utext_print_attr name v : utext name -> is_text v -> utext (print_attr name v).
Proof.
  intros H1 H2. unfold print_attr. apply (utext_app [32]); [apply utext_ascii; repeat constructor; lia|]. apply utext_app; [exact H1|].
  apply utext_app; [apply utext_ascii; repeat constructor; lia|]. apply utext_app; [apply utext_escape, (text_tstr _ H2)|apply utext_ascii; repeat constructor; lia].
Qed.
Lemma utext_opt {A} (f : A -> list Z) o : all_opt (fun a => utext (f a)) o -> utext (opt f o).
Proof. destruct o; cbn; [auto|intros _; apply utext_nil]. Qed.
Lemma utext_flat {A} (f : A -> list Z) l : Forall (fun a => utext (f a)) l -> utext (flat_map f l).
Proof. intros H. rewrite flat_map_concat_map. apply utext_concat. apply Forall_map. exact H. Qed.
Lemma utext_joined sep l : utext sep -> Forall utext l -> utext (joined sep l).
Proof. intros Hs. induction 1 as [|x [|y l] Hx _ IH]; [apply utext_nil|exact Hx|]. cbn [joined] in *. apply utext_app; [exact Hx|]. apply utext_app; assumption. Qed.
Lemma text_u s : is_text s -> utext (sbytes s).
Proof. intros H. apply (text_tstr _ H). Qed.
Lemma all_opt_impl {A} (P Q : A -> Prop) o : (forall a, P a -> Q a) -> all_opt P o -> all_opt Q o.
Proof. destruct o; cbn; auto. Qed.
Lemma white_u g : Forall (fun c => c = 10 \/ c = 32) g -> utext g.
Proof. intros H. apply utext_ascii. eapply Forall_impl; [|exact H]. cbn. intros; lia. Qed.

Lemma utext_qtag n : is_text (n_tag n) -> all_opt is_text (n_prefix n) -> utext (qtag n).
Proof.
  intros H1 H2. unfold qtag. apply utext_app; [|apply text_u; exact H1]. apply utext_opt. eapply all_opt_impl; [|exact H2].
  intros a Ha. apply utext_app; [apply text_u; exact Ha|apply utext_ascii; repeat constructor; lia].
Qed.
Lemma utext_start n : strings_ok n -> utext (start_of n).
Proof.
  intros H. inversion H as [? H1 H2 H3 H4 H5 H6 H7]; subst. unfold start_of. apply utext_app; [apply utext_qtag; assumption|]. apply utext_app; apply utext_flat.
  - eapply Forall_impl; [|exact H3]. intros d [A B]. apply utext_print_attr; [|exact A]. apply utext_app; [apply utext_ascii; repeat constructor; lia|].
    apply utext_opt. eapply all_opt_impl; [|exact B]. intros a Ha. apply (utext_app [58]); [apply utext_ascii; repeat constructor; lia|apply text_u; exact Ha].
  - eapply Forall_impl; [|exact H4]. intros d [A B]. apply utext_print_attr; [apply text_u; exact A|exact B].
Qed.
Lemma utext_print p n : forall d, strings_ok n -> utext (print p d n).
Proof.
  induction n as [t ds pr a c x l IH] using node_ind2. intros d H. pose proof (utext_start _ H) as St. inversion H as [? H1 H2 H3 H4 H5 H6 H7]; subst.
  pose proof (utext_qtag _ H1 H2) as Q. rewrite print_unfold. set (n := Node t ds pr a c x l) in *. cbv zeta.
  assert (E : forall o, all_opt is_text o -> utext (opt (fun t => escape false (sbytes t)) o)).
  { intros o Ho. apply utext_opt. eapply all_opt_impl; [|exact Ho]. intros s Hs. apply utext_escape, text_u. exact Hs. }
  assert (I : utext (if p then repeat 32 (2 * d) else [])).
  { destruct p; [|apply utext_nil]. apply white_u. apply Forall_forall. intros y Hy. apply repeat_spec in Hy. auto. }
  assert (Nl : utext (if p then [10] else [])) by (destruct p; [apply utext_ascii; repeat constructor; lia|apply utext_nil]).
  assert (A : forall b, Forall (fun c => 0 <= c < 128) b -> utext b) by (apply utext_ascii).
  assert (B : utext ([62] ++ opt (fun t => escape false (sbytes t)) (n_text n) ++
      match n_children n with [] => [] | _ => (if p then [10] else []) ++ joinb (if p then [10] else []) (map (print p (S d)) (n_children n)) ++ (if p then [10] else []) ++ (if p then repeat 32 (2 * d) else []) end ++
      [60; 47] ++ qtag n ++ [62])).
  { apply utext_app; [apply A; repeat constructor; lia|]. apply utext_app; [apply E; exact H5|]. apply utext_app.
    - assert (G : utext ((if p then [10] else []) ++ joinb (if p then [10] else []) (map (print p (S d)) (n_children n)) ++ (if p then [10] else []) ++ (if p then repeat 32 (2 * d) else []))).
      { apply utext_app; [exact Nl|]. apply utext_app; [|apply utext_app; assumption]. apply utext_joined; [exact Nl|].
        apply Forall_map. apply Forall_forall. intros k Hk. cbn [n_children n] in *. rewrite Forall_forall in IH, H7. apply IH; [exact Hk|apply H7; exact Hk]. }
      destruct (n_children n); [apply utext_nil|exact G].
    - apply utext_app; [apply A; repeat constructor; lia|]. apply utext_app; [exact Q|apply A; repeat constructor; lia]. }
  apply utext_app; [exact I|]. apply utext_app; [apply A; repeat constructor; lia|]. apply utext_app; [exact St|]. apply utext_app; [|apply E; exact H6].
  destruct (n_text n), (n_children n); try exact B. apply A; repeat constructor; lia.
Qed.

Lemma kids_ok p d l : Forall (fun n => forall d, strings_ok n -> zlen (print p d n) < 2 ^ 31 -> node2str p (Z.of_nat d) n = Ok (tstr (print p d n))) l ->
  Forall strings_ok l -> Forall (fun k => zlen (print p (S d) k) < 2 ^ 31) l ->
  encode_kids p (Z.of_nat d + 1) l = Ok (map tstr (map (print p (S d)) l)).
Proof.
  intros H S B. replace (Z.of_nat d + 1) with (Z.of_nat (1 + d)) by lia. induction H as [|k l Hk _ IH]; [reflexivity|].
  inversion S; inversion B; subst. cbn [encode_kids map]. rewrite Hk by assumption. cbn [bindr]. 
  change ((fix go l0 := match l0 with [] => Ok [] | k0 :: l' => do s <- node2str p (Z.of_nat (1 + d)) k0; do r <- go l'; Ok (s :: r) end) l) with (encode_kids p (Z.of_nat (1 + d)) l).
  rewrite IH by assumption. reflexivity.
Qed.

Section sizes.
  Variable m : list Z -> Z.
  Hypothesis M : measure m.
  Lemma total_ok (len : str -> Z) (p : bool) (d : nat) n nsd att cs : (forall s, is_text s -> len s = m (sbytes s)) -> strings_ok n ->
    len nsd = m (flat_map print_ns (n_nsdefs n)) -> len att = m (flat_map (fun a => print_attr (sbytes (fst a)) (snd a)) (n_attrs n)) ->
    len cs = m (joinb (if p then [10] else []) (map (print p (S d)) (n_children n))) ->
    total len n (if p then Z.of_nat d * 2 else 0) (match n_text n with None => negb (match n_children n with [] => false | _ => true end) | Some _ => false end)
      (match n_children n with [] => false | _ => true end) p nsd att cs = m (print p d n).
  Proof.
    intros L H E1 E2 E3. inversion H as [? H1 H2 H3 H4 H5 H6 H7]; subst.
    assert (Q : qlen len n = m (qtag n)).
    { apply m_qtag; [exact M|apply L; exact H1|]. eapply all_opt_impl; [|exact H2]. intros a Ha. apply L. exact Ha. }
    assert (I : (if p then Z.of_nat d * 2 else 0) = m (if p then repeat 32 (2 * d) else [])).
    { destruct p; [rewrite (m_spaces m M); lia|rewrite (m_nil m M); reflexivity]. }
    assert (Nl : m (if p then [10] else []) = b2z p).
    { destruct p; [rewrite (m_cons m M), (m_nil m M) by lia; reflexivity|apply (m_nil m M)]. }
    assert (T : forall o, all_opt is_text o -> match o with Some t => len t + count_extra false (sbytes t) | None => 0 end = m (opt (fun t => escape false (sbytes t)) o)).
    { intros [t|] Ho; cbn [opt]; [rewrite (m_escape m M), L by exact Ho; reflexivity|rewrite (m_nil m M); reflexivity]. }
    unfold total. rewrite Q, E1, E2, E3. rewrite print_unfold. cbv zeta. unfold start_of.
    pose proof (T _ H5) as T5. pose proof (T _ H6) as T6.
    assert (P2 : forall a b, 0 <= a < 128 -> 0 <= b < 128 -> m [a; b] = 2) by (intros; rewrite !(m_cons m M), (m_nil m M) by lia; reflexivity).
    assert (P1 : forall a, 0 <= a < 128 -> m [a] = 1) by (apply (m_one m M)).
    assert (X6 : match n_tail n with Some t => len t + match n_tail n with Some t => count_extra false (sbytes t) | None => 0 end | None => 0 end = m (opt (fun t => escape false (sbytes t)) (n_tail n))) by (rewrite <- T6; destruct (n_tail n); reflexivity).
    assert (X5 : match n_text n with Some t => len t + match n_text n with Some t => count_extra false (sbytes t) | None => 0 end | None => 0 end = m (opt (fun t => escape false (sbytes t)) (n_text n))) by (rewrite <- T5; destruct (n_text n); reflexivity).
    rewrite X6, X5. rewrite !(m_app m M). rewrite (P1 60) by lia. set (I0 := if p then Z.of_nat d * 2 else 0) in *. clearbody I0.
    destruct (n_text n) as [t|], (n_children n) as [|k ks]; cbn [negb andb b2z];
      rewrite ?(m_app m M), ?Nl, <- ?I, ?P2, ?P1, ?(m_nil m M) by lia; cbn [opt]; rewrite ?(m_nil m M);
      destruct p; cbn [b2z]; unfold joinb; cbn [map joined]; rewrite ?(m_nil m M) in *; lia.
  Qed.
End sizes.

Lemma zlen_app3 (a b : list Z) : zlen (a ++ b) = zlen a + zlen b.
Proof. unfold zlen. rewrite app_length. lia. Qed.
Lemma encode_ok p n : forall d, strings_ok n -> zlen (print p d n) < 2 ^ 31 -> node2str p (Z.of_nat d) n = Ok (tstr (print p d n)).
Proof.
  induction n as [t ds pr a c x l IH] using node_ind2. intros d H B. set (n := Node t ds pr a c x l) in *. inversion H as [? H1 H2 H3 H4 H5 H6 H7]; subst.
  pose proof (print_unfold p d n) as PU. cbv zeta in PU. unfold start_of in PU.
  assert (B1 : zlen (flat_map print_ns (n_nsdefs n)) < 2 ^ 31 /\ zlen (flat_map (fun a => print_attr (sbytes (fst a)) (snd a)) (n_attrs n)) < 2 ^ 31 /\
    zlen (joinb (if p then [10] else []) (map (print p (S d)) (n_children n))) < 2 ^ 31).
  { clear - B PU. rewrite PU in B. repeat rewrite zlen_app3 in B.
    assert (Z0 : forall b : list Z, 0 <= zlen b) by (intros; unfold zlen; lia).
    match type of B with context [zlen ?w + zlen (opt _ (n_tail n))] =>
      assert (G : zlen (joinb (if p then [10] else []) (map (print p (S d)) (n_children n))) <= zlen w) end.
    { destruct (n_text n), (n_children n) as [|k ks];
        try (unfold joinb; cbn [map joined]; change (zlen (@nil Z)) with 0; apply Z0); rewrite !zlen_app3; set (J := joinb _ _); clearbody J; unfold zlen; lia. }
    pose proof (Z0 (if p then repeat 32 (2 * d) else [])). pose proof (Z0 [60]). pose proof (Z0 (qtag n)). pose proof (Z0 (flat_map print_ns (n_nsdefs n))).
    pose proof (Z0 (flat_map (fun a => print_attr (sbytes (fst a)) (snd a)) (n_attrs n))).
    pose proof (Z0 (opt (fun t => escape false (sbytes t)) (n_tail n))). pose proof (Z0 (joinb (if p then [10] else []) (map (print p (S d)) (n_children n)))).
    lia. }
  destruct B1 as (B1 & B2 & B3).
  rewrite node2str_unfold. rewrite nsdefs_ok, attrs_ok by assumption. cbn [bindr]. cbv zeta.
  assert (Kd : (if match n_children n with [] => false | _ => true end
    then do l0 <- encode_kids p (Z.of_nat d + 1) (n_children n); str_join (if p then Str 1 [10] else null_str) l0 else Ok null_str) =
    Ok (tstr (joinb (if p then [10] else []) (map (print p (S d)) (n_children n))))).
  { destruct (match n_children n with [] => false | _ => true end) eqn:Eh.
    - rewrite kids_ok; [cbn [bindr]|exact IH|exact H7|].
      + replace (if p then Str 1 [10] else null_str) with (tstr (if p then [10] else [])) by (destruct p; reflexivity).
        apply join_tstr; [destruct p; [apply utext_ascii; repeat constructor; lia|apply utext_nil]| |exact B3].
        apply Forall_map. eapply Forall_impl; [|exact H7]. intros k Hk. apply utext_print. exact Hk.
      + apply Forall_forall. intros k Hk. pose proof (joined_len (if p then [10] else []) (map (print p (S d)) (n_children n)) (print p (S d) k) (in_map _ _ _ Hk)). unfold joinb in B3. lia.
    - destruct (n_children n); [reflexivity|discriminate]. }
  rewrite Kd. cbn [bindr].
  rewrite (total_ok _ count_measure nchars p d n) by (try assumption; try reflexivity; apply is_nchars).
  rewrite (total_ok _ zlen_measure nbytes p d n) by (try assumption; reflexivity).
  replace (repeat 32 (Z.to_nat (if p then Z.of_nat d * 2 else 0))) with (if p then repeat 32 (2 * d) else []).
  2:{ destruct p; [f_equal; lia|reflexivity]. }
  match goal with |- fill _ _ ?w = _ => replace w with (print p d n) end; [apply fill_ok; exact B|].
  rewrite PU. unfold tstr at 1 2 3. cbn [sbytes].
  assert (T : forall o, match o with Some t => copy_escape false (sbytes t) | None => [] end = opt (fun t => escape false (sbytes t)) o).
  { intros [t0|]; [apply copy_is|reflexivity]. }
  rewrite !T. change (qwrite n) with (qtag n). clear - n. rewrite <- !app_assoc.
  destruct (n_text n), (n_children n); cbn [negb]; try reflexivity; rewrite <- ?app_assoc; destruct p; cbn [app]; rewrite <- ?app_assoc; reflexivity.
Qed.

(** ** The tree made of what was read *)
Definition indt (o : option str) (g : list Z) : option str := match obs o ++ g with [] => None | b => Some (tstr b) end.
Fixpoint indented (p : bool) (d : nat) (n : node) : node :=
  Node (n_tag n) (n_nsdefs n) (n_prefix n) (n_attrs n)
    ((fix go l := match l with [] => [] | k :: l' => set_tail (indt (n_tail k) (after p d l')) (indented p (S d) k) :: go l' end) (n_children n))
    (indt (n_text n) (lead p d (n_children n))) None.
Fixpoint indk (p : bool) (d : nat) (l : list node) : list node :=
  match l with [] => [] | k :: l' => set_tail (indt (n_tail k) (after p d l')) (indented p (S d) k) :: indk p d l' end.
Lemma indented_unfold p d n : indented p d n =
  Node (n_tag n) (n_nsdefs n) (n_prefix n) (n_attrs n) (indk p d (n_children n)) (indt (n_text n) (lead p d (n_children n))) None.
Proof.
  assert (K : forall l, (fix go l := match l with [] => [] | k :: l' => set_tail (indt (n_tail k) (after p d l')) (indented p (S d) k) :: go l' end) l = indk p d l).
  { induction l as [|k l IH]; [reflexivity|]. cbn [indk]. rewrite <- IH. reflexivity. }
  destruct n as [t ds pr a c x l]. cbn [indented n_children n_text n_tail n_tag n_nsdefs n_prefix n_attrs]. rewrite K. reflexivity.
Qed.

Definition collect : list dom -> res (option (list Z) * list node) :=
  fix go (l : list dom) : res (option (list Z) * list node) :=
    match l with
    | [] => Ok (None, [])
    | (Text s | CData s) :: l' => do tc <- go l'; Ok (before (cut s) (fst tc), snd tc)
    | Comment _ :: l' => go l'
    | OtherNode :: _ => Exn ValueError
    | (Elem _ _ _ _ _ as e) :: l' =>
        do k <- node_of e; do tc <- go l';
        Ok (None, set_tail (option_map to_str (fst tc)) k :: snd tc)
    end.
Lemma node_of_unfold p n ns props kids : node_of (Elem p n ns props kids) =
  do tc <- collect kids;
  Ok (Node (to_str n) (map (fun x => (option_map to_str (fst x), to_str (snd x))) ns)
           (option_map to_str p) (map (attr_of props) props) (snd tc) (option_map to_str (fst tc)) None).
Proof. reflexivity. Qed.

Lemma cut_id b : Forall (fun c => c <> 0) b -> cut b = b.
Proof. induction 1 as [|c b Hc _ IH]; [reflexivity|]. cbn [cut]. replace (c =? 0) with false by lia. rewrite IH. reflexivity. Qed.
Lemma to_str_id b : Forall (fun c => c <> 0) b -> to_str b = tstr b.
Proof. intros H. unfold to_str, tstr. rewrite cut_id by exact H. reflexivity. Qed.
Lemma to_str_back s : is_text s -> Forall (fun c => c <> 0) (sbytes s) -> to_str (sbytes s) = s.
Proof. intros H N. rewrite to_str_id by exact N. symmetry. apply (text_tstr _ H). Qed.
Lemma qname_nz b : is_qname b -> Forall (fun c => c <> 0) b.
Proof.
  intros H. destruct (qname_parts _ H) as (_ & _ & _ & _ & F). apply Forall_forall. intros c Hc. rewrite forallb_forall in F.
  specialize (F _ Hc). intros ->. discriminate.
Qed.
Lemma name_back s : name_ok s -> to_str (sbytes s) = s.
Proof. intros [H N]. apply to_str_back; [exact H|]. apply qname_nz. left. exact N. Qed.
Lemma value_back s : value_ok s -> to_str (sbytes s) = s.
Proof. intros [H N]. apply to_str_back; [exact H|]. eapply Forall_impl; [|exact N]. cbn. intros; lia. Qed.
Lemma upto_back q s a b : upto [q] s = Some (a, b) -> s = a ++ q :: b.
Proof.
  revert a. induction s as [|c s IH]; intros a; [discriminate|]. cbn [upto starts]. destruct (q =? c) eqn:E.
  - cbn. intros K. inversion K; subst. apply Z.eqb_eq in E. subst. reflexivity.
  - cbn [andb]. destruct (upto [q] s) as [[x y]|]; [|discriminate]. intros K. inversion K; subst. cbn [app]. rewrite <- (IH x) by reflexivity. reflexivity.
Qed.
Lemma resolve_back sc q : match resolve sc q with (Some p, l) => p ++ [58] ++ l | (None, l) => l end = q.
Proof.
  unfold resolve. destruct (upto [58] q) as [[p l]|] eqn:E; [|reflexivity]. destruct (existsb _ _); [|reflexivity]. apply upto_back in E. symmetry. exact E.
Qed.

Lemma get_prop_ok (props : list (option (list Z) * list Z * list Z)) p n v :
  NoDup (map (fun a => snd (fst a)) props) -> In (p, n, v) props -> get_prop n props = v.
Proof.
  induction props as [|[[p' n'] v'] props IH]; intros N H; [contradiction|]. cbn [map fst snd] in N. inversion N as [|? ? Hn N']; subst. cbn [get_prop].
  destruct H as [H|H].
  - inversion H; subst. rewrite beqb_refl. reflexivity.
  - destruct (beqb n n') eqn:E; [|apply IH; assumption]. apply beqb_ok in E. subst n'. exfalso. apply Hn. apply in_map_iff. exists (p, n, v). auto.
Qed.

Lemma attrs_back sc n : elem_ok sc n ->
  map (attr_of (map (fun a => (resolve (scope_of n ++ sc) (fst a), snd a)) (atb n))) (map (fun a => (resolve (scope_of n ++ sc) (fst a), snd a)) (atb n)) = n_attrs n.
Proof.
  intros (_ & _ & _ & _ & Ha & _ & Nr & _). set (props := map _ (atb n)).
  assert (Np : NoDup (map (fun a => snd (fst a)) props)).
  { unfold props, atb. rewrite !map_map. cbn [fst snd]. exact Nr. }
  unfold props at 2. unfold atb. rewrite !map_map. cbn [fst snd].
  transitivity (map (fun a : str * str => a) (n_attrs n)); [|apply map_id]. apply map_ext_in. intros [k v] Hin. cbn [fst snd].
  assert (Hp : In (resolve (scope_of n ++ sc) (sbytes k), sbytes v) props).
  { unfold props, atb. rewrite map_map. apply in_map_iff. exists (k, v). split; [reflexivity|exact Hin]. }
  rewrite Forall_forall in Ha. destruct (Ha _ Hin) as ([Tk Qk] & Vv & _). cbn [fst snd] in *.
  pose proof (resolve_back (scope_of n ++ sc) (sbytes k)) as R.
  destruct (resolve (scope_of n ++ sc) (sbytes k)) as [p l] eqn:E. unfold attr_of.
  rewrite (get_prop_ok props p l (sbytes v) Np Hp), (value_back _ Vv). f_equal.
  assert (K : to_str (sbytes k) = k) by (apply to_str_back; [exact Tk|apply qname_nz; exact Qk]).
  destruct p; rewrite R; exact K.
Qed.

Lemma collect_text b rest ks : Forall (fun c => c <> 0) b -> collect rest = Ok (None, ks) ->
  collect (dtext b ++ rest) = Ok (match b with [] => None | _ => Some b end, ks).
Proof.
  intros H K. destruct b as [|c b]; [exact K|]. cbn [dtext app]. change (collect (Text (c :: b) :: rest)) with (do tc <- collect rest; Ok (before (cut (c :: b)) (fst tc), snd tc)).
  rewrite K. cbn [bindr fst snd]. rewrite cut_id by exact H. unfold before. rewrite app_nil_r. reflexivity.
Qed.

Lemma nz_opt o g : all_opt content_ok o -> Forall (fun c => c = 10 \/ c = 32) g -> Forall (fun c => c <> 0) (obs o ++ g).
Proof.
  intros H G. apply Forall_app. split; [|eapply Forall_impl; [|exact G]; cbn; intros; lia].
  destruct o as [s|]; [|constructor]. destruct H as [[_ H] _]. eapply Forall_impl; [|exact H]. cbn. intros; lia.
Qed.
Lemma indt_is o g : all_opt content_ok o -> Forall (fun c => c = 10 \/ c = 32) g ->
  option_map to_str (match obs o ++ g with [] => None | _ => Some (obs o ++ g) end) = indt o g.
Proof.
  intros H G. unfold indt. pose proof (nz_opt o g H G) as N. destruct (obs o ++ g) as [|c b]; [reflexivity|]. cbn [option_map]. rewrite to_str_id by exact N. reflexivity.
Qed.
Lemma lead_white {A} p d (l : list A) : Forall (fun c => c = 10 \/ c = 32) (lead p d l).
Proof. destruct l; [constructor|apply gap_white]. Qed.

Lemma node_back p n : forall d sc, tree_ok sc n -> node_of (dome p d sc n) = Ok (indented p d n).
Proof.
  induction n as [t df pr a c x l IH] using node_ind2. intros d sc Hn. set (n := Node t df pr a c x l) in *.
  inversion Hn as [? He Htl Hk]; subst. rewrite dome_unfold, node_of_unfold, indented_unfold.
  assert (Kd : collect (domk p d (scope_of n ++ sc) (n_children n)) = Ok (None, indk p d (n_children n))).
  { set (sc' := scope_of n ++ sc) in *. clearbody sc'. change (n_children n) with c in *. clear - IH Hk. induction IH as [|k c IHk _ IHc]; [reflexivity|].
    inversion Hk as [|? ? Hk1 Hk2]; subst. cbn [domk indk].
    rewrite (dome_unfold p (S d) sc' k). 
    match goal with |- collect (?e :: ?r) = _ => change (collect (e :: r)) with (do k0 <- node_of e; do tc <- collect r; Ok (@None (list Z), set_tail (option_map to_str (fst tc)) k0 :: snd tc)) end.
    rewrite <- dome_unfold. rewrite (IHk (S d) sc' Hk1). cbn [bindr].
    rewrite (collect_text _ _ (indk p d c)); [|apply nz_opt; [inversion Hk1; assumption|apply gap_white]|apply IHc; exact Hk2].
    cbn [bindr fst snd]. rewrite indt_is; [reflexivity|inversion Hk1; assumption|apply gap_white]. }
  pose proof He as (Ht & Hp & Hns & _ & _ & _ & _ & Hx).
  rewrite (collect_text _ _ (indk p d (n_children n))); [|apply nz_opt; [exact Hx|apply lead_white]|exact Kd].
  cbn [bindr fst snd]. rewrite indt_is by (try exact Hx; apply lead_white). rewrite (attrs_back _ _ He). f_equal. rewrite (name_back _ Ht).
  f_equal.
  - unfold nsb. rewrite map_map. transitivity (map (fun a : option str * str => a) (n_nsdefs n)); [|apply map_id]. apply map_ext_in. intros [q h] Hin. cbn [fst snd].
    rewrite Forall_forall in Hns. destruct (Hns _ Hin) as (V & Q & _). cbn [fst snd] in *. rewrite (value_back _ V). destruct q as [q|]; [|reflexivity].
    cbn [obytes option_map]. rewrite (name_back _ Q). reflexivity.
  - destruct (n_prefix n) as [q|]; [|reflexivity]. cbn [obytes option_map]. destruct Hp as [Hp _]. rewrite (name_back _ Hp). reflexivity.
Qed.

(** ** Without indentation nothing is added; with it, white space. *)
Lemma indt_same o : all_opt content_ok o -> indt o [] = o.
Proof.
  unfold indt. rewrite app_nil_r. destruct o as [s|]; [|reflexivity]. intros [[H _] [N _]]. cbn [obs opt]. destruct (sbytes s) as [|c b] eqn:E; [contradiction|].
  rewrite <- E. f_equal. symmetry. apply (text_tstr _ H).
Qed.
Lemma gap_false d : gap false d = [].
Proof. reflexivity. Qed.
Lemma indented_same n : forall d sc, tree_ok sc n -> indented false d n = set_tail None n.
Proof.
  induction n as [t df pr a c x l IH] using node_ind2. intros d sc Hn. inversion Hn as [? He Htl Hk]; subst. rewrite indented_unfold. cbn [n_tag n_nsdefs n_prefix n_attrs n_children n_text set_tail] in *.
  f_equal.
  - assert (K : forall c sc, Forall (fun n => forall d sc, tree_ok sc n -> indented false d n = set_tail None n) c -> Forall (tree_ok sc) c -> indk false d c = c).
    { clear. intros c sc H. induction H as [|k c Hk _ IHc]; intros T; [reflexivity|]. inversion T as [|? ? T1 T2]; subst. cbn [indk]. rewrite (Hk _ _ T1), (IHc T2).
      unfold after. rewrite gap_false. inversion T1 as [? _ Ht _]; subst. rewrite indt_same by exact Ht. destruct k; reflexivity. }
    eapply K; [exact IH|exact Hk].
  - destruct He as (_ & _ & _ & _ & _ & _ & _ & Hx). cbn [n_text] in Hx. replace (lead false d c) with (@nil Z) by (destruct c; reflexivity). apply indt_same. exact Hx.
Qed.
Lemma padded_indt o g : all_opt content_ok o -> Forall (fun c => c = 10 \/ c = 32) g -> padded o (indt o g).
Proof.
  intros H G. exists g. split; [eapply Forall_impl; [|exact G]; cbn; intros c [-> | ->]; reflexivity|].
  unfold indt. destruct (obs o ++ g) as [|c b] eqn:E.
  - apply app_eq_nil in E as [E ->]. split; [|reflexivity]. destruct o as [s|]; [|reflexivity]. destruct H as [_ [N _]]. contradiction.
  - rewrite <- E. split; [|reflexivity]. apply utext_is. apply utext_app; [|apply white_u; exact G]. apply (utext_opt sbytes). eapply all_opt_impl; [|exact H].
    intros s [[T _] _]. apply text_u. exact T.
Qed.
Lemma indented_spaced p n : forall d sc g, tree_ok sc n -> Forall (fun c => c = 10 \/ c = 32) g -> spaced n (set_tail (indt (n_tail n) g) (indented p d n)).
Proof.
  induction n as [t df pr a c x l IH] using node_ind2. intros d sc g Hn G. inversion Hn as [? He Htl Hk]; subst. rewrite indented_unfold. cbn [n_tag n_nsdefs n_prefix n_attrs n_children n_text n_tail set_tail] in *.
  destruct He as (_ & _ & _ & _ & _ & _ & _ & Hx). cbn [n_text] in Hx.
  constructor; cbn [n_tag n_nsdefs n_prefix n_attrs n_children n_text n_tail]; try reflexivity.
  - apply padded_indt; [exact Hx|apply lead_white].
  - intros ->. cbn [lead]. rewrite indt_same by exact Hx. reflexivity.
  - apply padded_indt; assumption.
  - remember (scope_of _ ++ sc) as sc' eqn:Esc in Hk. clear - IH Hk. induction IH as [|k c Hk1 _ IHc]; [constructor|]. inversion Hk as [|? ? T1 T2]; subst. cbn [indk].
    constructor; [|apply IHc; exact T2]. apply (Hk1 (S d) sc'); [exact T1|apply gap_white].
Qed.

Lemma tree_strings sc n : tree_ok sc n -> strings_ok n.
Proof.
  revert sc. induction n as [t df pr a c x l IH] using node_ind2. intros sc Hn. inversion Hn as [? He Htl Hk]; subst.
  destruct He as (Ht & Hp & Hns & _ & Ha & _ & _ & Hx). constructor.
  - apply Ht.
  - eapply all_opt_impl; [|exact Hp]. intros s [[H _] _]. exact H.
  - eapply Forall_impl; [|exact Hns]. intros s ([H _] & K & _). split; [exact H|]. eapply all_opt_impl; [|exact K]. intros q [Hq _]. exact Hq.
  - eapply Forall_impl; [|exact Ha]. intros s ([H _] & [K _] & _). auto.
  - eapply all_opt_impl; [|exact Hx]. intros s [[H _] _]. exact H.
  - eapply all_opt_impl; [|exact Htl]. intros s [[H _] _]. exact H.
  - cbn [n_children] in *. rewrite Forall_forall in *. intros k Hin. eapply IH; [exact Hin|apply Hk; exact Hin].
Qed.

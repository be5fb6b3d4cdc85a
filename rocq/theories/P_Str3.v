(** Stripping, prefixes and suffixes, characters, words, lines, padding, comparison. *)
From Verif Require Import Base M_Slice S_Slice M_Str S_Str P_Base P_Bmh P_Str P_Str2.
From Coq Require Import ZifyBool ZifyNat.

(** ** Comparing bytes. *)
Lemma tri {A} (dec : forall a b : A, {a = b} + {a <> b}) (x y : list A) : (exists x', x = y ++ x') \/
  (exists u a b x' y', x = u ++ a :: x' /\ y = u ++ b :: y' /\ a <> b) \/ (exists c y', y = x ++ c :: y').
Proof.
  revert y. induction x as [|a x IH]; intros [|b y].
  - left. exists []. reflexivity.
  - right. right. exists b, y. reflexivity.
  - left. exists (a :: x). reflexivity.
  - destruct (dec a b) as [->|Hne].
    + destruct (IH y) as [(x' & ->)|[(u & c & d & x' & y' & -> & -> & H)|(c & y' & ->)]].
      * left. exists x'. reflexivity.
      * right. left. exists (b :: u), c, d, x', y'. auto.
      * right. right. exists c, y'. reflexivity.
    + right. left. exists [], a, b, x, y. auto.
Qed.

Lemma rd_at A x R p : p = zlen A -> rd (A ++ x :: R) p = Ok x.
Proof. intros ->. unfold rd. rewrite zget_r by lia. replace (zlen A - zlen A) with 0 by lia. reflexivity. Qed.

Lemma equal_bytes_same y : forall A C x S p q, p = zlen A -> q = zlen C -> equal_bytes (length y) (A ++ y ++ x) p (C ++ y ++ S) q = Ok true.
Proof.
  induction y as [|a y IH]; intros A C x S p q Hp Hq; [reflexivity|]. cbn [length equal_bytes app].
  rewrite !rd_at by assumption. cbn [bindr]. rewrite Z.eqb_refl.
  replace (A ++ a :: y ++ x) with ((A ++ [a]) ++ y ++ x) by (rewrite <- app_assoc; reflexivity).
  replace (C ++ a :: y ++ S) with ((C ++ [a]) ++ y ++ S) by (rewrite <- app_assoc; reflexivity).
  apply IH; rewrite zlen_app, zlen_cons, zlen_nil; lia.
Qed.
Lemma equal_bytes_diff u : forall n A C a b x' y' p q, p = zlen A -> q = zlen C -> a <> b -> (length u < n)%nat ->
  equal_bytes n (A ++ u ++ a :: x') p (C ++ u ++ b :: y') q = Ok false.
Proof.
  induction u as [|c u IH]; intros n A C a b x' y' p q Hp Hq Hne Hn; (destruct n as [|n]; [cbn in Hn; lia|]); cbn [equal_bytes app].
  - rewrite !rd_at by assumption. cbn [bindr]. destruct (a =? b) eqn:E; [lia|reflexivity].
  - rewrite !rd_at by assumption. cbn [bindr]. rewrite Z.eqb_refl.
    replace (A ++ c :: u ++ a :: x') with ((A ++ [c]) ++ u ++ a :: x') by (rewrite <- app_assoc; reflexivity).
    replace (C ++ c :: u ++ b :: y') with ((C ++ [c]) ++ u ++ b :: y') by (rewrite <- app_assoc; reflexivity).
    cbn in Hn. apply IH; try assumption; try lia; rewrite zlen_app, zlen_cons, zlen_nil; lia.
Qed.

Lemma equal_char c d A C R S : uchar c -> uchar d ->
  exists e, equal_bytes (Z.to_nat (byte_length2 (hd 0 d))) (A ++ c ++ R) (zlen A) (C ++ d ++ S) (zlen C) = Ok e /\ (e = true <-> c = d).
Proof.
  intros Hc Hd. rewrite bl2 by assumption. unfold zlen at 1. rewrite Nat2Z.id.
  destruct (tri Z.eq_dec (c ++ R) d) as [(x' & E)|[(u & a & b & x' & y' & E1 & E2 & Hne)|(z & y' & E)]].
  - exists true. split; [rewrite E; apply equal_bytes_same; reflexivity|].
    split; [|reflexivity]. intros _. exact (proj1 (uchar_prefix c d R x' Hc Hd E)).
  - exists false. split.
    + rewrite E1, E2, <- app_assoc. cbn [app]. apply equal_bytes_diff; try reflexivity; [assumption|rewrite app_length; cbn; lia].
    + split; [discriminate|]. intros ->. exfalso. rewrite E2, <- app_assoc in E1. cbn [app] in E1. apply app_inv_head in E1. congruence.
  - exfalso. assert (E' : d ++ [] = c ++ R ++ z :: y') by (rewrite app_nil_r, E, <- app_assoc; reflexivity).
    destruct (uchar_prefix d c _ _ Hd Hc E') as [_ E2]. destruct R; discriminate.
Qed.

Lemma in_set_ok ss : forall c A R C S, uchar c -> text ss ->
  exists e, in_set (length ss) (A ++ c ++ R) (zlen A) (C ++ concat ss ++ S) (zlen C) = Ok e /\ (e = true <-> In c ss).
Proof.
  induction ss as [|d ss IH]; intros c A R C S Hc Hs; cbn [length in_set concat].
  - exists false. split; [reflexivity|]. split; [discriminate|intros []].
  - apply text_cons in Hs. destruct Hs as [Hd Hs]. rewrite <- app_assoc. rewrite rd_char by assumption. cbn [bindr].
    destruct (equal_char c d A C R (concat ss ++ S) Hc Hd) as (e & -> & He). cbn [bindr].
    destruct e.
    + exists true. split; [reflexivity|]. split; [intros _; left; symmetry; tauto|reflexivity].
    + rewrite bl2 by assumption. rewrite (app_assoc C). replace (zlen C + zlen d) with (zlen (C ++ d)) by apply zlen_app.
      destruct (IH c A R (C ++ d) S Hc Hs) as (e & -> & He2). exists e. split; [reflexivity|]. rewrite He2. cbn.
      split; [tauto|]. intros [->|H]; [exfalso; destruct He as [_ He]; discriminate (He eq_refl)|assumption].
Qed.
Lemma in_set_buf ss c A R : uchar c -> text ss ->
  exists e, in_set (Z.to_nat (nchars (ustr ss))) (A ++ c ++ R) (zlen A) (buf (ustr ss)) 0 = Ok e /\ (e = true <-> In c ss).
Proof.
  intros Hc Hs. cbn [nchars ustr]. unfold zlen at 1. rewrite Nat2Z.id.
  destruct (in_set_ok ss c A R [] [0] Hc Hs) as (e & H & He). exists e. split; [exact H|exact He].
Qed.

(** ** Strip. *)

Lemma lstrip_loop_ok ss (Hs : text ss) W : forall A R, text W ->
  exists D K, W = D ++ K /\ all_in ss D /\ starts_out ss K /\
    lstrip_loop (length W) (A ++ concat W ++ R) (zlen A) (ustr ss) = Ok (length K, zlen A + zlen (concat D)).
Proof.
  induction W as [|c W IH]; intros A R H.
  - exists [], []. split; [reflexivity|]. split; [constructor|]. split; [exact I|]. cbn. f_equal. f_equal. lia.
  - apply text_cons in H. destruct H as [Hc H]. cbn [length lstrip_loop concat]. rewrite <- app_assoc.
    destruct (in_set_buf ss c A (concat W ++ R) Hc Hs) as (e & -> & He). cbn [bindr]. destruct e.
    + rewrite rd_char by assumption. cbn [bindr]. rewrite bl2 by assumption. rewrite (app_assoc A).
      replace (zlen A + zlen c) with (zlen (A ++ c)) by apply zlen_app.
      destruct (IH (A ++ c) R H) as (D & K & -> & HD & HK & ->). exists (c :: D), K.
      split; [reflexivity|]. split; [constructor; [tauto|assumption]|]. split; [assumption|].
      cbn [concat]. rewrite !zlen_app. f_equal. f_equal. lia.
    + exists [], (c :: W). split; [reflexivity|]. split; [constructor|]. split.
      * cbn. intros Hin. apply He in Hin. discriminate.
      * cbn. f_equal. f_equal. lia.
Qed.

Lemma set_str_ok o : strip_set (option_map ustr o) = ustr (set_str o).
Proof. destruct o; reflexivity. Qed.
Lemma set_text o : (forall ss, o = Some ss -> text ss) -> text (set_str o).
Proof. intros H. destruct o as [ss|]; [apply H; reflexivity|]. repeat constructor; cbn; lia. Qed.

Lemma lstrip_ok cs o : text cs -> fits cs -> (forall ss, o = Some ss -> text ss) ->
  exists D K, cs = D ++ K /\ all_in (set_str o) D /\ starts_out (set_str o) K /\
    str_lstrip (ustr cs) (option_map ustr o) = Ok (ustr K).
Proof.
  intros H F Ho. unfold str_lstrip. cbn [nchars ustr]. destruct (zlen cs =? 0) eqn:E.
  - assert (cs = []) by (destruct cs; [reflexivity|rewrite zlen_cons in E; pose proof (zlen_nn cs); lia]). subst cs.
    exists [], []. split; [reflexivity|]. split; [constructor|]. split; [exact I|reflexivity].
  - fold (ustr cs). rewrite set_str_ok. unfold zlen at 1. rewrite Nat2Z.id.
    destruct (lstrip_loop_ok (set_str o) (set_text o Ho) cs [] [0] H) as (D & K & EW & HD & HK & HL).
    cbn [app] in HL. change (zlen (@nil Z)) with 0 in HL. rewrite Z.add_0_l in HL. rewrite <- buf_ustr in HL. rewrite HL. cbn [bindr].
    exists D, K. split; [assumption|]. split; [assumption|]. split; [assumption|].
    assert (HT : text K) by (rewrite EW in H; apply text_app in H; tauto). assert (HF : fits K) by (rewrite EW in F; apply fits_app in F; tauto).
    rewrite EW, buf2. change (nbytes (ustr (D ++ K))) with (zlen (concat (D ++ K))). rewrite concat_app, zlen_app.
    rewrite (copy_mid' (concat D) (concat K)) by lia. cbn [bindr]. apply new_ok; [assumption|exact HF|unfold zlen; lia].
Qed.

Lemma rstrip_loop_ok ss (Hs : text ss) W : forall A R, text W ->
  exists K D, W = K ++ D /\ all_in ss D /\ ends_out ss K /\
    exists p, rstrip_loop (length W) (A ++ concat W ++ R) (zlen A + zlen (concat W)) (ustr ss) = Ok (length K, p) /\
      (K = [] -> p = zlen A) /\ (forall K' c, K = K' ++ [c] -> p = zlen A + zlen (concat K')).
Proof.
  induction W as [|c W IH] using rev_ind; intros A R H.
  - exists [], []. split; [reflexivity|]. split; [constructor|]. split; [exact I|]. exists (zlen A).
    split; [cbn; f_equal; f_equal; lia|]. split; [reflexivity|]. intros K' c E. destruct K'; discriminate.
  - apply text_app in H. destruct H as [H Hc]. apply Forall_inv in Hc. rewrite app_length. cbn [length]. rewrite Nat.add_1_r.
    cbn [rstrip_loop]. rewrite concat_app. cbn [concat]. rewrite app_nil_r, zlen_app.
    assert (Hsk : skip_chars (A ++ (concat W ++ c) ++ R) (zlen A + (zlen (concat W) + zlen c)) (-1) false = Ok (zlen A + zlen (concat W))).
    { unfold skip_chars. cbn [Z.leb Z.compare Z.opp Z.to_nat Pos.to_nat Pos.iter_op].
      pose proof (skip_back_ok [c] (A ++ concat W) R) as L. cbn [length concat] in L. rewrite app_nil_r in L.
      replace (A ++ (concat W ++ c) ++ R) with ((A ++ concat W) ++ c ++ R) by (rewrite <- !app_assoc; reflexivity).
      replace (zlen A + (zlen (concat W) + zlen c)) with (zlen (A ++ concat W) + zlen c) by (rewrite zlen_app; lia).
      replace (zlen A + zlen (concat W)) with (zlen (A ++ concat W)) by apply zlen_app. apply L. constructor; [assumption|constructor]. }
    rewrite Hsk. cbn [bindr].
    replace (A ++ (concat W ++ c) ++ R) with ((A ++ concat W) ++ c ++ R) by (rewrite <- !app_assoc; reflexivity).
    destruct (in_set_buf ss c (A ++ concat W) R Hc Hs) as (e & He0 & He). rewrite zlen_app in He0. rewrite He0. cbn [bindr]. destruct e.
    + rewrite <- app_assoc. destruct (IH A (c ++ R) H) as (K & D & EW & HD & HK & p & HL & Hp1 & Hp2).
      exists K, (D ++ [c]). split; [rewrite EW, app_assoc; reflexivity|]. split; [apply Forall_app; split; [assumption|constructor; [tauto|constructor]]|].
      split; [assumption|]. exists p. auto.
    + exists (W ++ [c]), []. split; [rewrite app_nil_r; reflexivity|]. split; [constructor|]. split.
      * unfold ends_out. rewrite rev_app_distr. cbn. intros Hin. apply He in Hin. discriminate.
      * exists (zlen A + zlen (concat W)). split; [rewrite app_length; cbn [length]; rewrite Nat.add_1_r; reflexivity|].
        split; [intros E; destruct W; discriminate|]. intros K' c' E. apply app_inj_tail in E. destruct E as [-> _]. reflexivity.
Qed.

Lemma rstrip_ok cs o : text cs -> fits cs -> (forall ss, o = Some ss -> text ss) -> (cs = [] \/ ~ all_in (set_str o) cs) ->
  exists K D, cs = K ++ D /\ all_in (set_str o) D /\ ends_out (set_str o) K /\ (cs = [] \/ K <> []) /\
    str_rstrip (ustr cs) (option_map ustr o) = Ok (ustr K).
Proof.
  intros H F Ho Hne. unfold str_rstrip. cbn [nchars ustr]. destruct (zlen cs =? 0) eqn:E.
  - assert (cs = []) by (destruct cs; [reflexivity|rewrite zlen_cons in E; pose proof (zlen_nn cs); lia]). subst cs.
    exists [], []. split; [reflexivity|]. split; [constructor|]. split; [exact I|]. split; [auto|reflexivity].
  - fold (ustr cs). rewrite set_str_ok. unfold zlen at 1. rewrite Nat2Z.id.
    destruct (rstrip_loop_ok (set_str o) (set_text o Ho) cs [] [0] H) as (K & D & EW & HD & HK & p & HL & Hp1 & Hp2).
    cbn [app] in HL. change (zlen (@nil Z)) with 0 in HL. rewrite Z.add_0_l in HL. rewrite <- buf_ustr in HL.
    change (nbytes (ustr cs)) with (zlen (concat cs)). rewrite HL. cbn [bindr].
    exists K, D. split; [assumption|]. split; [assumption|]. split; [assumption|].
    assert (Kne : K <> []).
    { intros ->. destruct Hne as [->|Hne]; [cbn in E; lia|]. apply Hne. rewrite EW. assumption. }
    split; [auto|].
    assert (HT : text K) by (rewrite EW in H; apply text_app in H; tauto). assert (HF : fits K) by (rewrite EW in F; apply fits_app in F; tauto).
    destruct (exists_last Kne) as (K' & c & EK). rewrite (Hp2 K' c EK). change (zlen (@nil Z)) with 0. rewrite Z.add_0_l.
    assert (HTc : text [c]) by (rewrite EK in HT; apply text_app in HT; tauto).
    assert (Eb : buf (ustr cs) = concat K' ++ concat [c] ++ concat D ++ [0]) by (rewrite EW, EK, <- app_assoc; apply buf3).
    unfold skip_chars. cbn [Z.leb Z.compare]. change (Z.to_nat 1) with (length [c]). rewrite Eb, skip_fwd_ok by assumption. cbn [bindr].
    replace (zlen (concat K') + zlen (concat [c])) with (zlen (concat K)) by (rewrite EK, concat_app, zlen_app; reflexivity).
    replace (concat K' ++ concat [c] ++ concat D ++ [0]) with (concat K ++ concat D ++ [0]) by (rewrite EK, concat_app, <- app_assoc; reflexivity).
    pose proof (copy_mid [] (concat K) (concat D ++ [0]) (zlen (concat K)) eq_refl) as C1. cbn [app] in C1. change (zlen (@nil Z)) with 0 in C1.
    rewrite C1. cbn [bindr]. apply new_ok; [assumption|exact HF|unfold zlen; lia].
Qed.

Lemma strip_ok cs o : text cs -> fits cs -> (forall ss, o = Some ss -> text ss) -> (cs = [] \/ ~ all_in (set_str o) cs) ->
  exists D K E, cs = D ++ K ++ E /\ all_in (set_str o) D /\ all_in (set_str o) E /\ starts_out (set_str o) K /\ ends_out (set_str o) K /\
    str_strip (ustr cs) (option_map ustr o) = Ok (ustr K).
Proof.
  intros H F Ho Hne. unfold str_strip. destruct (rstrip_ok cs o H F Ho Hne) as (K1 & E & EW & HE & HK1 & Hn & ->). cbn [bindr].
  assert (HT : text K1) by (rewrite EW in H; apply text_app in H; tauto). assert (HF : fits K1) by (rewrite EW in F; apply fits_app in F; tauto).
  destruct (lstrip_ok K1 o HT HF Ho) as (D & K & EK & HD & HK & HR). exists D, K, E. split; [rewrite EW, EK, app_assoc; reflexivity|].
  split; [assumption|]. split; [assumption|]. split; [assumption|]. split; [|assumption].
  unfold ends_out in *. rewrite EK, rev_app_distr in HK1. destruct (rev K) as [|c r]; [exact I|exact HK1].
Qed.

(** ** Prefixes and suffixes. *)
Lemma nulfree_bytes cs : text cs -> nulfree cs -> ~ In 0 (concat cs).
Proof.
  intros H Hn Hin. apply in_concat in Hin. destruct Hin as (c & Hc & H0).
  unfold text in H. rewrite Forall_forall in H. unfold nulfree in Hn. rewrite Forall_forall in Hn. specialize (H c Hc). specialize (Hn c Hc).
  destruct (uchar_cases c H) as (x & t & E & Hx & _ & Ht & Hb & _). rewrite E in H0. destruct H0 as [->|H0].
  - rewrite E in Hb, Hn. change (byte_length2 0) with 1 in Hb. rewrite zlen_cons in Hb. destruct t; [congruence|].
    rewrite zlen_cons in Hb. pose proof (zlen_nn t). lia.
  - rewrite Forall_forall in Ht. specialize (Ht 0 H0). unfold cont in Ht. lia.
Qed.
Lemma match_at_same y : forall A C x S p q, p = zlen A -> q = zlen C -> ~ In 0 y -> match_at (length y) (A ++ y ++ x) p (C ++ y ++ S) q = Ok true.
Proof.
  induction y as [|a y IH]; intros A C x S p q Hp Hq H0; [reflexivity|]. cbn [length match_at app].
  rewrite !rd_at by assumption. cbn [bindr]. destruct (a =? 0) eqn:E; [exfalso; apply H0; left; lia|]. rewrite Z.eqb_refl.
  replace (A ++ a :: y ++ x) with ((A ++ [a]) ++ y ++ x) by (rewrite <- app_assoc; reflexivity).
  replace (C ++ a :: y ++ S) with ((C ++ [a]) ++ y ++ S) by (rewrite <- app_assoc; reflexivity).
  apply IH; try (rewrite zlen_app, zlen_cons, zlen_nil; lia). intros ?. apply H0. right. assumption.
Qed.
Lemma match_at_diff u : forall n A C a b x' y' p q, p = zlen A -> q = zlen C -> a <> b -> (length u < n)%nat ->
  match_at n (A ++ u ++ a :: x') p (C ++ u ++ b :: y') q = Ok false.
Proof.
  induction u as [|c u IH]; intros n A C a b x' y' p q Hp Hq Hne Hn; (destruct n as [|n]; [cbn in Hn; lia|]); cbn [match_at app].
  - rewrite !rd_at by assumption. cbn [bindr]. destruct (a =? 0); [reflexivity|]. destruct (a =? b) eqn:E; [lia|reflexivity].
  - rewrite !rd_at by assumption. cbn [bindr]. destruct (c =? 0); [reflexivity|]. rewrite Z.eqb_refl.
    replace (A ++ c :: u ++ a :: x') with ((A ++ [c]) ++ u ++ a :: x') by (rewrite <- app_assoc; reflexivity).
    replace (C ++ c :: u ++ b :: y') with ((C ++ [c]) ++ u ++ b :: y') by (rewrite <- app_assoc; reflexivity).
    cbn in Hn. apply IH; try assumption; try lia; rewrite zlen_app, zlen_cons, zlen_nil; lia.
Qed.
Lemma match_at_ok x y A S p : ~ In 0 y -> p = zlen A ->
  exists e, match_at (Z.to_nat (zlen y)) (A ++ x ++ [0]) p (y ++ S) 0 = Ok e /\ (e = true <-> exists x', x = y ++ x').
Proof.
  intros H0 ->. unfold zlen at 1. rewrite Nat2Z.id.
  destruct (tri Z.eq_dec (x ++ [0]) y) as [(x' & E)|[(u & a & b & x' & y' & E1 & E2 & Hne)|(z & y' & E)]].
  - exists true. split; [rewrite E; apply (match_at_same y A [] x' S); (reflexivity || assumption)|].
    split; [intros _|reflexivity]. destruct x' as [|z x'] using rev_ind; [rewrite app_nil_r in E; exfalso; apply H0; rewrite <- E; apply in_or_app; right; left; reflexivity|].
    clear IHx'. rewrite app_assoc in E. apply app_inj_tail in E. destruct E as [-> _]. exists x'. reflexivity.
  - exists false. split.
    + rewrite E1, E2, <- app_assoc. cbn [app]. apply (match_at_diff u (length (u ++ b :: y')) A []); try reflexivity; [assumption|rewrite app_length; cbn; lia].
    + split; [discriminate|]. intros (x'' & ->). exfalso. rewrite E2, <- !app_assoc in E1. apply app_inv_head in E1. cbn in E1. congruence.
  - exfalso. apply H0. rewrite E. apply in_or_app. left. apply in_or_app. right. left. reflexivity.
Qed.

Lemma startswith_ok cs ps st : text cs -> text ps -> nulfree ps -> pos_bound st ->
  exists r, str_startswith (ustr cs) (ustr ps) st None = Ok r /\
    (r = true <-> py_start (zlen cs) st <= zlen cs /\ exists B, window cs (py_start (zlen cs) st) (zlen cs) = ps ++ B).
Proof.
  intros H1 H2 Hn Hs. unfold str_startswith. cbn [nchars ustr]. pose proof (zlen_nn cs) as Hc.
  rewrite fix_ok by (assumption || exact I). pose proof (py_start_nn _ st Hc Hs). set (a := py_start (zlen cs) st) in *.
  destruct (zlen cs <? a) eqn:E; [exists false; split; [reflexivity|split; [discriminate|lia]]|].
  fold (ustr cs) (ustr ps). destruct (window_cut cs a (zlen cs) ltac:(lia) ltac:(lia)) as (A & B & EW & HA & HW).
  set (W := window cs a (zlen cs)) in *. assert (B = []).
  { pose proof (f_equal zlen EW) as EL. rewrite !zlen_app in EL. destruct B; [reflexivity|]. rewrite zlen_cons in EL. pose proof (zlen_nn B). lia. }
  subst B. rewrite app_nil_r in EW.
  rewrite (skip_chars_fwd [] A W cs) by (assumption || reflexivity || lia). cbn [bindr concat]. rewrite zlen_nil, Z.add_0_l.
  change (nbytes (ustr ps)) with (zlen (concat ps)).
  assert (Eb : buf (ustr cs) = concat A ++ concat W ++ [0]) by (rewrite EW at 1; apply buf2).
  destruct (match_at_ok (concat W) (concat ps) (concat A) [0] _ (nulfree_bytes ps H2 Hn) eq_refl) as (e & He & Hr).
  rewrite Eb, buf_ustr, He. exists e. split; [reflexivity|]. rewrite Hr. assert (HTW : text W) by (rewrite EW in H1; apply text_app in H1; tauto).
  split.
  - intros (x' & Ex). split; [lia|]. destruct (prefix_chars ps W x' HTW H2 Ex) as (B & -> & _). exists B. reflexivity.
  - intros (_ & B & ->). exists (concat B). apply concat_app.
Qed.

Lemma endswith_shape cs ps st en : text cs -> text ps -> nulfree ps -> pos_bound st -> pos_bound en ->
  let a := py_start (zlen cs) st in let b := py_end (zlen cs) en in
  exists r, str_endswith (ustr cs) (ustr ps) st en = Ok r /\
    (r = true <-> zlen (concat ps) <= b - a /\ a <= zlen cs /\ exists A, window cs a b = A ++ ps).
Proof.
  intros H1 H2 Hn Hs He a b. unfold str_endswith. cbn [nchars ustr]. pose proof (zlen_nn cs) as Hc.
  rewrite fix_ok by assumption. pose proof (py_start_nn _ st Hc Hs). pose proof (py_end_nn _ en Hc He). fold a b in H, H0 |- *.
  destruct (zlen cs <? a) eqn:E; [exists false; split; [reflexivity|split; [discriminate|lia]]|].
  change (nbytes (ustr ps)) with (zlen (concat ps)). change (nbytes (ustr cs)) with (zlen (concat cs)).
  destruct (b - a <? zlen (concat ps)) eqn:E1; [exists false; split; [reflexivity|split; [discriminate|lia]]|].
  fold (ustr cs) (ustr ps). destruct (cut cs b ltac:(lia)) as (E0 & R & Ec & HE).
  assert (HT : text E0 /\ text R) by (rewrite Ec in H1; apply text_app in H1; assumption).
  rewrite (skip_chars_back E0 R [] cs); [|rewrite app_nil_r; assumption|assumption|rewrite Ec, concat_app, zlen_app; reflexivity|rewrite Ec, zlen_app; lia].
  cbn [bindr]. pose proof (zlen_nn (concat ps)). pose proof (zlen_concat E0 ltac:(tauto)).
  destruct (cut (concat E0) (zlen (concat E0) - zlen (concat ps)) ltac:(lia)) as (u & v & Euv & Hu).
  assert (Hv : zlen v = zlen (concat ps)) by (rewrite Euv, zlen_app in *; lia).
  assert (Eb : buf (ustr cs) = u ++ (v ++ concat R) ++ [0]) by (rewrite Ec, buf2, Euv, <- !app_assoc; reflexivity).
  destruct (match_at_ok (v ++ concat R) (concat ps) u [0] (zlen (concat E0) - zlen (concat ps)) (nulfree_bytes ps H2 Hn) (eq_sym Hu)) as (e & Hm & Hr).
  rewrite Eb, buf_ustr, Hm. exists e. split; [reflexivity|]. rewrite Hr.
  assert (Hvps : (exists x', v ++ concat R = concat ps ++ x') <-> v = concat ps).
  { split; [intros (x' & Ex); exact (proj1 (app_len_eq _ _ _ _ Ex Hv))|intros ->; eauto]. }
  rewrite Hvps. destruct (window_cut cs a b ltac:(lia) ltac:(lia)) as (A & B & EW & HA & HW). set (W := window cs a b) in *.
  assert (EE : E0 = A ++ W).
  { rewrite Ec, app_assoc in EW. refine (proj1 (app_len_eq _ _ _ _ EW _)). rewrite zlen_app. lia. }
  split.
  - intros ->. split; [lia|]. split; [lia|]. destruct ps as [|p ps].
    + exists W. rewrite app_nil_r. reflexivity.
    + rewrite <- (app_nil_r (concat (p :: ps))) in Euv.
      destruct (sync E0 (p :: ps) u [] ltac:(tauto) H2 ltac:(discriminate) Euv) as (A' & B' & EA' & _ & HB').
      assert (B' = []). { apply concat_nil; [|assumption]. destruct HT as [HT _]. rewrite EA' in HT. apply text_app in HT. destruct HT as [_ HT]. apply text_app in HT. tauto. }
      subst B'. rewrite app_nil_r in EA'. rewrite EE in EA'. pose proof (zlen_concat _ H2).
      pose proof (f_equal zlen EA') as EL. rewrite !zlen_app in EL.
      destruct (app_prefix_le A W A' (p :: ps) EA' ltac:(lia)) as (l & ->). exists l.
      rewrite <- app_assoc in EA'. apply app_inv_head in EA'. assumption.
  - intros (_ & _ & A' & EA'). assert (Eq : concat E0 = (concat A ++ concat A') ++ concat ps) by (rewrite EE, EA', !concat_app, app_assoc; reflexivity).
    rewrite Euv in Eq. pose proof (f_equal zlen Eq) as EL. rewrite !zlen_app in EL. 
    refine (proj2 (app_len_eq _ _ _ _ Eq _)). rewrite zlen_app. lia.
Qed.

(** ** Characters. *)
Lemma mk_char_ok A c R p : uchar c -> p = zlen A -> mk_char (A ++ c ++ R) p = Ok (ustr [c]).
Proof.
  intros Hc ->. unfold mk_char. rewrite rd_char by assumption. cbn [bindr]. destruct ((0 <? hd 0 c) && (hd 0 c <? 128)) eqn:E.
  - destruct c as [|x t]; [destruct (uchar_ne _ Hc eq_refl)|]. cbn [hd] in E. pose proof (bl2 _ Hc) as Hb. cbn [hd] in Hb.
    unfold byte_length2 in Hb. destruct (x <? 128) eqn:E2; [|lia]. rewrite zlen_cons in Hb. destruct t; [reflexivity|]. rewrite zlen_cons in Hb. pose proof (zlen_nn t). lia.
  - rewrite bl2 by assumption. rewrite copy_mid by reflexivity. cbn [bindr]. pose proof (uchar_len c Hc).
    clear E. unfold new_str. destruct (_ && _) eqn:E2; [|lia].
    unfold ustr. cbn. rewrite app_nil_r. reflexivity.
Qed.
Lemma getitem_ok cs i : text cs -> is_int i ->
  str_getitem (ustr cs) i =
  (if (- zlen cs <=? i) && (i <? zlen cs)
   then Ok (ustr [nth (Z.to_nat (if i <? 0 then i + zlen cs else i)) cs []]) else Exn IndexError).
Proof.
  intros H Hi. unfold str_getitem, get_index. rewrite wrap32 by assumption. cbn [nchars ustr]. pose proof (zlen_nn cs).
  assert (G : forall ix, 0 <= ix < zlen cs -> (do p <- skip_chars (buf (ustr cs)) 0 ix (isascii (ustr cs)); mk_char (buf (ustr cs)) p) = Ok (ustr [nth (Z.to_nat ix) cs []])).
  { intros ix Hix. destruct (cut cs ix ltac:(lia)) as (A & B & E & HA). destruct B as [|c B]; [rewrite E, app_nil_r in Hix; lia|].
    rewrite (skip_chars_fwd [] A (c :: B) cs) by (assumption || reflexivity || lia). cbn [bindr concat]. rewrite zlen_nil, Z.add_0_l.
    assert (Hc : uchar c) by (rewrite E in H; apply text_app in H; destruct H as [_ H]; apply text_cons in H; tauto).
    rewrite E, buf2. cbn [concat]. rewrite <- app_assoc. rewrite mk_char_ok by (assumption || reflexivity). f_equal. f_equal.
    rewrite app_nth2 by (unfold zlen in HA; lia). replace (Z.to_nat ix - length A)%nat with O by (unfold zlen in HA; lia). reflexivity. }
  fold (ustr cs). destruct (0 <=? i) eqn:E1; destruct (i <? zlen cs) eqn:E2; destruct (- zlen cs <=? i) eqn:E3; destruct (i <? 0) eqn:E4; try lia; cbn [andb bindr]; try reflexivity.
  - apply G. lia.
  - replace (i + zlen cs) with (zlen cs + i) by lia. apply G. lia.
Qed.

Lemma iter_ok W : forall fuel A, text W -> nulfree W -> (length W < fuel)%nat -> forall s, buf s = A ++ concat W ++ [0] ->
  iter_all fuel s (zlen A) = Ok (map (fun c => ustr [c]) W).
Proof.
  induction W as [|c W IH]; intros fuel A H Hn Hf s Hs; (destruct fuel as [|fuel]; [lia|]); cbn [iter_all]; unfold iter_next; rewrite Hs.
  - cbn [concat app]. rewrite rd_at by reflexivity. reflexivity.
  - apply text_cons in H. destruct H as [Hc H]. cbn [concat]. rewrite <- app_assoc, rd_char by assumption. cbn [bindr].
    assert (Hz : hd 0 c <> 0).
    { intros E. destruct (uchar_cases c Hc) as (x & t & Ec & _ & _ & _ & Hb & _). rewrite Ec in E. cbn in E. subst x. change (byte_length2 0) with 1 in Hb. rewrite Ec, zlen_cons in Hb.
      destruct t; [apply Forall_inv in Hn; congruence|rewrite zlen_cons in Hb; pose proof (zlen_nn t); lia]. }
    destruct (hd 0 c =? 0) eqn:E; [lia|]. rewrite mk_char_ok by (assumption || reflexivity). cbn [bindr]. rewrite bl2 by assumption.
    replace (zlen A + zlen c) with (zlen (A ++ c)) by apply zlen_app.
    cbn [concat] in Hs. rewrite (IH fuel (A ++ c)); [reflexivity|assumption|apply Forall_inv_tail in Hn; assumption|cbn in Hf; lia|].
    rewrite Hs, <- !app_assoc. reflexivity.
Qed.

(** ** Words. *)
Lemma words_all {A} (sp : A -> bool) k X l : words sp (Some k) X l -> (length X <= k)%nat -> words sp None X l.
Proof.
  intros H. remember (Some k) as o eqn:Eo. revert k Eo. induction H as [o|o c X l Hc H IH|o w Ho Hw Hs|c X Hc|o w c X l Ho Hw Hs Hc H IH]; intros k Eo Hk.
  - constructor.
  - apply words_sp; [assumption|]. apply (IH k Eo). cbn in Hk. lia.
  - apply words_last; [discriminate|assumption|assumption].
  - injection Eo as <-. cbn in Hk. lia.
  - subst o. destruct k as [|k]; [congruence|]. apply words_word; [discriminate|assumption..|]. cbn [option_map pred] in *. apply (IH k eq_refl).
    rewrite app_length in Hk. cbn in Hk. destruct w; [congruence|]. cbn in Hk. lia.
Qed.

Lemma words_loop_ok sp W : forall V A R acc maxs, text V -> text W -> fits (V ++ W) -> zlen acc <= maxs ->
  Forall (fun c => sp c = false) V -> (V <> [] -> zlen acc < maxs) ->
  exists l, words sp (Some (Z.to_nat (maxs - zlen acc))) (V ++ W) l /\
   (do r <- words_loop sp (length W) (A ++ concat V ++ concat W ++ R) (zlen A + zlen (concat V))
              (match V with [] => None | _ => Some (zlen A, zlen V) end) acc maxs;
    words_end (A ++ concat V ++ concat W ++ R) (zlen A + zlen (concat V) + zlen (concat W)) r) = Ok (acc ++ map ustr l).
Proof.
  induction W as [|c W IH]; intros V A R acc maxs HV HW F Ha Hs Hk.
  - cbn [length words_loop bindr concat]. rewrite app_nil_r. destruct V as [|v V].
    + exists []. split; [constructor|]. cbn. rewrite app_nil_r. reflexivity.
    + exists [v :: V]. specialize (Hk ltac:(discriminate)). split; [apply words_last; [intros [= ?]; lia|discriminate|assumption]|].
      unfold words_end. replace (zlen A + zlen (concat (v :: V)) - zlen A) with (zlen (concat (v :: V))) by lia.
      rewrite copy_mid by reflexivity. cbn [bindr]. rewrite app_nil_r in F. rewrite new_ok by (assumption || reflexivity). reflexivity.
  - apply text_cons in HW. destruct HW as [Hc HW]. cbn [length words_loop concat].
    replace (A ++ concat V ++ (c ++ concat W) ++ R) with ((A ++ concat V) ++ c ++ concat W ++ R) by (rewrite <- !app_assoc; reflexivity).
    replace (zlen A + zlen (concat V)) with (zlen (A ++ concat V)) by apply zlen_app.
    rewrite rd_char by assumption. cbn [bindr]. rewrite bl2 by assumption. rewrite copy_mid by reflexivity. cbn [bindr].
    destruct (sp c) eqn:Esp; cbn [negb].
    + destruct V as [|v V].
      * destruct (IH [] (A ++ c) R acc maxs) as (l & Hl & HE); [constructor|assumption|cbn [app] in *; change (c :: W) with ([c] ++ W) in F; apply fits_app in F; tauto|assumption|constructor|congruence|].
        exists l. split; [apply words_sp; assumption|]. cbn [concat app] in *. rewrite zlen_nil, app_nil_r in *. rewrite Z.add_0_r in HE.
        replace (zlen A + zlen c) with (zlen (A ++ c)) by apply zlen_app.
        rewrite (zlen_app c). replace (zlen A + (zlen c + zlen (concat W))) with (zlen (A ++ c) + zlen (concat W)) by (rewrite zlen_app; lia).
        rewrite (app_assoc A c). exact HE.
      * specialize (Hk ltac:(discriminate)). set (V' := v :: V) in *.
        destruct (IH [] (A ++ concat V' ++ c) R (acc ++ [ustr V']) maxs) as (l & Hl & HE); [constructor|assumption| | |constructor|congruence|].
        { cbn [app]. apply fits_app in F. destruct F as [_ F]. change (c :: W) with ([c] ++ W) in F. apply fits_app in F. tauto. }
        { rewrite zlen_app, zlen_cons, zlen_nil. lia. }
        exists (V' :: l). split.
        -- apply words_word; [intros [= ?]; lia|discriminate|assumption|assumption|]. cbn [option_map].
           rewrite zlen_app, zlen_cons, zlen_nil in Hl. replace (pred (Z.to_nat (maxs - zlen acc))) with (Z.to_nat (maxs - (zlen acc + (1 + 0)))) by lia. exact Hl.
        -- rewrite <- app_assoc. rewrite zlen_app. replace (zlen A + zlen (concat V') - zlen A) with (zlen (concat V')) by lia.
           rewrite copy_mid by reflexivity. cbn [bindr]. rewrite new_ok by ((apply fits_app in F; apply F) || assumption || reflexivity). cbn [bindr].
           cbn [concat app] in HE. rewrite zlen_nil, Z.add_0_r in HE. rewrite !zlen_app in HE. rewrite zlen_app.
           replace (A ++ concat V' ++ c ++ concat W ++ R) with ((A ++ concat V' ++ c) ++ concat W ++ R) by (rewrite <- !app_assoc; reflexivity).
           replace (zlen A + zlen (concat V') + zlen c) with (zlen A + (zlen (concat V') + zlen c)) by lia.
           replace (zlen A + zlen (concat V') + (zlen c + zlen (concat W))) with (zlen A + (zlen (concat V') + zlen c) + zlen (concat W)) by lia.
           rewrite HE. cbn [map]. rewrite <- app_assoc. reflexivity.
    + destruct V as [|v V].
      * cbn [concat app] in *. rewrite app_nil_r in *. destruct (zlen acc =? maxs) eqn:E.
        -- exists [c :: W]. split; [replace (Z.to_nat (maxs - zlen acc)) with O by lia; apply words_rest; assumption|].
           cbn [bindr words_end]. rewrite zlen_app. replace (zlen A + (zlen c + zlen (concat W)) - zlen A) with (zlen (concat (c :: W))) by (cbn [concat]; rewrite zlen_app; lia).
           replace (A ++ c ++ concat W ++ R) with (A ++ concat (c :: W) ++ R) by (cbn [concat]; rewrite <- app_assoc; reflexivity).
           rewrite copy_mid by reflexivity. cbn [bindr]. rewrite new_ok; [reflexivity|constructor; assumption|exact F|unfold zlen; cbn [length]; lia].
        -- destruct (IH [c] A R acc maxs) as (l & Hl & HE); [constructor; [assumption|constructor]|assumption|exact F|assumption|constructor; [assumption|constructor]|lia|].
           exists l. split; [exact Hl|]. cbn [concat app] in HE. rewrite app_nil_r in HE. change (zlen [c]) with 1 in HE.
           rewrite zlen_app. replace (zlen A + (zlen c + zlen (concat W))) with (zlen A + zlen c + zlen (concat W)) by lia. exact HE.
      * set (V' := v :: V) in *. specialize (Hk ltac:(discriminate)).
        destruct (IH (V' ++ [c]) A R acc maxs) as (l & Hl & HE); [apply text_app; split; [assumption|constructor; [assumption|constructor]]|assumption|rewrite <- app_assoc; exact F|assumption| |lia|].
        { apply Forall_app. split; [assumption|constructor; [assumption|constructor]]. }
        exists l. rewrite <- app_assoc in Hl. split; [exact Hl|].
        rewrite concat_app in HE. cbn [concat] in HE. rewrite app_nil_r in HE. rewrite zlen_app in HE. rewrite (zlen_app V' [c]) in HE. change (zlen [c]) with 1 in HE.
        replace (match V' ++ [c] with [] => None | _ :: _ => Some (zlen A, zlen V' + 1) end) with (Some (zlen A, zlen V' + 1)) in HE by (unfold V'; reflexivity).
        rewrite (zlen_app A), (zlen_app c).
        replace ((A ++ concat V') ++ c ++ concat W ++ R) with (A ++ (concat V' ++ c) ++ concat W ++ R) by (rewrite <- !app_assoc; reflexivity).
        replace (zlen A + zlen (concat V') + zlen c) with (zlen A + (zlen (concat V') + zlen c)) by lia.
        replace (zlen A + zlen (concat V') + (zlen c + zlen (concat W))) with (zlen A + (zlen (concat V') + zlen c) + zlen (concat W)) by lia.
        exact HE.
Qed.

Lemma split_space_ok sp cs m : text cs -> fits cs ->
  exists l, words sp (limit m) cs l /\ str_split_space sp (ustr cs) m = Ok (map ustr l).
Proof.
  intros H F. unfold str_split_space. cbn [nchars ustr]. destruct (zlen cs =? 0) eqn:E.
  - assert (cs = []) by (destruct cs; [reflexivity|rewrite zlen_cons in E; pose proof (zlen_nn cs); lia]). subst cs.
    exists []. split; [constructor|reflexivity].
  - assert (Hm : 0 <= max_splits m) by (unfold max_splits; destruct m as [m|]; [destruct (m <? 0) eqn:E2|]; lia).
    destruct (words_loop_ok sp cs [] [] [0] [] (max_splits m)) as (l & Hl & HE); [constructor|assumption|exact F|exact Hm|constructor|congruence|].
    exists l. split.
    + cbn [app] in Hl. rewrite zlen_nil, Z.sub_0_r in Hl. unfold limit, max_splits in *.
      assert (HL : (length cs <= Z.to_nat 2147483647)%nat).
      { pose proof (zlen_concat cs H). unfold fits in F. change (2 ^ 31) with 2147483648 in F. unfold zlen in *. lia. }
      destruct m as [m|]; [destruct (m <? 0)|]; try assumption; eapply words_all; eassumption.
    + cbn [app concat] in HE. change (zlen (@nil Z)) with 0 in HE. rewrite !Z.add_0_l in HE. unfold zlen at 1. rewrite Nat2Z.id. exact HE.
Qed.

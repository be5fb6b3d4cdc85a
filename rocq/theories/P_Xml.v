(** Lemmas for the XML theorems: reading what is printed. *)
From Verif Require Import Base P_Base M_Str S_Str S_Xml M_Xml.
From Coq Require Import ZifyBool ZifyNat.

Lemma node_ind2 (P : node -> Prop) :
  (forall t d p a c x l, Forall P c -> P (Node t d p a c x l)) -> forall n, P n.
Proof.
  intros H. fix IH 1. intros [t d p a c x l]. apply H. induction c as [|k c IHc]; constructor; [apply IH|exact IHc].
Qed.

Lemma beqb_ok a b : beqb a b = true <-> a = b.
Proof. unfold beqb. destruct (list_eq_dec Z.eq_dec a b); split; congruence. Qed.
Lemma beqb_no a b : beqb a b = false <-> a <> b.
Proof. unfold beqb. destruct (list_eq_dec Z.eq_dec a b); split; congruence. Qed.
Lemma beqb_refl a : beqb a a = true.
Proof. apply beqb_ok. reflexivity. Qed.

(** ** Strings *)
Lemma starts_app p s : starts p (p ++ s) = true.
Proof. induction p as [|a p IH]; [reflexivity|]. cbn [app starts]. rewrite Z.eqb_refl, IH. reflexivity. Qed.
Lemma skipn_len {A} (p s : list A) : skipn (length p) (p ++ s) = s.
Proof. induction p; [reflexivity|]. exact IHp. Qed.
Lemma span_app f a b : forallb f a = true -> (match b with [] => True | c :: _ => f c = false end) -> span f (a ++ b) = (a, b).
Proof.
  induction a as [|c a IH]; cbn [app forallb span]; intros Ha Hb.
  - destruct b as [|c b]; [reflexivity|]. cbn. rewrite Hb. reflexivity.
  - apply andb_prop in Ha as [Hc Ha]. rewrite Hc, IH by assumption. reflexivity.
Qed.
Lemma upto1 q a b : ~ In q a -> upto [q] (a ++ q :: b) = Some (a, b).
Proof.
  induction a as [|c a IH]; intros H; cbn [app upto starts].
  - rewrite Z.eqb_refl. reflexivity.
  - replace (q =? c) with false by (cbn in H; lia). cbn [andb]. rewrite IH by (intros K; apply H; right; exact K). reflexivity.
Qed.
Lemma upto1_none q a : ~ In q a -> upto [q] a = None.
Proof.
  induction a as [|c a IH]; intros H; cbn [upto starts]; [reflexivity|].
  replace (q =? c) with false by (cbn in H; lia). cbn [andb]. rewrite IH by (intros K; apply H; right; exact K). reflexivity.
Qed.

Lemma unescape_escape q attr s : Forall (fun c => 32 <= c \/ (attr = false /\ (c = 9 \/ c = 10))) s ->
  unescape attr 0 (escape q s) = Some s.
Proof.
  induction 1 as [|c s Hc _ IH]; [reflexivity|]. unfold escape in *. cbn [flat_map]. set (r := flat_map (escape1 q) s) in *. clearbody r. unfold escape1.
  destruct (c =? 38) eqn:E1; [apply Z.eqb_eq in E1; subst c; cbn; rewrite IH; reflexivity|].
  destruct (c =? 60) eqn:E2; [apply Z.eqb_eq in E2; subst c; cbn; rewrite IH; reflexivity|].
  destruct (q && (c =? 34)) eqn:E3.
  - apply andb_prop in E3 as [_ E3]. apply Z.eqb_eq in E3. subst c. cbn. rewrite IH. reflexivity.
  - cbn [app unescape]. rewrite E1, E2. replace (c =? 13) with false by lia.
    rewrite IH. destruct ((c =? 9) || (c =? 10)) eqn:E4; [destruct attr; [lia|reflexivity]|].
    replace (c <? 32) with false by lia. reflexivity.
Qed.

Lemma escape_app q a b : escape q (a ++ b) = escape q a ++ escape q b.
Proof. unfold escape. apply flat_map_app. Qed.
Lemma escape_id q g : Forall (fun c => c = 10 \/ c = 32) g -> escape q g = g.
Proof.
  induction 1 as [|c g Hc _ IH]; [reflexivity|]. unfold escape in *. cbn [flat_map]. rewrite IH. unfold escape1.
  replace (c =? 38) with false by lia. replace (c =? 60) with false by lia. replace (c =? 34) with false by lia.
  rewrite andb_false_r. reflexivity.
Qed.
Lemma escape_in q s c : In c (escape q s) -> c <> 60 /\ (q = true -> c <> 34).
Proof.
  unfold escape. intros H. apply in_flat_map in H as (x & _ & H). unfold escape1 in H.
  destruct (x =? 38) eqn:E1; [cbn in H; lia|]. destruct (x =? 60) eqn:E2; [cbn in H; lia|].
  destruct (q && (x =? 34)) eqn:E3; [cbn in H; lia|]. destruct H as [<-|[]]. split; [lia|]. intros ->. cbn in E3. lia.
Qed.
Lemma escape_nil q s : escape q s = [] -> s = [].
Proof. destruct s as [|c s]; [reflexivity|]. unfold escape. cbn [flat_map]. unfold escape1. destruct (c =? 38); [discriminate|]. destruct (c =? 60); [discriminate|]. destruct (q && _); discriminate. Qed.

Lemma starts_escape p s : Forall (fun c => c = 93 \/ c = 62) p -> starts p (escape false s) = starts p s.
Proof.
  intros H. revert s. induction H as [|a p Ha _ IH]; intros s; [reflexivity|].
  destruct s as [|c s]; [reflexivity|]. unfold escape in *. cbn [flat_map]. unfold escape1. cbn [andb].
  destruct (c =? 38) eqn:E1; [cbn [app starts]; lia|].
  destruct (c =? 60) eqn:E2; [cbn [app starts]; lia|].
  cbn [app starts]. rewrite IH. reflexivity.
Qed.
Lemma contains_escape s : contains [93;93;62] (escape false s) = contains [93;93;62] s.
Proof.
  assert (Hp : Forall (fun c => c = 93 \/ c = 62) [93;93;62]) by (repeat constructor; auto).
  induction s as [|c s IH]; [reflexivity|].
  pose proof (starts_escape [93;93;62] (c :: s) Hp) as S. cbn [contains]. rewrite <- S. rewrite <- IH. clear S IH.
  unfold escape. cbn [flat_map]. unfold escape1. cbn [andb].
  destruct (c =? 38) eqn:E1; [reflexivity|]. destruct (c =? 60) eqn:E2; [reflexivity|]. reflexivity.
Qed.
Lemma starts_white p a s g : Forall (fun c => c = 10 \/ c = 32) g -> a = 93 \/ a = 62 -> Forall (fun c => c = 93 \/ c = 62) p ->
  starts (a :: p) (s ++ g) = true -> starts (a :: p) s = true.
Proof.
  intros Hg. revert a s. induction p as [|b p IH]; intros a s Ha Hp H.
  - destruct s as [|c s]; [|exact H]. destruct Hg as [|c g Hc _]; [discriminate|]. cbn in H. lia.
  - destruct s as [|c s].
    + destruct Hg as [|c g Hc _]; [discriminate|]. cbn [app starts] in H. lia.
    + cbn [app] in H. change (starts (a :: b :: p) (c :: s ++ g)) with ((a =? c) && starts (b :: p) (s ++ g)) in H.
      change (starts (a :: b :: p) (c :: s)) with ((a =? c) && starts (b :: p) s).
      apply andb_prop in H as [H1 H2]. inversion Hp; subst. rewrite H1, (IH b s) by assumption. reflexivity.
Qed.
Lemma contains_white s g : Forall (fun c => c = 10 \/ c = 32) g -> contains [93;93;62] s = false ->
  contains [93;93;62] (s ++ g) = false.
Proof.
  intros Hg. induction s as [|c s IH]; intros H.
  - clear H. induction Hg as [|c g Hc Hg IH]; [reflexivity|]. cbn [app contains] in *. rewrite IH. cbn [starts]. replace (93 =? c) with false by lia. reflexivity.
  - cbn [contains] in H. apply orb_false_iff in H as [H1 H2]. cbn [app contains]. rewrite IH by assumption. rewrite orb_false_r.
    destruct (starts [93; 93; 62] (c :: s ++ g)) eqn:E; [|reflexivity].
    apply (starts_white [93;62] 93 (c :: s) g Hg) in E; [congruence|auto|constructor; [auto|constructor; [auto|constructor]]].
Qed.

(** ** Names *)
Lemma name_parts b : is_name b -> exists c r, b = c :: r /\ name_start c = true /\ forallb (fun c => name_char c || (c =? 58)) b = true /\ ~ In 58 b.
Proof.
  intros (c & r & E & Hs & Hc). exists c, r. split; [exact E|]. split; [exact Hs|]. split.
  - apply forallb_forall. intros x Hx. rewrite forallb_forall in Hc. rewrite (Hc x Hx). reflexivity.
  - intros K. rewrite forallb_forall in Hc. specialize (Hc _ K). cbn in Hc. discriminate.
Qed.
Definition is_qname (b : list Z) : Prop := is_name b \/ exists p l, b = p ++ 58 :: l /\ is_name p /\ is_name l.
Lemma qname_parts b : is_qname b -> exists c r, b = c :: r /\ name_start c = true /\ forallb (fun c => name_char c || (c =? 58)) b = true.
Proof.
  intros [H|(p & l & -> & Hp & Hl)].
  - destruct (name_parts _ H) as (c & r & E & A & B & _). eauto.
  - destruct (name_parts _ Hp) as (c & r & E & A & B & _). destruct (name_parts _ Hl) as (c' & r' & E' & A' & B' & _).
    exists c, (r ++ 58 :: l). split; [rewrite E; reflexivity|]. split; [exact A|].
    rewrite forallb_app, B. cbn [forallb]. rewrite B'. reflexivity.
Qed.
Lemma start_not_ws c : name_start c = true -> ws c = false.
Proof. unfold name_start, letter, ws. lia. Qed.
Definition ends (r : list Z) : Prop := match r with [] => True | c :: _ => name_char c || (c =? 58) = false end.
Lemma read_name_ok b r : is_qname b -> ends r -> read_name (b ++ r) = Some (b, r).
Proof.
  intros H Hr. destruct (qname_parts _ H) as (c & n & E & A & B). unfold read_name. rewrite span_app; [|exact B|destruct r; auto].
  rewrite E. rewrite A. reflexivity.
Qed.
Lemma read_name_none c r : name_start c = false -> read_name (c :: r) = None.
Proof.
  intros H. unfold read_name. cbn [span]. destruct (name_char c || (c =? 58)); [|reflexivity].
  destruct (span _ r). rewrite H. reflexivity.
Qed.

(** ** Attributes *)
Definition pairs (n : node) : list (list Z * str) :=
  map (fun d => (xmlns ++ opt (fun p => 58 :: sbytes p) (fst d), snd d)) (n_nsdefs n) ++
  map (fun a => (sbytes (fst a), snd a)) (n_attrs n).
Definition raws (l : list (list Z * str)) : list (list Z * list Z) := map (fun a => (fst a, sbytes (snd a))) l.

Lemma start_pairs n : start_of n = qtag n ++ flat_map (fun a => print_attr (fst a) (snd a)) (pairs n).
Proof.
  unfold start_of, pairs. f_equal. rewrite flat_map_app. f_equal; rewrite flat_map_concat_map, (flat_map_concat_map _ (map _ _)), map_map; reflexivity.
Qed.

Lemma read_attrs_ok l r : Forall (fun a => is_qname (fst a) /\ value_ok (snd a)) l ->
  (match r with [] => False | c :: _ => c = 47 \/ c = 62 end) ->
  forall fuel, (length l < fuel)%nat ->
  read_attrs fuel (flat_map (fun a => print_attr (fst a) (snd a)) l ++ r) = Some (raws l, r).
Proof.
  intros H Hr. induction H as [|[n v] l [Hn [_ Hv]] _ IH]; intros fuel Hf; (destruct fuel as [|fuel]; [cbn in Hf; lia|]).
  - cbn [flat_map app read_attrs]. destruct r as [|c r]; [contradiction|].
    replace (ws c) with false by (destruct Hr as [-> | ->]; reflexivity). reflexivity.
  - cbn [fst snd] in *. cbn [flat_map]. unfold print_attr at 1. cbn [fst snd]. rewrite <- !app_assoc. cbn [app read_attrs].
    change (ws 32) with true. cbn match.
    destruct (qname_parts _ Hn) as (c & n' & E & A & B).
    set (rest := flat_map _ l ++ r) in *.
    assert (Es : skip_ws (32 :: (n ++ 61 :: 34 :: escape true (sbytes v) ++ [34]) ++ rest) = n ++ 61 :: 34 :: escape true (sbytes v) ++ 34 :: rest).
    { unfold skip_ws. cbn [span]. change (ws 32) with true. cbn match. rewrite <- app_assoc. cbn [app]. rewrite <- app_assoc. cbn [app].
      rewrite E. cbn [app span]. rewrite (start_not_ws _ A). reflexivity. }
    rewrite Es.
    rewrite read_name_ok by (assumption || reflexivity).
    change ((61 =? 61) && ((34 =? 34) || (34 =? 39))) with true. cbn match.
    rewrite upto1 by (intros K; apply escape_in in K; destruct K as [_ K]; apply K; reflexivity).
    rewrite unescape_escape by (eapply Forall_impl; [|exact Hv]; cbn; auto).
    rewrite IH by (cbn in Hf; lia). reflexivity.
Qed.

Lemma split_ns_app a b : split_ns (a ++ b) = (fst (split_ns a) ++ fst (split_ns b), snd (split_ns a) ++ snd (split_ns b)).
Proof.
  induction a as [|[n v] a IH]; cbn [app split_ns]; [destruct (split_ns b); reflexivity|].
  rewrite IH. destruct (split_ns a) as [x y]. cbn [fst snd]. destruct (beqb n xmlns); [reflexivity|]. destruct (starts _ n); reflexivity.
Qed.

Definition nsb (n : node) : list (option (list Z) * list Z) := map (fun d => (obytes (fst d), sbytes (snd d))) (n_nsdefs n).
Definition atb (n : node) : list (list Z * list Z) := map (fun a => (sbytes (fst a), sbytes (snd a))) (n_attrs n).

Lemma split_pairs n :
  Forall (fun a => sbytes (fst a) <> xmlns /\ starts (xmlns ++ [58]) (sbytes (fst a)) = false) (n_attrs n) ->
  split_ns (raws (pairs n)) = (nsb n, atb n).
Proof.
  intros H. unfold raws, pairs, nsb, atb. rewrite map_app, split_ns_app, !map_map. cbn [fst snd].
  assert (A : split_ns (map (fun x => (xmlns ++ opt (fun p => 58 :: sbytes p) (fst x), sbytes (snd x))) (n_nsdefs n)) =
    (map (fun d => (obytes (fst d), sbytes (snd d))) (n_nsdefs n), [])).
  { induction (n_nsdefs n) as [|[[p|] h] l IH]; [reflexivity| |].
    - cbn [map fst snd opt split_ns]. rewrite IH. replace (beqb (xmlns ++ 58 :: sbytes p) xmlns) with false; [|symmetry; apply beqb_no; discriminate].
      change (xmlns ++ 58 :: sbytes p) with ((xmlns ++ [58]) ++ sbytes p). rewrite starts_app. reflexivity.
    - cbn [map fst snd opt split_ns]. rewrite IH. rewrite app_nil_r, beqb_refl. reflexivity. }
  assert (B : split_ns (map (fun x => (sbytes (fst x), sbytes (snd x))) (n_attrs n)) = ([], map (fun a => (sbytes (fst a), sbytes (snd a))) (n_attrs n))).
  { induction H as [|[k v] l [H1 H2] _ IH]; [reflexivity|]. cbn [map fst snd split_ns] in *. rewrite IH.
    apply beqb_no in H1. rewrite H1, H2. reflexivity. }
  rewrite A, B. cbn [fst snd]. rewrite app_nil_r. reflexivity.
Qed.

Lemma distinct_nodup l : NoDup l -> distinct l = true.
Proof.
  induction 1 as [|x l Hx _ IH]; [reflexivity|]. cbn [distinct]. rewrite IH, andb_true_r. apply negb_true_iff.
  destruct (existsb (beqb x) l) eqn:E; [|reflexivity]. apply existsb_exists in E as (y & Hy & K). apply beqb_ok in K. subst y. contradiction.
Qed.
Lemma nodup_app {B} (a b : list B) : NoDup a -> NoDup b -> (forall x, In x a -> ~ In x b) -> NoDup (a ++ b).
Proof.
  induction 1 as [|x a Hx _ IH]; intros Hb D; [exact Hb|]. cbn [app]. constructor.
  - intros K. apply in_app_or in K as [K|K]; [contradiction|]. apply (D x); [left; reflexivity|exact K].
  - apply IH; [exact Hb|]. intros y Hy. apply D. right. exact Hy.
Qed.
Lemma nodup_map_inj {A B C} (f : A -> B) (g : A -> C) l : (forall x y, g x = g y -> f x = f y) -> NoDup (map f l) -> NoDup (map g l).
Proof.
  intros I. induction l as [|x l IH]; intros H; [constructor|]. cbn [map] in *. inversion H as [|? ? Hx Hl]; subst. constructor; [|auto].
  intros K. apply Hx. apply in_map_iff in K as (y & E & Hy). apply in_map_iff. exists y. split; [apply I; exact E|exact Hy].
Qed.

Lemma distinct_pairs n :
  NoDup (map (fun d => obytes (fst d)) (n_nsdefs n)) -> NoDup (map (fun a => sbytes (fst a)) (n_attrs n)) ->
  Forall (fun a => sbytes (fst a) <> xmlns /\ starts (xmlns ++ [58]) (sbytes (fst a)) = false) (n_attrs n) ->
  distinct (map fst (raws (pairs n))) = true.
Proof.
  intros N A H. apply distinct_nodup. unfold raws, pairs. rewrite !map_app, !map_map. cbn [fst snd]. apply nodup_app.
  - eapply nodup_map_inj; [|exact N]. intros [[p|] h] [[p'|] h']; cbn; intros K; try congruence; try discriminate.
  - exact A.
  - intros x Hx K. apply in_map_iff in Hx as (d & <- & _). apply in_map_iff in K as (a & E & Ha).
    rewrite Forall_forall in H. destruct (H _ Ha) as [H1 H2]. destruct (fst d) as [p|]; cbn [opt] in E.
    + rewrite E in H2. change (xmlns ++ 58 :: sbytes p) with ((xmlns ++ [58]) ++ sbytes p) in H2. rewrite starts_app in H2. discriminate.
    + rewrite app_nil_r in E. contradiction.
Qed.

Lemma resolve_tag sc n : name_ok (n_tag n) -> all_opt (fun p => name_ok p /\ In (sbytes p) sc) (n_prefix n) ->
  is_qname (qtag n) /\ resolve sc (qtag n) = (obytes (n_prefix n), sbytes (n_tag n)).
Proof.
  intros [_ Ht] Hp. unfold qtag, resolve. destruct (name_parts _ Ht) as (_ & _ & _ & _ & _ & N).
  destruct (n_prefix n) as [p|]; cbn [opt obytes option_map].
  - destruct Hp as [[_ Hp] Hi]. destruct (name_parts _ Hp) as (_ & _ & _ & _ & _ & Np). rewrite <- app_assoc. cbn [app]. split; [right; eauto 6|].
    rewrite upto1 by exact Np. replace (existsb _ _) with true; [reflexivity|].
    symmetry. apply existsb_exists. exists (sbytes p). split; [right; exact Hi|apply beqb_refl].
  - cbn [app]. split; [left; exact Ht|]. rewrite upto1_none by exact N. reflexivity.
Qed.

(** ** Elements *)
Definition gap (p : bool) (d : nat) : list Z := if p then 10 :: repeat 32 (2 * d) else [].
Definition obs (o : option str) : list Z := opt sbytes o.
Definition dtext (b : list Z) : list dom := match b with [] => [] | _ => [Text b] end.
(** What follows the last and the other children. *)
Definition after (p : bool) (d : nat) {A} (l : list A) : list Z := gap p (match l with [] => d | _ => S d end).
(** What follows the text of an element with these children. *)
Definition lead (p : bool) (d : nat) {A} (l : list A) : list Z := match l with [] => [] | _ => gap p (S d) end.

Fixpoint core (p : bool) (d : nat) (n : node) : list Z :=
  [60] ++ start_of n ++
  match n_text n, n_children n with
  | None, [] => [47; 62]
  | t, ks =>
      [62] ++ escape false (obs t) ++ lead p d ks ++
      (fix go l := match l with [] => [] | k :: l' => core p (S d) k ++ escape false (obs (n_tail k)) ++ after p d l' ++ go l' end) ks ++
      [60; 47] ++ qtag n ++ [62]
  end.
Fixpoint kidstr (p : bool) (d : nat) (l : list node) : list Z :=
  match l with [] => [] | k :: l' => core p (S d) k ++ escape false (obs (n_tail k)) ++ after p d l' ++ kidstr p d l' end.

Lemma print_core p d n : print p d n = (if p then repeat 32 (2 * d) else []) ++ core p d n ++ escape false (obs (n_tail n)).
Proof.
  revert d. induction n as [t ds pr a c x l IH] using node_ind2. intros d.
  assert (K : forall l, Forall (fun n => forall d, print p d n = (if p then repeat 32 (2 * d) else []) ++ core p d n ++ escape false (obs (n_tail n))) l -> l <> [] ->
    (if p then [10] else []) ++ joinb (if p then [10] else []) ((fix go l := match l with [] => [] | k :: l' => print p (S d) k :: go l' end) l) ++ (if p then [10] else []) ++ (if p then repeat 32 (2 * d) else []) =
    gap p (S d) ++ (fix go l := match l with [] => [] | k :: l' => core p (S d) k ++ escape false (obs (n_tail k)) ++ after p d l' ++ go l' end) l).
  { clear. induction l as [|k l IHl]; intros F N; [contradiction|]. inversion F as [|? ? Hk Fl]; subst.
    destruct l as [|k' l].
    - unfold joinb. cbn [joined]. rewrite Hk. unfold after, gap. destruct p; cbn [app]; rewrite <- ?app_assoc, ?app_nil_r; reflexivity.
    - specialize (IHl Fl ltac:(discriminate)). unfold joinb in *. 
      change (joined (if p then [10] else []) (print p (S d) k :: print p (S d) k' :: ?r)) with 0 || idtac.
      set (r := (fix go l := match l with [] => [] | k :: l' => print p (S d) k :: go l' end) (k' :: l)) in *.
      assert (Er : exists y r', r = y :: r') by (unfold r; eauto). destruct Er as (y & r' & Er).
      change ((fix go l0 := match l0 with [] => [] | k0 :: l' => print p (S d) k0 :: go l' end) (k :: k' :: l)) with (print p (S d) k :: r).
      assert (Ej : joined (if p then [10] else []) (print p (S d) k :: r) = print p (S d) k ++ (if p then [10] else []) ++ joined (if p then [10] else []) r) by (rewrite Er; reflexivity).
      rewrite Ej. rewrite Hk. rewrite <- !app_assoc. rewrite IHl.
      unfold gap, after. destruct p; cbn [app]; rewrite <- ?app_assoc; reflexivity. }
  cbn [print core n_children n_text n_tail]. rewrite <- !app_assoc. do 3 f_equal.
  assert (Ot : forall o, opt (fun t0 => escape false (sbytes t0)) o = escape false (obs o)) by (intros [?|]; reflexivity).
  rewrite !Ot. destruct x as [x|], c as [|k c].
  - cbn [lead app]. rewrite <- ?app_assoc. reflexivity.
  - cbn [lead]. rewrite <- !app_assoc. do 2 f_equal.
    specialize (K (k :: c) IH ltac:(discriminate)). rewrite !app_assoc. f_equal. f_equal. f_equal. f_equal. rewrite <- !app_assoc. exact K.
  - reflexivity.
  - cbn [lead]. rewrite <- !app_assoc. do 2 f_equal.
    specialize (K (k :: c) IH ltac:(discriminate)). rewrite !app_assoc. f_equal. f_equal. f_equal. f_equal. rewrite <- !app_assoc. exact K.
Qed.

Lemma core_unfold p d n : core p d n =
  [60] ++ start_of n ++
  match n_text n, n_children n with
  | None, [] => [47; 62]
  | t, ks => [62] ++ escape false (obs t) ++ lead p d ks ++ kidstr p d ks ++ [60; 47] ++ qtag n ++ [62]
  end.
Proof.
  assert (K : forall l, (fix go l := match l with [] => [] | k :: l' => core p (S d) k ++ escape false (obs (n_tail k)) ++ after p d l' ++ go l' end) l = kidstr p d l).
  { induction l as [|k l IH]; [reflexivity|]. cbn [kidstr]. rewrite <- IH. reflexivity. }
  destruct n as [t ds pr a c x l]. cbn [core n_text n_children]. rewrite K.
  destruct x; [reflexivity|]. destruct c as [|k c]; [reflexivity|]. cbn [kidstr]. rewrite <- K. reflexivity.
Qed.

(** What the reader makes of it. *)
Fixpoint dome (p : bool) (d : nat) (sc : list (list Z)) (n : node) : dom :=
  let sc' := scope_of n ++ sc in
  Elem (obytes (n_prefix n)) (sbytes (n_tag n)) (nsb n) (map (fun a => (resolve sc' (fst a), snd a)) (atb n))
    (dtext (obs (n_text n) ++ lead p d (n_children n)) ++
     (fix go l := match l with [] => [] | k :: l' => dome p (S d) sc' k :: dtext (obs (n_tail k) ++ after p d l') ++ go l' end) (n_children n)).
Fixpoint domk (p : bool) (d : nat) (sc : list (list Z)) (l : list node) : list dom :=
  match l with [] => [] | k :: l' => dome p (S d) sc k :: dtext (obs (n_tail k) ++ after p d l') ++ domk p d sc l' end.
Lemma dome_unfold p d sc n : dome p d sc n =
  Elem (obytes (n_prefix n)) (sbytes (n_tag n)) (nsb n) (map (fun a => (resolve (scope_of n ++ sc) (fst a), snd a)) (atb n))
    (dtext (obs (n_text n) ++ lead p d (n_children n)) ++ domk p d (scope_of n ++ sc) (n_children n)).
Proof.
  assert (K : forall sc' l, (fix go l := match l with [] => [] | k :: l' => dome p (S d) sc' k :: dtext (obs (n_tail k) ++ after p d l') ++ go l' end) l = domk p d sc' l).
  { intros sc'. induction l as [|k l IH]; [reflexivity|]. cbn [domk]. rewrite <- IH. reflexivity. }
  destruct n as [t ds pr a c x l]. cbn [dome n_text n_children]. rewrite K. reflexivity.
Qed.

(** The reader reads s as r when it has at least as many steps as there are bytes. *)
Definition reads (sc : list (list Z)) (s : list Z) (r : list dom * list Z) : Prop :=
  forall fuel, (length s < fuel)%nat -> read_content fuel sc s = Some r.
Definition tagged (s : list Z) : Prop := match s with [] => True | c :: _ => c = 60 end.

Lemma gap_white p d : Forall (fun c => c = 10 \/ c = 32) (gap p d).
Proof. unfold gap. destruct p; [|constructor]. constructor; [auto|]. apply Forall_forall. intros x Hx. apply repeat_spec in Hx. auto. Qed.

Lemma reads_text sc o g rest ds r : all_opt content_ok o -> Forall (fun c => c = 10 \/ c = 32) g -> tagged rest ->
  reads sc rest (ds, r) -> reads sc (escape false (obs o) ++ g ++ rest) (dtext (obs o ++ g) ++ ds, r).
Proof.
  intros Ho Hg Ht Hr.
  assert (C : Forall (fun c => 32 <= c \/ (false = false /\ (c = 9 \/ c = 10))) (obs o ++ g) /\ contains [93;93;62] (obs o ++ g) = false).
  { split.
    - apply Forall_app. split; [|eapply Forall_impl; [|exact Hg]; cbn; intros; lia].
      destruct o as [t|]; [|constructor]. destruct Ho as [[_ H] _]. eapply Forall_impl; [|exact H]. cbn. tauto.
    - apply contains_white; [exact Hg|]. destruct o as [t|]; [apply Ho|reflexivity]. }
  destruct C as [C1 C2]. rewrite app_assoc. rewrite <- (escape_id false g) at 1 by exact Hg. rewrite <- escape_app.
  set (t := obs o ++ g) in *. clearbody t. destruct t as [|c t]; [exact Hr|].
  intros fuel Hf. destruct fuel as [|fuel]; [lia|].
  assert (N : exists x y, escape false (c :: t) = x :: y /\ x <> 60).
  { destruct (escape false (c :: t)) as [|x y] eqn:E; [apply escape_nil in E; discriminate|]. exists x, y. split; [reflexivity|].
    apply (escape_in false (c :: t)). rewrite E. left. reflexivity. }
  destruct N as (x & y & E & Nx).
  pose proof (unescape_escape false false (c :: t) C1) as U.
  pose proof (contains_escape (c :: t)) as K. rewrite C2 in K.
  assert (A : forallb (fun z => negb (z =? 60)) (escape false (c :: t)) = true).
  { apply forallb_forall. intros z Hz. apply escape_in in Hz. lia. }
  rewrite E in *. cbn [app read_content starts]. replace (60 =? x) with false by lia. cbn [andb].
  change (x :: y ++ rest) with ((x :: y) ++ rest). rewrite span_app; [|exact A|destruct rest; [trivial|cbn in Ht; lia]].
  rewrite K, U. rewrite Hr; [reflexivity|]. cbn [app length] in Hf. rewrite app_length in Hf. lia.
Qed.

Lemma core_head p d n : exists s, core p d n = 60 :: s.
Proof. rewrite core_unfold. cbn [app]. eauto. Qed.

Lemma ns_ok_all sc n : elem_ok sc n -> forallb ns_ok (nsb n) = true.
Proof.
  intros (_ & _ & H & _). unfold nsb. rewrite forallb_forall. intros x Hx. apply in_map_iff in Hx as (d & <- & Hd).
  rewrite Forall_forall in H. apply H. exact Hd.
Qed.

Lemma pairs_ok sc n : elem_ok sc n -> Forall (fun a => is_qname (fst a) /\ value_ok (snd a)) (pairs n).
Proof.
  intros (_ & _ & H & _ & A & _). unfold pairs. apply Forall_app. split; apply Forall_forall; intros x Hx; apply in_map_iff in Hx as (d & <- & Hd); cbn [fst snd].
  - rewrite Forall_forall in H. destruct (H _ Hd) as (H1 & H2 & _). split; [|exact H1].
    assert (X : is_name xmlns) by (exists 120, [109;108;110;115]; repeat split).
    destruct (fst d) as [p|]; cbn [opt]; [right; exists xmlns, (sbytes p); split; [reflexivity|]; split; [exact X|apply H2]|].
    rewrite app_nil_r. left. exact X.
  - rewrite Forall_forall in A. destruct (A _ Hd) as ([_ H1] & H2 & _). split; [exact H1|exact H2].
Qed.

Lemma pairs_len l : (length l <= length (flat_map (fun a => print_attr (fst a) (snd a)) l))%nat.
Proof.
  induction l as [|a l IH]; [reflexivity|]. cbn [flat_map length]. rewrite app_length. unfold print_attr at 1. cbn [length app]. lia.
Qed.

(** The start tag. *)
Lemma read_start sc n r : elem_ok sc n -> (match r with [] => False | c :: _ => c = 47 \/ c = 62 end) ->
  read_name (start_of n ++ r) = Some (qtag n, flat_map (fun a => print_attr (fst a) (snd a)) (pairs n) ++ r) /\
  read_attrs (S (length (flat_map (fun a => print_attr (fst a) (snd a)) (pairs n) ++ r)))
    (flat_map (fun a => print_attr (fst a) (snd a)) (pairs n) ++ r) = Some (raws (pairs n), r) /\
  split_ns (raws (pairs n)) = (nsb n, atb n) /\ resolve (scope_of n ++ sc) (qtag n) = (obytes (n_prefix n), sbytes (n_tag n)) /\
  distinct (map fst (raws (pairs n))) && forallb ns_ok (nsb n) = true.
Proof.
  intros H Hr. pose proof H as (Ht & Hp & Hn & Nn & Ha & Na & Nr & _).
  destruct (resolve_tag _ _ Ht Hp) as [Q R].
  assert (Ha' : Forall (fun a => sbytes (fst a) <> xmlns /\ starts (xmlns ++ [58]) (sbytes (fst a)) = false) (n_attrs n)).
  { eapply Forall_impl; [|exact Ha]. cbn. tauto. }
  split; [|split; [|split; [|split]]].
  - rewrite start_pairs, <- app_assoc. apply read_name_ok; [exact Q|].
    destruct (pairs n) as [|a l]; cbn [flat_map app]; [|reflexivity].
    destruct r as [|c r]; [contradiction|]. destruct Hr as [-> | ->]; reflexivity.
  - apply read_attrs_ok; [exact (pairs_ok _ _ H)|exact Hr|]. rewrite app_length. pose proof (pairs_len (pairs n)). lia.
  - apply split_pairs. exact Ha'.
  - exact R.
  - rewrite distinct_pairs by assumption. rewrite (ns_ok_all _ _ H). reflexivity.
Qed.

Lemma start_char sc n : elem_ok sc n -> exists c s, start_of n = c :: s /\ name_start c = true.
Proof.
  intros (Ht & Hp & _). destruct (resolve_tag _ _ Ht Hp) as [Q _]. destruct (qname_parts _ Q) as (c & r & E & A & _).
  rewrite start_pairs, E. cbn [app]. eauto.
Qed.

Lemma reads_kids p d sc l :
  Forall (fun k => forall d sc rest ds r, tree_ok sc k -> reads sc rest (ds, r) -> reads sc (core p d k ++ rest) (dome p d sc k :: ds, r)) l ->
  Forall (tree_ok sc) l ->
  forall rest ds r, tagged rest -> reads sc rest (ds, r) -> reads sc (kidstr p d l ++ rest) (domk p d sc l ++ ds, r).
Proof.
  intros H K rest ds r Ht Hr. induction H as [|k l Hk _ IH]; [exact Hr|]. inversion K as [|? ? Kk Kl]; subst.
  cbn [kidstr domk]. rewrite <- !app_assoc. cbn [app]. apply Hk; [exact Kk|]. rewrite <- !app_assoc.
  apply reads_text; [inversion Kk; assumption|apply gap_white| |apply IH; exact Kl].
  destruct l as [|k' l]; [exact Ht|]. cbn [kidstr app]. destruct (core_head p (S d) k') as [s E]. rewrite E. reflexivity.
Qed.

Lemma reads_node p n : forall d sc rest ds r, tree_ok sc n -> reads sc rest (ds, r) -> reads sc (core p d n ++ rest) (dome p d sc n :: ds, r).
Proof.
  induction n as [t df pr a c x l IH] using node_ind2. intros d sc rest ds r Hn Hr. set (n := Node t df pr a c x l) in *.
  inversion Hn as [? He Htl Hk]; subst. rewrite core_unfold, dome_unfold. rewrite <- !app_assoc.
  destruct (start_char _ _ He) as (c0 & s0 & E0 & A0).
  assert (Main : forall tl, (match tl with [] => False | c :: _ => c = 47 \/ c = 62 end) -> forall fuel,
    read_content (S fuel) sc ([60] ++ start_of n ++ tl) =
     (let elem := Elem (obytes (n_prefix n)) (sbytes (n_tag n)) (nsb n) (map (fun a => (resolve (scope_of n ++ sc) (fst a), snd a)) (atb n)) in
      let more d r := match read_content fuel sc r with Some (ds, r) => Some (d :: ds, r) | None => None end in
      if starts [47;62] tl then more (elem []) (skipn 2 tl)
      else if starts [62] tl then
        match read_content fuel (scope_of n ++ sc) (skipn 1 tl) with
        | Some (kids, r) => if starts ([60;47] ++ qtag n ++ [62]) r then more (elem kids) (skipn (3 + length (qtag n)) r) else None
        | None => None
        end
      else None)).
  { intros tl Htl' fuel. destruct (read_start _ _ _ He Htl') as (R1 & R2 & R3 & R4 & R5).
    assert (S1 : starts [60;47] (60 :: start_of n ++ tl) = false /\ starts [60;33;45;45] (60 :: start_of n ++ tl) = false /\
      starts [60;33;91;67;68;65;84;65;91] (60 :: start_of n ++ tl) = false /\ starts [60] (60 :: start_of n ++ tl) = true).
    { rewrite E0. cbn [app starts]. assert (c0 <> 47 /\ c0 <> 33) by (unfold name_start, letter in A0; lia).
      replace (47 =? c0) with false by lia. replace (33 =? c0) with false by lia. repeat split. }
    destruct S1 as (S1 & S2 & S3 & S4).
    cbn [app read_content]. rewrite S1, S2, S3, S4. cbn [skipn]. rewrite R1. rewrite R2, R3.
    change (declared (nsb n)) with (scope_of n). rewrite R4, R5. reflexivity. }
  intros fuel Hf. destruct fuel as [|fuel]; [lia|].
  destruct (match n_text n, n_children n with None, [] => true | _, _ => false end) eqn:Em.
  - assert (Et : n_text n = None /\ n_children n = []) by (destruct (n_text n), (n_children n); try discriminate; auto).
    destruct Et as [Et Ec]. rewrite Et, Ec in *. rewrite Main by (cbn; auto). cbn [starts app].
    cbn [andb skipn]. rewrite Hr; [reflexivity|]. rewrite !app_length in Hf. cbn [length] in Hf. lia.
  - set (body := escape false (obs (n_text n)) ++ lead p d (n_children n) ++ kidstr p d (n_children n)).
    assert (Eb : match n_text n, n_children n with None, [] => [47; 62] | t, ks => [62] ++ escape false (obs t) ++ lead p d ks ++ kidstr p d ks ++ [60; 47] ++ qtag n ++ [62] end
      = [62] ++ body ++ [60; 47] ++ qtag n ++ [62]).
    { unfold body. rewrite <- !app_assoc. destruct (n_text n), (n_children n); try discriminate; reflexivity. }
    rewrite Eb in *. rewrite <- !app_assoc in *. rewrite Main by (cbn; auto). cbn [app starts]. cbn [andb skipn].
    assert (B : reads (scope_of n ++ sc) (body ++ 60 :: 47 :: qtag n ++ 62 :: rest)
      (dtext (obs (n_text n) ++ lead p d (n_children n)) ++ domk p d (scope_of n ++ sc) (n_children n), 60 :: 47 :: qtag n ++ 62 :: rest)).
    { unfold body. rewrite <- !app_assoc.
      assert (End : reads (scope_of n ++ sc) (60 :: 47 :: qtag n ++ 62 :: rest) ([], 60 :: 47 :: qtag n ++ 62 :: rest)).
      { intros f Hf'. destruct f; [lia|]. reflexivity. }
      pose proof (reads_kids p d (scope_of n ++ sc) (n_children n) IH Hk (60 :: 47 :: qtag n ++ 62 :: rest) [] _ ltac:(reflexivity) End) as Kd.
      rewrite app_nil_r in Kd. apply reads_text; [apply He|unfold lead; destruct (n_children n); [constructor|apply gap_white]| |exact Kd].
      destruct (n_children n) as [|k ks]; [reflexivity|]. cbn [kidstr]. destruct (core_head p (S d) k) as [s E]. rewrite E. reflexivity. }
    rewrite B; [|revert Hf; repeat (rewrite app_length || cbn [length app]); intros Hf; lia].
    cbn [app starts]. rewrite !Z.eqb_refl. cbn [andb].
    replace (starts (qtag n ++ [62]) (qtag n ++ 62 :: rest)) with true;
      [|symmetry; change (qtag n ++ 62 :: rest) with (qtag n ++ [62] ++ rest); rewrite app_assoc; apply starts_app].
    replace (skipn (3 + length (qtag n)) (60 :: 47 :: qtag n ++ 62 :: rest)) with rest.
    2:{ replace (3 + length (qtag n))%nat with (length ([60; 47] ++ qtag n ++ [62])) by (rewrite !app_length; cbn [length]; lia).
        change (60 :: 47 :: qtag n ++ 62 :: rest) with ([60; 47] ++ qtag n ++ [62] ++ rest). rewrite !app_assoc, skipn_len. reflexivity. }
    rewrite Hr; [reflexivity|]. revert Hf; repeat (rewrite app_length || cbn [length app]); intros Hf; lia.
Qed.

(** A document. *)
Lemma reads_doc p n : tree_ok [] n -> n_tail n = None -> read_doc (print p 0 n) = Some (dome p 0 [] n).
Proof.
  intros H Ht. rewrite print_core, Ht. cbn [obs opt]. change (escape false []) with (@nil Z). 
  replace (if p then repeat 32 (2 * 0) else []) with (@nil Z) by (destruct p; reflexivity). cbn [app].
  pose proof (reads_node p n 0 [] [] [] [] H) as R. rewrite !app_nil_r in *. unfold read_doc.
  replace (skip_ws (core p 0 n)) with (core p 0 n).
  2:{ destruct (core_head p 0 n) as [s E]. rewrite E. reflexivity. }
  rewrite R; [|intros f Hf; destruct f; [lia|reflexivity]|lia].
  rewrite dome_unfold. reflexivity.
Qed.

(** Parsing and printing URIs. *)
From Verif Require Import Base P_Base P_Bmh S_Uri M_Uri P_Uri.
From Coq Require Import Lia ZifyBool.
Open Scope Z_scope.

Lemma find_app c a l : ~ In c a -> forall k, find c (a ++ l) k = find c l (k + zlen a).
Proof.
  induction a as [|x a IH]; intros N k; cbn [app find]. rewrite zlen_nil, Z.add_0_r. auto.
  destruct (Z.eqb_spec x c) as [->|]. exfalso. apply N. left; auto. rewrite IH, zlen_cons. f_equal. lia. intros C. apply N. right; auto.
Qed.
Lemma find_none c t : ~ In c t -> forall k, find c t k = -1.
Proof. intros N k. rewrite <- (app_nil_r t), find_app by auto. auto. Qed.
Lemma find_at c a b : ~ In c a -> find c (a ++ c :: b) 0 = zlen a.
Proof. intros N. rewrite find_app by auto. cbn [find]. rewrite Z.eqb_refl. lia. Qed.
Lemma find_ge c t : forall k, 0 <= k -> find c t k = -1 \/ k <= find c t k.
Proof.
  induction t as [|x t IH]; intros k H; cbn [find]; auto. destruct (x =? c). lia. destruct (IH (k + 1)); lia.
Qed.
Lemma find_after c a d b : ~ In c a -> d <> c -> find c (a ++ d :: b) 0 = -1 \/ zlen a < find c (a ++ d :: b) 0.
Proof.
  intros N D. rewrite find_app by auto. cbn [find]. destruct (Z.eqb_spec d c); [congruence|]. pose proof (zlen_nn a).
  destruct (find_ge c b (0 + zlen a + 1)); lia.
Qed.
Lemma upto_app a b : upto (a ++ b) (zlen a) = a.
Proof. unfold upto, zlen. rewrite Nat2Z.id, firstn_app, Nat.sub_diag, firstn_all. cbn. apply app_nil_r. Qed.
Lemma from_app a b : from (a ++ b) (zlen a) = b.
Proof. unfold from, zlen. rewrite Nat2Z.id, skipn_app, Nat.sub_diag, skipn_all. auto. Qed.
Lemma from_app1 a c b : from (a ++ c :: b) (zlen a + 1) = b.
Proof. replace (a ++ c :: b) with ((a ++ [c]) ++ b) by (rewrite <- app_assoc; auto). replace (zlen a + 1) with (zlen (a ++ [c])) by (rewrite zlen_app; cbn; auto). apply from_app. Qed.

Lemma none_in cs t c : none_of cs t -> In c cs -> ~ In c t.
Proof. unfold none_of. rewrite Forall_forall. intros H I C. apply (H c); auto. Qed.
Lemma none_app cs a b : none_of cs (a ++ b) <-> none_of cs a /\ none_of cs b.
Proof. apply Forall_app. Qed.
Lemma in_dec_ c (cs : list Z) : {In c cs} + {~ In c cs}.
Proof. apply in_dec. apply Z.eq_dec. Qed.
Lemma cut_at cs t : none_of cs t \/ exists a d b, t = a ++ d :: b /\ none_of cs a /\ In d cs.
Proof.
  induction t as [|x t IH]. left. constructor. destruct (in_dec_ x cs).
  - right. exists [], x, t. repeat split; auto. constructor.
  - destruct IH as [IH|(a & d & b & -> & N & I)]. left. constructor; auto. right. exists (x :: a), d, b. repeat split; auto. constructor; auto.
Qed.

Lemma first_none t : none_of [47; 63; 35] t -> first_of t = -1.
Proof. intros N. unfold first_of. rewrite !find_none; auto; apply (none_in _ _ _ N); cbn; auto. Qed.
Lemma first_at a d b : none_of [47; 63; 35] a -> In d [47; 63; 35] -> first_of (a ++ d :: b) = zlen a.
Proof.
  intros N I. unfold first_of. pose proof (zlen_nn a).
  assert (F : forall c, In c [47; 63; 35] -> (d = c /\ find c (a ++ d :: b) 0 = zlen a) \/ (d <> c /\ (find c (a ++ d :: b) 0 = -1 \/ zlen a < find c (a ++ d :: b) 0))).
  { intros c Hc. destruct (Z.eq_dec d c) as [->|D]. left. split; auto. apply find_at. apply (none_in _ _ _ N Hc). right. split; auto. apply find_after; auto. apply (none_in _ _ _ N Hc). }
  pose proof (F 47 ltac:(cbn; auto)). pose proof (F 63 ltac:(cbn; auto)). pose proof (F 35 ltac:(cbn; auto)). clear F.
  cbn [In] in I. set (s := find 47 _ _) in *. set (q := find 63 _ _) in *. set (h := find 35 _ _) in *.
  clearbody s q h. clear N.
  destruct (Z.eqb_spec s (-1)) as [-> |]; destruct (Z.eqb_spec q (-1)) as [-> |]; destruct (Z.eqb_spec h (-1)) as [-> |]; cbn [negb andb orb Z.eqb Pos.eqb]; try lia;
  repeat match goal with
         | |- context [?a =? -1] => is_var a; destruct (Z.eqb_spec a (-1)); cbn [negb andb orb]; try lia
         | |- context [?a <? ?b] => is_var a; is_var b; destruct (Z.ltb_spec a b); cbn [negb andb orb]; try lia
         end.
Qed.

Section P.
Context (isalpha : Z -> bool) (int_of : list Z -> option Z).
Hypothesis isalpha_ok : forall c, 0 <= c < 128 -> (isalpha c = true <-> letter c).

Lemma scheme_ok s : is_valid_scheme isalpha s = true <-> good_scheme s.
Proof.
  unfold is_valid_scheme, good_scheme. destruct s as [|c s]. split; [discriminate|]. intros (c & t & E & _). discriminate.
  cbn [forallb]. split.
  - intros H. apply andb_prop in H as [H1 H2]. apply andb_prop in H2 as [H2 H3]. apply valid_in in H2. exists c, s. split; auto. split.
    + apply isalpha_ok; auto. unfold letter, number in H2. lia.
    + rewrite forallb_forall in H3. apply Forall_forall. intros x I. apply valid_in. auto.
  - intros (c' & t & E & L & F). inversion E; subst. assert (V : mem c' VALID = true) by (apply valid_in; auto). rewrite V. cbn [andb].
    assert (A : isalpha c' = true) by (apply isalpha_ok; auto; unfold letter in L; lia). rewrite A. cbn [andb]. apply forallb_forall. intros x I.
    apply valid_in. rewrite Forall_forall in F. auto.
Qed.
Lemma good_no_colon s : good_scheme s -> ~ In 58 s.
Proof.
  intros (c & t & -> & L & F) [->|C]. unfold letter in L. lia. rewrite Forall_forall in F. apply F in C. unfold letter, number in C. lia.
Qed.

Lemma slashes (r : list Z) : (exists r', r = 47 :: 47 :: r') \/
  forall (A : Type) (f : list Z -> A) (e : A), match r with 47 :: 47 :: r' => f r' | _ => e end = e.
Proof.
  destruct r as [|c r]; auto. destruct (Z.eq_dec c 47) as [-> | N].
  - destruct r as [|c r]; auto. destruct (Z.eq_dec c 47) as [-> | N]. left. eauto. right. intros.
    destruct c as [|p|p]; auto; repeat (destruct p as [p|p|]; auto). congruence.
  - right. intros. destruct c as [|p|p]; auto; repeat (destruct p as [p|p|]; auto). congruence.
Qed.

(** Scheme. *)
Lemma schema_inv s o r : parse_schema isalpha s = Ok (o, r) ->
  (o = None /\ r = s /\ none_of [58] s) \/ (exists sc, o = Some sc /\ good_scheme sc /\ s = sc ++ [58; 47; 47] ++ r).
Proof.
  unfold parse_schema. destruct (cut_at [58] s) as [N|(a & d & b & -> & N & [<-|[]])].
  - rewrite find_none by (apply (none_in _ _ _ N); cbn; auto). cbn. intros E. inversion E; subst. auto.
  - rewrite find_at by (apply (none_in _ _ _ N); cbn; auto). pose proof (zlen_nn a). destruct (Z.eqb_spec (zlen a) (-1)); [lia|].
    rewrite upto_app, from_app1. destruct (slashes b) as [(b' & ->)|X]; [|rewrite X; discriminate].
    destruct (is_valid_scheme isalpha a) eqn:V; [|discriminate]. intros E. inversion E; subst. right. exists a. split; auto. split; auto. apply scheme_ok. auto.
Qed.
Lemma schema_none s : none_of [58] s -> parse_schema isalpha s = Ok (None, s).
Proof. intros N. unfold parse_schema. rewrite find_none by (apply (none_in _ _ _ N); cbn; auto). auto. Qed.
Lemma schema_some sc r : good_scheme sc -> parse_schema isalpha (sc ++ [58; 47; 47] ++ r) = Ok (Some sc, r).
Proof.
  intros G. unfold parse_schema. cbn [app]. rewrite find_at by (apply good_no_colon; auto). pose proof (zlen_nn sc). destruct (Z.eqb_spec (zlen sc) (-1)); [lia|].
  rewrite upto_app, from_app1. assert (V : is_valid_scheme isalpha sc = true) by (apply scheme_ok; auto). rewrite V. auto.
Qed.

(** Authority. *)
Definition good_authority (a h : option (list Z)) (p : option Z) : Prop :=
  match a with
  | None => h = None /\ p = None
  | Some a => a <> [] /\ none_of [47; 63; 35] a /\
      match p with
      | None => h = Some a /\ none_of [58] a
      | Some p => 0 <= p <= 65535 /\ exists h' d, h = Some h' /\ none_of [58] h' /\ a = h' ++ [58] ++ d /\ int_of d = Some p
      end
  end.
Definition starts (cs : list Z) (r : list Z) : Prop := match r with [] => True | c :: _ => In c cs end.
Definition port_part (a r : list Z) : res (option (list Z) * option (list Z) * option Z * list Z) :=
  let i := find 58 a 0 in
  if i =? -1 then Ok (Some a, Some a, None, r)
  else match int_of (from a (i + 1)) with
       | None => Exn ValueError
       | Some p => if (p <? 0) || (65535 <? p) then Exn ValueError else Ok (Some a, Some (upto a i), Some p, r)
       end.
Lemma authority_eq a r : none_of [47; 63; 35] a -> starts [47; 63; 35] r ->
  parse_authority int_of (a ++ r) = match a with [] => Ok (None, None, None, r) | _ => port_part a r end.
Proof.
  intros N S. unfold parse_authority. destruct r as [|d r].
  - rewrite app_nil_r. destruct a as [|x a]; auto. rewrite first_none by auto. cbn [Z.eqb]. reflexivity.
  - destruct (a ++ d :: r) eqn:E. destruct a; discriminate. rewrite <- E. rewrite first_at by auto. pose proof (zlen_nn a).
    destruct (Z.eqb_spec (zlen a) (-1)); [lia|]. rewrite upto_app, from_app. destruct a; auto.
Qed.
Lemma colon_cut a h b : a = h ++ 58 :: b -> none_of [58] h -> find 58 a 0 = zlen h /\ upto a (zlen h) = h /\ from a (zlen h + 1) = b.
Proof. intros -> C. rewrite find_at, upto_app, from_app1; auto. apply (none_in _ _ _ C); cbn; auto. Qed.
Lemma port_inv a r x : a <> [] -> none_of [47; 63; 35] a -> port_part a r = Ok x ->
  exists h p, x = (Some a, h, p, r) /\ good_authority (Some a) h p.
Proof.
  intros Ne N. unfold port_part. destruct (cut_at [58] a) as [C|(h & d & b & Ea & C & [<-|[]])].
  - rewrite find_none by (apply (none_in _ _ _ C); cbn; auto). cbn. intros E. inversion E; subst. exists (Some a), None. cbn. auto.
  - destruct (colon_cut a h b Ea C) as (-> & Eu & Ef). pose proof (zlen_nn h). destruct (Z.eqb_spec (zlen h) (-1)); [lia|].
    rewrite Eu, Ef. destruct (int_of b) as [p|] eqn:I; [|discriminate]. destruct (_ || _) eqn:R; [discriminate|]. intros E. inversion E; subst.
    exists (Some h), (Some p). split; auto. cbn [good_authority]. split; auto. split; auto. split. lia. exists h, b. auto.
Qed.
Lemma port_some a r h p : good_authority (Some a) h p -> port_part a r = Ok (Some a, h, p, r).
Proof.
  intros (Ne & N & G). unfold port_part. destruct p as [p|].
  - destruct G as (R & h' & d & -> & C & Ea & I). cbn [app] in Ea. destruct (colon_cut a h' d Ea C) as (-> & Eu & Ef).
    pose proof (zlen_nn h'). destruct (Z.eqb_spec (zlen h') (-1)); [lia|]. rewrite Eu, Ef, I.
    destruct (Z.ltb_spec p 0); [lia|]. destruct (Z.ltb_spec 65535 p); [lia|]. auto.
  - destruct G as [-> C]. rewrite find_none by (apply (none_in _ _ _ C); cbn; auto). auto.
Qed.
Lemma authority_inv s a h p r : parse_authority int_of s = Ok (a, h, p, r) ->
  good_authority a h p /\ s = opt a ++ r /\ starts [47; 63; 35] r.
Proof.
  assert (D : exists b t, s = b ++ t /\ none_of [47; 63; 35] b /\ starts [47; 63; 35] t).
  { destruct (cut_at [47; 63; 35] s) as [N|(b & d & t & -> & N & I)]. exists s, []. rewrite app_nil_r. cbn. auto. exists b, (d :: t). auto. }
  destruct D as (b & t & -> & N & S). rewrite authority_eq by auto. destruct b as [|x b].
  - intros E. inversion E; subst. cbn. auto.
  - intros E. apply port_inv in E as (h' & p' & E & G); auto; [|discriminate]. inversion E; subst. auto.
Qed.
Lemma authority_some a h p r : good_authority a h p -> starts [47; 63; 35] r -> parse_authority int_of (opt a ++ r) = Ok (a, h, p, r).
Proof.
  intros G S. destruct a as [a|].
  - cbn [opt]. destruct G as (Ne & N & G). rewrite authority_eq by auto. destruct a; [congruence|]. apply port_some. cbn; auto.
  - destruct G as [-> ->]. cbn [opt app]. exact (authority_eq [] r (Forall_nil _) S).
Qed.

(** Path, query and fragment. *)
Lemma path_eq p r : none_of [63; 35] (47 :: p) -> starts [63; 35] r ->
  parse_path (47 :: p ++ r) = (Some (47 :: p), r).
Proof.
  intros N S. unfold parse_path. cbn [Z.eqb Pos.eqb negb]. change (47 :: p ++ r) with ((47 :: p) ++ r).
  assert (N1 : ~ In 63 (47 :: p)) by (apply (none_in _ _ _ N); cbn; auto). assert (N2 : ~ In 35 (47 :: p)) by (apply (none_in _ _ _ N); cbn; auto).
  pose proof (zlen_nn (47 :: p)) as Nn. set (P := 47 :: p) in *. clearbody P. destruct r as [|d r].
  - rewrite app_nil_r, !find_none by auto. auto.
  - destruct S as [<-|[<-|[]]].
    + rewrite find_at by auto. destruct (find_after 35 P 63 r) as [-> | A]; auto; [lia| |]; destruct (Z.eqb_spec (zlen P) (-1)); try lia; cbn [negb andb orb Z.eqb Pos.eqb].
      * rewrite upto_app, from_app. auto.
      * destruct (Z.eqb_spec (find 35 (P ++ 63 :: r) 0) (-1)); [lia|]. destruct (Z.ltb_spec (zlen P) (find 35 (P ++ 63 :: r) 0)); [|lia]. cbn [orb]. rewrite upto_app, from_app. auto.
    + rewrite (find_at 35) by auto. destruct (Z.eqb_spec (zlen P) (-1)); [lia|]. cbn [negb orb].
      destruct (find_after 63 P 35 r) as [-> | A]; auto; [lia| |].
      * cbn [Z.eqb Pos.eqb negb andb]. rewrite upto_app, from_app. auto.
      * destruct (Z.ltb_spec (find 63 (P ++ 35 :: r) 0) (zlen P)); [lia|]. rewrite Bool.andb_false_r. rewrite upto_app, from_app. auto.
Qed.
Lemma path_inv s o r : starts [47; 63; 35] s -> parse_path s = (o, r) ->
  (s = [] /\ o = None /\ r = []) \/
  (exists p, o = Some (47 :: p) /\ none_of [63; 35] p /\ starts [63; 35] r /\ (s = 47 :: p ++ r \/ (s = r /\ p = [] /\ r <> []))).
Proof.
  intros S. destruct s as [|c s]. { cbn. intros E. inversion E; auto. }
  assert (D : exists p t, (if negb (c =? 47) then 47 :: c :: s else c :: s) = 47 :: p ++ t /\ none_of [63; 35] p /\ starts [63; 35] t /\ (c :: s = 47 :: p ++ t \/ (c :: s = t /\ p = []))).
  { destruct (Z.eqb_spec c 47) as [->|N]; cbn [negb].
    - destruct (cut_at [63; 35] s) as [N|(p & d & t & -> & N & I)]. exists s, []. rewrite app_nil_r. cbn; auto. exists p, (d :: t). cbn; auto.
    - exists [], (c :: s). cbn [app]. split; auto. split. constructor. split; auto. cbn in S |- *. destruct S as [<-|[<-|[<-|[]]]]; auto; congruence. }
  destruct D as (p & t & E & N & St & Al).
  assert (N' : none_of [63; 35] (47 :: p)). { constructor; auto. cbn. lia. }
  assert (X : parse_path (c :: s) = parse_path (47 :: p ++ t)). { rewrite <- E. unfold parse_path. destruct (Z.eqb_spec c 47) as [->|]; cbn [negb]; auto. }
  rewrite X, path_eq by auto. intros E'. inversion E'; subst. right. exists p. split; auto. split; auto. split; auto.
  destruct Al as [Al|[Al ->]]; auto. right. repeat split; auto. congruence.
Qed.
Lemma query_eq q r : none_of [35] q -> starts [35] r -> parse_query (63 :: q ++ r) = (Some q, r).
Proof.
  intros N S. unfold parse_query. change (63 :: q ++ r) with ((63 :: q) ++ r).
  assert (N1 : ~ In 35 (63 :: q)). { intros [C|C]. lia. apply (none_in _ _ _ N) in C; cbn; auto. }
  pose proof (zlen_nn (63 :: q)). destruct r as [|d r].
  - rewrite app_nil_r, find_none by auto. cbn [Z.eqb Pos.eqb negb]. rewrite app_nil_r. auto.
  - destruct S as [<-|[]]. rewrite find_at by auto. destruct (Z.eqb_spec (zlen (63 :: q)) (-1)); [lia|]. cbn [negb].
    rewrite upto_app, from_app. auto.
Qed.
Lemma query_inv s o r : starts [63; 35] s -> parse_query s = (o, r) ->
  (o = None /\ r = s /\ starts [35] s) \/ (exists q, o = Some q /\ none_of [35] q /\ starts [35] r /\ s = 63 :: q ++ r).
Proof.
  intros S. destruct s as [|c s]. { cbn. intros E. inversion E; subst. cbn. auto. }
  destruct S as [<-|[<-|[]]].
  - assert (D : exists q t, s = q ++ t /\ none_of [35] q /\ starts [35] t).
    { destruct (cut_at [35] s) as [N|(q & d & t & -> & N & I)]. exists s, []. rewrite app_nil_r. cbn; auto. exists q, (d :: t). auto. }
    destruct D as (q & t & -> & N & St). rewrite query_eq by auto. intros E. inversion E; subst. right. exists q. auto.
  - cbn. intros E. inversion E; subst. left. cbn. auto.
Qed.
Lemma fragment_inv s : starts [35] s -> s = lead [35] (parse_fragment s).
Proof. destruct s as [|c s]; cbn; auto. intros [<-|[]]. auto. Qed.

Lemma print_eq u : print u = assembled u.
Proof.
  unfold print, assembled. destruct u as [sc a h p pa q f]. cbn [S_Uri.scheme S_Uri.authority S_Uri.path S_Uri.query S_Uri.fragment].
  destruct sc, q, f; cbn [e_str sep opt lead trail app]; rewrite <- ?app_assoc, ?app_nil_r; auto.
Qed.

Lemma parse_inv s u : parse isalpha int_of s = Ok u -> separated int_of u /\
  (s = assembled u \/ (path u = Some [47] /\ (query u <> None \/ fragment u <> None) /\
    s = trail [58; 47; 47] (scheme u) ++ opt (authority u) ++ lead [63] (query u) ++ lead [35] (fragment u))).
Proof.
  unfold parse. destruct (parse_schema isalpha s) as [[sc r1]| | |] eqn:Es; cbn [bindr]; try discriminate.
  destruct (parse_authority int_of r1) as [[[[a h] p] r2]| | |] eqn:Ea; cbn [bindr]; try discriminate.
  destruct (parse_path r2) as [pa r3] eqn:Ep. destruct (parse_query r3) as [q r4] eqn:Eq. intros E. inversion E; subst; clear E.
  apply schema_inv in Es. apply authority_inv in Ea as (Ga & -> & S2). apply path_inv in Ep; auto.
  assert (S3 : starts [63; 35] r3). { destruct Ep as [(_ & _ & ->)|(p' & _ & _ & S & _)]; cbn; auto. }
  apply query_inv in Eq; auto.
  assert (S4 : starts [35] r4). { destruct Eq as [(_ & -> & S)|(q' & _ & _ & S & _)]; auto. }
  assert (E4 : r4 = lead [35] (parse_fragment r4)) by (apply fragment_inv; auto).
  assert (E3 : r3 = lead [63] q ++ lead [35] (parse_fragment r4)).
  { destruct Eq as [(-> & -> & S)|(q' & -> & _ & S & ->)]; cbn [lead app]; auto. rewrite <- E4. auto. }
  set (f := parse_fragment r4) in *. clearbody f.
  set (u := Parts sc a h p pa q f).
  assert (R : r2 = opt pa ++ r3 \/ (pa = Some [47] /\ r2 = r3 /\ r3 <> [])).
  { destruct Ep as [(-> & -> & ->)|(p' & -> & _ & _ & [->|(-> & -> & Ne)])]; cbn [opt app]; auto. }
  assert (Hpath : match pa with None => q = None /\ f = None | Some p => none_of [63; 35] p /\ exists p', p = 47 :: p' end).
  { destruct Ep as [(_ & -> & ->)|(p' & -> & N & _)].
    - destruct q, f; cbn in E3; try discriminate; auto.
    - split; eauto. constructor; auto. cbn. lia. }
  assert (Hq : match q with None => True | Some q => none_of [35] q end).
  { destruct Eq as [(-> & _)|(q' & -> & N & _)]; auto. }
  assert (As : assembled u = trail [58; 47; 47] sc ++ opt a ++ opt pa ++ r3).
  { unfold assembled, u. cbn. rewrite E3. auto. }
  assert (Sx : s = trail [58; 47; 47] sc ++ opt a ++ r2 /\ match sc with Some s => good_scheme s | None => none_of [58] s end).
  { destruct Es as [(-> & -> & N)|(s' & -> & G & ->)]; cbn [trail app]; auto. rewrite <- app_assoc. auto. }
  destruct Sx as [-> Gs]. split.
  - split; [|split; [exact Ga|split; auto]]. destruct sc; auto. change (none_of [58] (assembled u)). rewrite As.
    destruct R as [-> |(-> & -> & Ne)]; auto. cbn [trail app opt] in *. apply none_app in Gs as [G1 G2]. apply none_app. split; auto. constructor; auto. cbn. lia.
  - rewrite As. destruct R as [-> |(-> & -> & Ne)]; auto. right. split; auto. unfold u. cbn [S_Uri.scheme S_Uri.authority S_Uri.query S_Uri.fragment]. rewrite <- E3. split; auto.
    rewrite E3 in Ne. destruct q, f; cbn in Ne; try (left; discriminate); try (right; discriminate). congruence.
Qed.

Lemma parse_assembled u : separated int_of u -> parse isalpha int_of (assembled u) = Ok u.
Proof.
  destruct u as [sc a h p pa q f]. unfold separated. cbn [S_Uri.scheme S_Uri.authority S_Uri.host S_Uri.port S_Uri.path S_Uri.query S_Uri.fragment].
  intros (Gs & Ga & Gp & Gq). set (u := Parts sc a h p pa q f) in *.
  set (rq := lead [63] q ++ lead [35] f). set (rp := opt pa ++ rq).
  assert (S4 : starts [35] (lead [35] f)) by (destruct f; cbn; auto).
  assert (S3 : starts [63; 35] rq). { unfold rq. destruct q; cbn; auto. destruct f; cbn; auto. }
  assert (S2 : starts [47; 63; 35] rp).
  { unfold rp. destruct pa as [pa|]. destruct Gp as [_ (p' & ->)]. cbn; auto. destruct Gp as [-> ->]. cbn. auto. }
  assert (Es : parse_schema isalpha (assembled u) = Ok (sc, opt a ++ rp)).
  { unfold assembled, u in *. cbn [S_Uri.scheme S_Uri.authority S_Uri.path S_Uri.query S_Uri.fragment] in *. destruct sc as [sc|]; cbn [trail app].
    - rewrite <- app_assoc. apply schema_some. auto.
    - apply schema_none. auto. }
  unfold parse. rewrite Es. cbn [bindr]. rewrite (authority_some a h p rp Ga S2). cbn [bindr].
  assert (Ep : parse_path rp = (pa, rq)).
  { unfold rp. destruct pa as [pa|]. destruct Gp as [N (p' & ->)]. cbn [opt app]. apply path_eq; auto.
    destruct Gp as [E1 E2]. unfold rq. rewrite E1, E2. auto. }
  rewrite Ep.
  assert (Eq : parse_query rq = (q, lead [35] f)).
  { unfold rq. destruct q as [q|]. cbn [lead app]. apply query_eq; auto. cbn [lead app]. destruct f; auto. }
  rewrite Eq. destruct f; auto.
Qed.
End P.

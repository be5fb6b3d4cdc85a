(** C82: command line parsing (base/src/argparse.act). *)
From Verif Require Import Base P_Base S_Argparse M_Argparse P_Argparse P_Argparse2.

Section CommandLine.
Variable int_of : list Z -> option Z.
Variable isalnum : Z -> bool.

(** Parsers made with the API, options having defaults of their type. *)
Inductive built : parser -> Prop :=
| B_new : built (Parser [] [] [] [])
| B_bool p n s p' : built p -> add_bool isalnum n s p = Done p' -> built p'
| B_option p n t d s p' : built p -> (forall v, d = Some v -> type_of v = t) ->
    add_option isalnum n t d s p = Done p' -> built p'
| B_arg p n r a p' : built p -> add_arg n r a p = Done p' -> built p'
| B_cmd p n f q p' : built p -> built q -> add_cmd n f q p = Done p' -> built p'.

Definition well (p : parser) : Prop :=
  made p /\ NoDup (map fst (p_opts p)) /\
  (forall n d v, lookup n (p_opts p) = Some d -> od_default d = Some v -> type_of v = od_type d).

Lemma set_fst {A} n (v : A) m : lookup n m = None -> map fst (set n v m) = map fst m ++ [n].
Proof.
  induction m as [|[k w] m IH]; [reflexivity|]. cbn [lookup set map fst app]. destruct (teqb n k); [discriminate|].
  intros H. cbn [map fst]. rewrite IH by assumption. reflexivity.
Qed.
Lemma set_fst_old {A} n (v w : A) m : lookup n m = Some w -> map fst (set n v m) = map fst m.
Proof.
  induction m as [|[k u] m IH]; [discriminate|]. cbn [lookup set map fst]. destruct (teqb n k) eqn:E.
  - intros _. apply teqb_ok in E. subst k. reflexivity.
  - intros H. cbn [map fst]. rewrite IH by assumption. reflexivity.
Qed.
Lemma set_nodup {A} n (v : A) m : NoDup (map fst m) -> NoDup (map fst (set n v m)).
Proof.
  intros ND. destruct (lookup n m) eqn:E.
  - rewrite (set_fst_old _ _ _ _ E). exact ND.
  - rewrite set_fst by assumption. apply NoDup_rev in ND. apply lookup_none in E.
    rewrite <- (rev_involutive (map fst m ++ [n])). apply NoDup_rev. rewrite rev_app_distr. cbn [rev app].
    constructor; [|exact ND]. rewrite <- in_rev. exact E.
Qed.
Lemma lookup_short_app c m m' : lookup_short c (m ++ m') = match lookup_short c m with Some n => Some n | None => lookup_short c m' end.
Proof. induction m as [|[k w] m IH]; [reflexivity|]. cbn [app lookup_short]. destruct (c =? k); [reflexivity|exact IH]. Qed.
Lemma add_short_look s n m c x : lookup_short c (add_short s n m) = Some x -> lookup_short c m = Some x \/ x = n.
Proof.
  unfold add_short. destruct s as [[|k [|? ?]]|]; auto. rewrite lookup_short_app. destruct (lookup_short c m); [auto|].
  cbn [lookup_short]. destruct (c =? k); [|discriminate]. intros K. injection K as <-. auto.
Qed.

Lemma well_add n d s p : well p -> (od_type d = OBool -> od_default d = Some (VBool false)) ->
  (forall v, od_default d = Some v -> type_of v = od_type d) ->
  well (Parser (set n d (p_opts p)) (add_short s n (p_shorts p)) (p_args p) (p_cmds p)).
Proof.
  intros ((M1 & M2) & ND & T) Hb Ht. split; [split|split]; cbn [p_opts p_shorts].
  - intros c x Hc. rewrite lookup_set. destruct (teqb x n) eqn:E; [discriminate|].
    apply add_short_look in Hc as [Hc| ->]; [exact (M1 _ _ Hc)|]. rewrite teqb_refl in E. discriminate.
  - intros x dx Hx. rewrite lookup_set in Hx. destruct (teqb x n); [injection Hx as <-; exact Hb|exact (M2 _ _ Hx)].
  - apply set_nodup. exact ND.
  - intros x dx v Hx. rewrite lookup_set in Hx. destruct (teqb x n); [injection Hx as <-; exact (Ht v)|exact (T _ _ _ Hx)].
Qed.

Lemma built_well p : built p -> well p /\ forall n f q, lookup n (p_cmds p) = Some (f, q) -> built q.
Proof.
  induction 1 as [|p n s p' _ [W C] H|p n t d s p' _ [W C] Hd H|p n r a p' _ [W C] H|p n f q p' _ [W C] Hq _ H];
    [|destruct p as [o sh ar cm]..].
  - split; [|discriminate]. split; [split|split]; cbn; try discriminate. constructor.
  - unfold add_bool in H. destruct (short_ok isalnum s sh); [|discriminate]. injection H as <-. split; [|exact C].
    apply (well_add n (Opt OBool (Some (VBool false))) s _ W); [reflexivity|]. intros v K. injection K as <-. reflexivity.
  - unfold add_option in H. destruct (lookup n o); [discriminate|]. destruct t; try discriminate;
      (destruct (short_ok isalnum s sh); [|discriminate]); injection H as <-;
      (split; [|exact C]); apply (well_add n _ s _ W); try discriminate; exact Hd.
  - unfold add_arg in H. destruct (_ && _); [discriminate|]. injection H as <-. split; [exact W|exact C].
  - unfold add_cmd in H. injection H as <-. split; [exact W|]. cbn [p_cmds] in *. intros m g u Hu. rewrite lookup_set in Hu.
    destruct (teqb m n); [injection Hu as <- <-; exact Hq|exact (C _ _ _ Hu)].
Qed.

Lemma set_new {A} n (v : A) m : lookup n m = None -> set n v m = m ++ [(n, v)].
Proof.
  induction m as [|[k w] m IH]; [reflexivity|]. cbn [lookup set app]. destruct (teqb n k); [discriminate|].
  intros H. rewrite IH by assumption. reflexivity.
Qed.
Lemma program_well p : well p -> well (program p).
Proof.
  intros W. unfold program. destruct (lookup help_name (p_opts p)) eqn:E; [exact W|].
  rewrite <- set_new by exact E.
  apply (well_add help_name (Opt OBool (Some (VBool false))) None p W); [reflexivity|]. intros v K. injection K as <-. reflexivity.
Qed.
Lemma program_cmds p : p_cmds (program p) = p_cmds p.
Proof. unfold program. destruct (lookup help_name (p_opts p)); reflexivity. Qed.
Lemma program_args p : p_args (program p) = p_args p.
Proof. unfold program. destruct (lookup help_name (p_opts p)); reflexivity. Qed.

Lemma line_well q j l ps f : line_ok q j l ps f -> well q -> (forall n g u, lookup n (p_cmds q) = Some (g, u) -> built u) ->
  Forall well ps.
Proof.
  induction 1 as [q j l|q j l n f sub ps f' _ _ Hs _ IH]; intros W C; constructor; auto.
  pose proof (C _ _ _ Hs) as B. apply built_well in B as [Ws Cs]. apply IH; assumption.
Qed.
Lemma built_line p l ps f : built p -> line_ok (program p) 0 l ps f -> Forall well ps.
Proof.
  intros B L. apply built_well in B as [W C]. eapply line_well; [exact L|apply program_well; exact W|]. rewrite program_cmds. exact C.
Qed.
Lemma wells_made ps : Forall well ps -> Forall made ps.
Proof. apply Forall_impl. intros a [M _]. exact M. Qed.

Lemma parse_program fuel p prog argv : parse int_of isalnum fuel p (prog :: argv) =
  let! (a, _, p') := consume int_of fuel (program p) argv (Args [] None) in
  let! asked := match lookup help_name (p_opts p) with None => get OBool help_name a | Some _ => Done (VBool false) end in
  match asked with
  | VBool true => Usage (a_cmd a)
  | _ => if existsb (fun d => ad_required d && match lookup (ad_name d) (a_opts a) with None => true | Some _ => false end) (p_args p')
         then ArgError else Done (a, p')
  end.
Proof.
  unfold parse, program, help. fold help_name. destruct p as [o s ar cm]. cbn [p_opts p_shorts p_args p_cmds add_bool short_ok add_short].
  destruct (lookup help_name o) eqn:E; cbn [bindo]; [reflexivity|]. rewrite set_new by exact E. reflexivity.
Qed.

Lemma all_ints_bad ps l : ~ bad_int int_of ps l -> all_ints int_of 0 ps l.
Proof.
  intros B k q n d Hk Hd Ht v Hv K. apply B. exists k, q, n, d, v. auto.
Qed.
Lemma bad_all_ints ps l : bad_int int_of ps l -> ~ all_ints int_of 0 ps l.
Proof. intros (k & q & n & d & v & Hk & Hd & Ht & Hv & K) A. exact (A k q n d Hk Hd Ht v Hv K). Qed.

Lemma meaning_type d vs v : (forall v, od_default d = Some v -> type_of v = od_type d) ->
  meaning int_of d vs = Some v -> type_of v = od_type d.
Proof.
  intros T. unfold meaning. destruct (od_type d) eqn:E.
  - destruct vs; [intros H; apply T; exact H|]. intros H. injection H as <-. reflexivity.
  - destruct (last_of vs) as [w|]; [|intros H; apply T; exact H]. destruct (int_of w); [|discriminate]. intros H. injection H as <-. reflexivity.
  - destruct (last_of vs) as [w|]; [|intros H; apply T; exact H]. intros H. injection H as <-. reflexivity.
  - destruct vs; [intros H; apply T; exact H|]. intros H. injection H as <-. reflexivity.
Qed.
Lemma get_typed a n v : lookup n (a_opts a) = Some (type_of v, v) -> get (type_of v) n a = Done v.
Proof. intros H. unfold get. rewrite H. destruct v; reflexivity. Qed.
Lemma get_none t a n : lookup n (a_opts a) = None -> get t n a = ArgError.
Proof. intros H. unfold get. rewrite H. reflexivity. Qed.

Lemma run fuel p l tail ps f as' lo : built p -> line_ok (program p) 0 l ps f -> (tail <> None -> length ps = 1%nat) ->
  (length ps <= fuel)%nat -> NoDup (flat_map names ps) -> ~ bad_int int_of ps l ->
  deals_all ps (plain_args l tail) as' lo ->
  exists a p', consume int_of fuel (program p) (write l ++ match tail with None => [] | Some t => [45; 45] :: t end) (Args [] None) = Done (a, lo, p') /\
    a_cmd a = f /\
    (forall k q n d, nth_error ps k = Some q -> lookup n (p_opts q) = Some d ->
       get (od_type d) n a = match meaning int_of d (values k n l) with Some v => Done v | None => ArgError end) /\
    (forall k q ak d, nth_error ps k = Some q -> nth_error as' k = Some ak -> In d (p_args q) ->
       lookup (ad_name d) (a_opts a) = match lookup (ad_name d) ak with Some v => Some (typed v) | None => argdef d end) /\
    (exists ak, nth_error as' 0 = Some ak /\ incl (p_args p') (p_args (program p)) /\
       forall d, In d (p_args (program p)) -> lookup (ad_name d) ak = None -> In d (p_args p')).
Proof.
  intros B L Ht Hf ND HB D. pose proof (built_line _ _ _ _ B L) as W.
  destruct (chain int_of (program p) 0 l ps f L tail (Args [] None) fuel as' lo) as (a & p' & E & C & _ & O & A & R); auto.
  { apply wells_made. exact W. } { apply all_ints_bad. exact HB. }
  exists a, p'. split; [exact E|]. split; [rewrite C; destruct f; reflexivity|]. split; [|split; [exact A|exact R]].
  intros k q n d Hk Hd. pose proof (O k q n d Hk Hd) as G. cbn [Nat.add] in G. unfold mean in G.
  destruct (meaning int_of d (values k n l)) as [v|] eqn:Em; [|apply get_none; exact G].
  assert (Tv : type_of v = od_type d).
  { eapply meaning_type; [|exact Em]. intros w Hw. rewrite Forall_forall in W. apply (W q (nth_error_In _ _ Hk)) with (n := n); assumption. }
  rewrite <- Tv in G |- *. apply get_typed. exact G.
Qed.

Lemma help_value p l ps f a : line_ok (program p) 0 l ps f -> lookup help_name (p_opts p) = None ->
  (forall k q n d, nth_error ps k = Some q -> lookup n (p_opts q) = Some d ->
       get (od_type d) n a = match meaning int_of d (values k n l) with Some v => Done v | None => ArgError end) ->
  get OBool help_name a = Done (VBool (match values 0 help_name l with [] => false | _ => true end)).
Proof.
  intros L E G. destruct (line_head _ _ _ _ _ L) as (ps' & ->).
  change OBool with (od_type (Opt OBool (Some (VBool false)))) at 1. rewrite (G 0%nat (program p) help_name (Opt OBool (Some (VBool false))) eq_refl).
  - cbn [meaning od_type od_default]. destruct (values 0 help_name l); reflexivity.
  - unfold program. rewrite E. cbn [p_opts]. rewrite <- set_new by exact E. rewrite lookup_set, teqb_refl. reflexivity.
Qed.

(** A command line that can be understood: every option, of the program and of each
    sub-command given, has the value the command line gives it, or its default; every
    positional argument has its value; args.cmd is the last command's function.
    -- ends the options (without sub-commands). *)
Theorem C82_command_line_means fuel p prog l tail ps f as' lo :
  built p -> line_ok (program p) 0 l ps f -> (length ps <= fuel)%nat ->
  (tail <> None -> length ps = 1%nat) ->
  NoDup (flat_map names ps) -> ~ bad_int int_of ps l -> ~ asks_help p l ->
  deals_all ps (plain_args l tail) as' lo -> ~ missing p as' ->
  exists a p', parse int_of isalnum fuel p (command_line prog l tail) = Done (a, p') /\
    a_cmd a = f /\
    (forall k q n d, nth_error ps k = Some q -> lookup n (p_opts q) = Some d ->
       get (od_type d) n a = match meaning int_of d (values k n l) with Some v => Done v | None => ArgError end) /\
    (forall k q given d v, nth_error ps k = Some q -> nth_error as' k = Some given -> In d (p_args q) ->
       lookup (ad_name d) given = Some v -> get (type_of v) (ad_name d) a = Done v) /\
    (forall k q given d, nth_error ps k = Some q -> nth_error as' k = Some given -> In d (p_args q) ->
       lookup (ad_name d) given = None ->
       if negb (ad_required d) && match ad_nargs d with Many => true | _ => false end
       then get OList (ad_name d) a = Done (VList []) else forall t, get t (ad_name d) a = ArgError).
Proof.
  intros B L Hf Ht ND HB Hh D Hm.
  destruct (run fuel p l tail ps f as' lo B L Ht Hf ND HB D) as (a & p' & E & C & O & A & ak & Hak & I1 & I2).
  exists a, p'. split; [|split; [exact C|split; [exact O|split]]].
  - unfold command_line. rewrite parse_program. fold (wtail tail) in *. rewrite E. cbn [bindo].
    assert (Asked : match lookup help_name (p_opts p) with None => get OBool help_name a | Some _ => Done (VBool false) end = Done (VBool false)).
    { destruct (lookup help_name (p_opts p)) eqn:Eh; [reflexivity|]. rewrite (help_value p l ps f a L Eh O).
      destruct (values 0 help_name l) eqn:Ev; [reflexivity|]. exfalso. apply Hh. split; [exact Eh|congruence]. }
    rewrite Asked. cbn [bindo].
    destruct (existsb _ (p_args p')) eqn:Ex; [|reflexivity]. exfalso. apply existsb_exists in Ex as (d & Hd & K).
    apply andb_prop in K as [K1 K2]. apply I1 in Hd. rewrite program_args in Hd. apply Hm. exists d, ak. repeat (split; [assumption|]).
    destruct (line_head _ _ _ _ _ L) as (ps' & ->).
    rewrite (A 0%nat (program p) ak d eq_refl Hak) in K2 by (rewrite program_args; exact Hd).
    destruct (lookup (ad_name d) ak); [discriminate|reflexivity].
  - intros k q given d v Hk Hg Hd Hv. apply get_typed. rewrite (A k q given d Hk Hg Hd), Hv. reflexivity.
  - intros k q given d Hk Hg Hd Hv. pose proof (A k q given d Hk Hg Hd) as G. rewrite Hv in G. unfold argdef in G.
    destruct (negb (ad_required d)); cbn [andb]; [destruct (ad_nargs d)|]; try (intros t; apply get_none; exact G).
    apply (get_typed a (ad_name d) (VList [])). exact G.
Qed.

(** --help wins over missing arguments: usage is shown, of the last command if any. *)
Theorem C82_help_shows_usage fuel p prog l tail ps f as' lo :
  built p -> line_ok (program p) 0 l ps f -> (length ps <= fuel)%nat ->
  (tail <> None -> length ps = 1%nat) ->
  NoDup (flat_map names ps) -> ~ bad_int int_of ps l -> asks_help p l ->
  deals_all ps (plain_args l tail) as' lo ->
  parse int_of isalnum fuel p (command_line prog l tail) = Usage f.
Proof.
  intros B L Hf Ht ND HB [Eh Ev] D.
  destruct (run fuel p l tail ps f as' lo B L Ht Hf ND HB D) as (a & p' & E & C & O & A & ak & Hak & I1 & I2).
  unfold command_line. rewrite parse_program. fold (wtail tail) in *. rewrite E. cbn [bindo]. rewrite Eh.
  rewrite (help_value p l ps f a L Eh O). destruct (values 0 help_name l); [contradiction|].
  cbn [bindo]. rewrite C. reflexivity.
Qed.

(** A missing positional argument of the program, or a value that is no integer where one
    is needed, is an ArgumentError. *)
Theorem C82_missing_argument_refused fuel p prog l tail ps f as' lo :
  built p -> line_ok (program p) 0 l ps f -> (length ps <= fuel)%nat ->
  (tail <> None -> length ps = 1%nat) ->
  NoDup (flat_map names ps) -> ~ bad_int int_of ps l -> ~ asks_help p l ->
  deals_all ps (plain_args l tail) as' lo -> missing p as' ->
  parse int_of isalnum fuel p (command_line prog l tail) = ArgError.
Proof.
  intros B L Hf Ht ND HB Hh D (d & a0 & Hd & Hr & Ha & Hn).
  destruct (run fuel p l tail ps f as' lo B L Ht Hf ND HB D) as (a & p' & E & C & O & A & ak & Hak & I1 & I2).
  assert (a0 = ak) as -> by congruence.
  unfold command_line. rewrite parse_program. fold (wtail tail) in *. rewrite E. cbn [bindo].
  assert (Asked : match lookup help_name (p_opts p) with None => get OBool help_name a | Some _ => Done (VBool false) end = Done (VBool false)).
  { destruct (lookup help_name (p_opts p)) eqn:Eh; [reflexivity|]. rewrite (help_value p l ps f a L Eh O).
    destruct (values 0 help_name l) eqn:Ev; [reflexivity|]. exfalso. apply Hh. split; [exact Eh|congruence]. }
  rewrite Asked. cbn [bindo].
  replace (existsb _ (p_args p')) with true; [reflexivity|]. symmetry. apply existsb_exists. exists d.
  split; [apply I2; [rewrite program_args; exact Hd|exact Hn]|]. rewrite Hr. cbn [andb].
  destruct (line_head _ _ _ _ _ L) as (ps' & ->).
  rewrite (A 0%nat (program p) ak d eq_refl Hak) by (rewrite program_args; exact Hd). rewrite Hn.
  unfold argdef. rewrite Hr. reflexivity.
Qed.

Theorem C82_bad_integer_refused fuel p prog l tail ps f :
  built p -> line_ok (program p) 0 l ps f -> (length ps <= fuel)%nat ->
  (tail <> None -> length ps = 1%nat) -> bad_int int_of ps l ->
  parse int_of isalnum fuel p (command_line prog l tail) = ArgError.
Proof.
  intros B L Hf Ht HB. unfold command_line. rewrite parse_program. fold (wtail tail).
  rewrite (chain_bad int_of (program p) 0 l ps f L); auto.
  - apply wells_made. eapply built_line; eassumption.
  - apply bad_all_ints. exact HB.
Qed.

Definition short_free (s : option (list Z)) (p : parser) : Prop :=
  forall x, s = Some x -> exists c, x = [c] /\ isalnum c = true /\ lookup_short c (p_shorts p) = None.

Lemma short_ok_iff s p : short_ok isalnum s (p_shorts p) = true <-> short_free s p.
Proof.
  unfold short_ok, short_free. destruct s as [[|c [|d r]]|]; split; intros H; try discriminate; try reflexivity.
  - destruct (H _ eq_refl) as (c & K & _). discriminate.
  - intros x K. injection K as <-. exists c. apply andb_prop in H as [H1 H2]. destruct (lookup_short c (p_shorts p)); [discriminate|]. auto.
  - destruct (H _ eq_refl) as (c' & K & H1 & H2). injection K as <-. rewrite H1, H2. reflexivity.
  - destruct (H _ eq_refl) as (c' & K & _). discriminate.
Qed.

(** Declarations are accepted exactly if the short option is one alphanumeric character not
    in use, the name of an option with a value is not in use, and no second positional
    argument takes several values; so short options are unique in every parser. *)
Theorem C82_declarations_checked p : built p ->
  (forall n s, (exists p', add_bool isalnum n s p = Done p') <-> short_free s p) /\
  (forall n t d s, (exists p', add_option isalnum n t d s p = Done p') <->
     short_free s p /\ lookup n (p_opts p) = None /\ t <> OBool) /\
  (forall n r a, (exists p', add_arg n r a p = Done p') <-> a = One \/ Forall (fun d => ad_nargs d = One) (p_args p)) /\
  NoDup (map fst (p_shorts p)) /\ Forall (fun c => isalnum (fst c) = true) (p_shorts p) /\
  (forall a d b e c, p_args p = a ++ d :: b ++ e :: c -> ad_nargs d = One \/ ad_nargs e = One).
Proof.
  intros B. split; [|split; [|split]].
  - intros n s. rewrite <- short_ok_iff. destruct p as [o sh ar cm]. cbn [add_bool p_shorts]. destruct (short_ok isalnum s sh); split; eauto; try discriminate. intros (p' & K). discriminate.
  - intros n t d s. rewrite <- short_ok_iff. destruct p as [o sh ar cm]. cbn [add_option p_shorts p_opts].
    destruct (lookup n o); [split; [intros (p' & K); discriminate|intros (_ & K & _); discriminate]|].
    destruct t; [split; [intros (p' & K); discriminate|intros (_ & _ & K); congruence]|..];
      (destruct (short_ok isalnum s sh); split; [intros _; repeat split; discriminate|eauto|intros (p' & K); discriminate|intros (K & _); discriminate]).
  - intros n r a. destruct p as [o sh ar cm]. cbn [add_arg p_args].
    set (several := fun n => match n with One => false | _ => true end).
    assert (E : existsb (fun d => several (ad_nargs d)) ar = true <-> ~ Forall (fun d => ad_nargs d = One) ar).
    { clear. induction ar as [|d ar IH]; cbn [existsb]; [split; [discriminate|intros K; exfalso; apply K; constructor]|].
      rewrite orb_true_iff, IH. split.
      - intros [K|K] F; inversion F as [|? ? F1 F2]; subst; [rewrite F1 in K; discriminate|contradiction].
      - intros K. destruct (ad_nargs d) eqn:Ed; cbn; auto. }
    match goal with |- context [if ?b then ArgError else _] => change b with (several a && existsb (fun d => several (ad_nargs d)) ar) end.
    destruct (several a && existsb (fun d => several (ad_nargs d)) ar) eqn:Es.
    + apply andb_prop in Es as [E1 E2]. split; [intros (p' & K); discriminate|]. apply E in E2. intros [->|K]; [discriminate|contradiction].
    + assert (Dn : forall d, {ad_nargs d = One} + {ad_nargs d <> One}) by (intros d; destruct (ad_nargs d); [left; reflexivity|right; discriminate|right; discriminate]).
      split; [intros _|eauto]. destruct a eqn:Ea; [left; reflexivity|right..]; cbn [several andb] in Es;
        (destruct (Forall_dec (fun d => ad_nargs d = One) Dn ar) as [F|F]; [exact F|apply E in F; congruence]).
  - assert (Sh : forall s n sh, short_ok isalnum s sh = true -> NoDup (map fst sh) -> Forall (fun c => isalnum (fst c) = true) sh ->
      NoDup (map fst (add_short s n sh)) /\ Forall (fun c => isalnum (fst c) = true) (add_short s n sh)).
    { intros s n sh H ND F. unfold short_ok, add_short in *. destruct s as [[|c [|? ?]]|]; try discriminate; auto.
      apply andb_prop in H as [H1 H2]. split.
      - rewrite map_app. cbn [map fst]. apply NoDup_rev in ND. rewrite <- (rev_involutive (map fst sh ++ [c])). apply NoDup_rev.
        rewrite rev_app_distr. cbn [rev app]. constructor; [|exact ND]. rewrite <- in_rev. intros K.
        destruct (lookup_short c sh) eqn:El; [discriminate|]. clear - K El. induction sh as [|[k w] sh IH]; [destruct K|].
        cbn [lookup_short map fst In] in *. destruct (c =? k) eqn:E; [discriminate|]. destruct K as [K|K]; [lia|auto].
      - apply Forall_app. split; [exact F|]. constructor; [exact H1|constructor]. }
    induction B as [|p n s p' _ IH H|p n t d s p' _ IH Hd H|p n r a p' _ IH H|p n f q p' _ IH Hq _ H];
      [|destruct p as [o sh ar cm]; cbn [p_shorts p_args] in IH; destruct IH as (ND & F & A)..].
    + cbn. split; [constructor|]. split; [constructor|]. intros [|x a] d b e c K; discriminate.
    + unfold add_bool in H. destruct (short_ok isalnum s sh) eqn:Es; [|discriminate]. injection H as <-. cbn [p_shorts p_args].
      destruct (Sh s n sh Es ND F). auto.
    + unfold add_option in H. destruct (lookup n o); [discriminate|]. destruct t; try discriminate;
        (destruct (short_ok isalnum s sh) eqn:Es; [|discriminate]); injection H as <-; cbn [p_shorts p_args]; destruct (Sh s n sh Es ND F); auto.
    + unfold add_arg in H. destruct (_ && _) eqn:Es in H; [discriminate|]. injection H as <-. cbn [p_shorts p_args]. split; [exact ND|]. split; [exact F|].
      intros a0 d b e c K.
      destruct c as [|x c _] using rev_ind.
      * rewrite app_comm_cons, app_assoc in K. apply app_inj_tail in K as [K <-]. cbn [ad_nargs].
        destruct a; [auto|left..]; cbn [andb] in Es; subst ar; rewrite existsb_app in Es; apply orb_false_iff in Es as [_ Es];
          cbn [existsb] in Es; apply orb_false_iff in Es as [Es _]; destruct (ad_nargs d); congruence.
      * apply (A a0 d b e c). rewrite app_comm_cons, app_assoc in K. rewrite app_comm_cons, app_assoc in K. apply app_inj_tail in K as [K _].
        rewrite K. rewrite <- !app_assoc. reflexivity.
    + unfold add_cmd in H. injection H as <-. cbn [p_shorts p_args]. auto.
Qed.
End CommandLine.
Print Assumptions C82_declarations_checked.
Print Assumptions C82_command_line_means.
Print Assumptions C82_help_shows_usage.
Print Assumptions C82_missing_argument_refused.
Print Assumptions C82_bad_integer_refused.

(** Plain arguments can always be dealt out, in one way. *)
Theorem C82_plain_arguments_dealt ps vs : Forall known_nargs ps ->
  exists as' lo, deals_all ps vs as' lo /\ forall as2 lo2, deals_all ps vs as2 lo2 -> as2 = as' /\ lo2 = lo.
Proof.
  intros K. destruct (deals_all_total ps K vs) as (as' & lo & D). exists as', lo. split; [exact D|].
  assert (U : forall ds vs a lo, deals ds vs a lo -> forall a2 lo2, deals ds vs a2 lo2 -> a2 = a /\ lo2 = lo).
  { clear. induction 1 as [vs|d ds|n r ds v vs a lo H IH|n r ds m vs a lo Hm Hl H IH|n r ds m Hm Hl]; intros a2 lo2 H2.
    - inversion H2; subst. auto.
    - inversion H2; subst; auto; try congruence; destruct m; cbn in *; congruence.
    - inversion H2; subst. match goal with X : deals ds vs _ _ |- _ => destruct (IH _ _ X) as [-> ->] end. auto.
    - inversion H2 as [|? ? Q1 Q2|?|? ? ? m2 vs2 a3 lo3 Hm2 Hl2 H3 Q1 Q2|? ? ? m2 Hm2 Hl2 Q1 Q2]; subst.
      + destruct m; [contradiction|discriminate].
      + assert (Em : m2 = m /\ vs2 = vs).
        { assert (Ll : length m2 = length m) by (apply (f_equal (@length _)) in Q2; rewrite !app_length in Q2; lia).
          clear - Q2 Ll. revert m2 Q2 Ll. induction m as [|x m IH]; intros [|y m2] Q Ll; try discriminate; [auto|].
          cbn [app] in Q. injection Q as -> Q. cbn [length] in Ll. destruct (IH m2 Q) as [-> ->]; [lia|auto]. }
        destruct Em as [-> ->]. destruct (IH _ _ H3) as [-> ->]. auto.
      + exfalso. rewrite app_length in Hl2. destruct m; [contradiction|]. cbn [length] in Hl2. lia.
    - inversion H2 as [|? ? Q1 Q2|?|? ? ? m2 vs2 a3 lo3 Hm2 Hl2 H3 Q1 Q2|? ? ? m2 Hm2 Hl2 Q1 Q2]; subst; auto; [contradiction|].
      exfalso. rewrite app_length in Hl. destruct m2; [contradiction|]. cbn [length] in Hl. lia. }
  induction D as [vs|p ps vs as' mid a lo D IH Da]; intros as2 lo2 D2; inversion D2; subst; auto.
  inversion K; subst.
  match goal with X : deals_all ps vs _ _ |- _ => destruct (IH ltac:(assumption) _ _ X) as [-> ->] end.
  match goal with X : deals (p_args p) mid ?x ?y |- _ => destruct (U _ _ _ _ Da _ _ X) as [-> ->] end. auto.
Qed.
Print Assumptions C82_plain_arguments_dealt.

(** ** Findings *)
Definition digits (s : list Z) : option Z :=
  match s with
  | [c] => if (48 <=? c) && (c <=? 57) then Some (c - 48) else None
  | _ => None
  end.
Definition alnum (c : Z) : bool := (97 <=? c) && (c <=? 122).
Definition tail_p : parser :=
  Parser [([110], Opt OInt (Some (VInt 9))); ([102], Opt OBool (Some (VBool false)))] [(110, [110])] [Arg [120] true One] [].

(** The documentation promises an ArgumentError for unknown options; they are taken as plain
    arguments.  Plain arguments too many are dropped. *)
Theorem C82_unknown_option_refuted :
  ~ (forall int_of isalnum fuel p prog n, built isalnum p -> n <> [] -> lookup n (p_opts (program p)) = None ->
       parse int_of isalnum (S fuel) p [prog; 45 :: 45 :: n] = ArgError) /\
  (exists a p', parse digits alnum 1 tail_p [[116]; [45;45;122]] = Done (a, p') /\ get OStr [120] a = Done (VStr [45;45;122])) /\
  (exists a p', parse digits alnum 1 tail_p [[116]; [97]; [98]] = Done (a, p') /\ get OStr [120] a = Done (VStr [97])).
Proof.
  split; [|split; eexists; eexists; (split; [vm_compute; reflexivity|reflexivity])].
  intros H. specialize (H digits alnum 0%nat (Parser [] [] [] []) [116] [122] (B_new alnum)).
  assert (K : [122] <> []) by discriminate. specialize (H K eq_refl). vm_compute in H. discriminate.
Qed.
Print Assumptions C82_unknown_option_refuted.

(** A required positional argument of a sub-command may be missing: parse reports nothing. *)
Definition sub_p : parser :=
  Parser [] [] [] [([99], (7, Parser [([118], Opt OBool (Some (VBool false)))] [(118, [118])] [Arg [120] true One] []))].
Theorem C82_missing_sub_argument_refuted :
  ~ (forall int_of isalnum fuel p prog l ps f as' lo k q given d,
       built isalnum p -> line_ok (program p) 0 l ps f -> (length ps <= fuel)%nat ->
       deals_all ps (positionals l) as' lo -> ~ asks_help p l ->
       nth_error ps k = Some q -> nth_error as' k = Some given -> In d (p_args q) -> ad_required d = true ->
       lookup (ad_name d) given = None ->
       parse int_of isalnum fuel p (command_line prog l None) = ArgError).
Proof.
  intros H.
  set (q := Parser [([118], Opt OBool (Some (VBool false)))] [(118, [118])] [Arg [120] true One] []).
  assert (B : built alnum sub_p).
  { apply (B_cmd alnum (Parser [] [] [] []) [99] 7 q); [constructor| |reflexivity].
    apply (B_bool alnum (Parser [] [] [Arg [120] true One] []) [118] (Some [118])); [|reflexivity].
    apply (B_arg alnum (Parser [] [] [] []) [120] true One); [constructor|reflexivity]. }
  specialize (H digits alnum 2%nat sub_p [116] [Cmd [99]] [program sub_p; q] (Some 7) [[]; []] [] 1%nat q [] (Arg [120] true One) B).
  assert (E : parse digits alnum 2 sub_p (command_line [116] [Cmd [99]] None) = ArgError).
  { apply H; try reflexivity; try (cbn; auto; fail).
    - apply (L_sub (program sub_p) 0 [Cmd [99]] [99] 7 q [q] None); try reflexivity.
      + cbn. repeat split; try discriminate. right. intros r K. discriminate.
      + apply L_last; reflexivity.
    - apply (DA_cons _ _ _ _ [] _ _); [|constructor]. apply (DA_cons _ _ _ _ [] _ _); [constructor|apply D_out].
    - intros [_ K]. apply K. reflexivity. }
  vm_compute in E. discriminate.
Qed.
Print Assumptions C82_missing_sub_argument_refuted.

(** A parser serves once: parse takes its positional arguments away, and a second --help is
    no longer asked about. *)
Theorem C82_parser_reuse_refuted :
  ~ (forall int_of isalnum fuel p argv a p', built isalnum p -> parse int_of isalnum fuel p argv = Done (a, p') ->
       parse int_of isalnum fuel p' argv = Done (a, p')) /\
  (exists a p', parse digits alnum 1 (Parser [] [] [Arg [120] true One] []) [[116]; [97]] = Done (a, p') /\
     p_args p' = [] /\ (exists a2 p2, parse digits alnum 1 p' [[116]; [97]] = Done (a2, p2) /\ get OStr [120] a2 = ArgError) /\
     exists a3 p3, parse digits alnum 1 p' [[116]; [45;45;104;101;108;112]] = Done (a3, p3)).
Proof.
  split.
  - intros H.
    assert (B : built alnum (Parser [] [] [Arg [120] true One] [])).
    { apply (B_arg alnum (Parser [] [] [] []) [120] true One); [constructor|reflexivity]. }
    specialize (H digits alnum 1%nat (Parser [] [] [Arg [120] true One] []) [[116]; [97]] _ _ B eq_refl).
    vm_compute in H. discriminate.
  - eexists. eexists. split; [vm_compute; reflexivity|]. split; [reflexivity|].
    split; eexists; eexists; [split; [vm_compute; reflexivity|]|]; vm_compute; reflexivity.
Qed.
Print Assumptions C82_parser_reuse_refuted.

(** What follows -- is passed to a sub-command as if -- had not been there. *)
Theorem C82_double_dash_sub_refuted :
  ~ (forall int_of isalnum fuel p prog n f q t a p', built isalnum p -> lookup n (p_cmds p) = Some (f, q) ->
       plain n -> parse int_of isalnum fuel p (prog :: n :: [45; 45] :: t) = Done (a, p') ->
       forall m d, lookup m (p_opts q) = Some d -> get (od_type d) m a = match meaning int_of d [] with Some v => Done v | None => ArgError end).
Proof.
  intros H.
  assert (B : built alnum sub_p).
  { apply (B_cmd alnum (Parser [] [] [] []) [99] 7 (Parser [([118], Opt OBool (Some (VBool false)))] [(118, [118])] [Arg [120] true One] [])); [constructor| |reflexivity].
    apply (B_bool alnum (Parser [] [] [Arg [120] true One] []) [118] (Some [118])); [|reflexivity].
    apply (B_arg alnum (Parser [] [] [] []) [120] true One); [constructor|reflexivity]. }
  assert (P : plain [99]) by (right; intros r K; discriminate).
  pose proof (H digits alnum 2%nat sub_p [116] [99] 7 _ [[45; 118]] _ _ B eq_refl P eq_refl [118] _ eq_refl) as G. vm_compute in G. discriminate.
Qed.
Print Assumptions C82_double_dash_sub_refuted.

(** --flag=false sets the flag; a positional argument with nargs "*" gets nothing. *)
Theorem C82_flag_value_and_star_refuted :
  (forall int_of isalnum prog v, exists a p',
     parse int_of isalnum 1 (Parser [([102], Opt OBool (Some (VBool false)))] [] [] []) [prog; [45;45;102;61] ++ v] = Done (a, p') /\
     get OBool [102] a = Done (VBool true)) /\
  (forall int_of isalnum prog vs, Forall plain vs -> exists a p',
     parse int_of isalnum 1 (Parser [] [] [Arg [120] false Other] []) (prog :: vs) = Done (a, p') /\
     get OList [120] a = ArgError).
Proof.
  split.
  - intros int_of isalnum prog v. eexists. eexists. split; reflexivity.
  - intros int_of isalnum prog vs P. rewrite parse_program. cbn [consume program lookup help_name p_opts p_shorts p_args p_cmds app].
    set (q := Parser _ _ _ _).
    assert (S : forall res, scan int_of q vs res None = Done (res, vs, None)).
    { induction P as [|v vs Pv _ IH]; intros res; [reflexivity|]. rewrite scan_plain by exact Pv. cbn [q p_cmds lookup]. rewrite IH. reflexivity. }
    rewrite S. cbn [bindo a_opts a_cmd].
    assert (D : forall res, deal [Arg [120] false Other] vs res = (res, [], [Arg [120] false Other])).
    { clear. intros res. induction vs as [|v vs IH]; [reflexivity|]. exact IH. }
    rewrite D. eexists. eexists. split; [vm_compute; reflexivity|]. reflexivity.
Qed.
Print Assumptions C82_flag_value_and_star_refuted.

(** The hypotheses can be met: prog -vf c -n5 a, with v of the program and f, n of the
    sub-command c, which takes one plain argument. *)
Example C82_case :
  let q := Parser [([110], Opt OInt (Some (VInt 9))); ([102], Opt OBool (Some (VBool false)))] [(110, [110]); (102, [102])] [Arg [120] true One] [] in
  let p := Parser [([118], Opt OBool (Some (VBool false)))] [(118, [118])] [] [([99], (7, q))] in
  let l := [Group [(0%nat, 118, [118]); (1%nat, 102, [102])]; Cmd [99]; Inline 1 110 [110] [53]; Pos [97]] in
  let ps := [program p; q] in
  built alnum p /\ line_ok (program p) 0 l ps (Some 7) /\ NoDup (flat_map names ps) /\
  ~ bad_int digits ps l /\ ~ asks_help p l /\ deals_all ps (plain_args l None) [[]; [([120], VStr [97])]] [] /\
  ~ missing p [[]; [([120], VStr [97])]] /\
  command_line [116] l None = [[116]; [45;118;102]; [99]; [45;110;53]; [97]] /\
  exists a p', parse digits alnum 2 p (command_line [116] l None) = Done (a, p') /\ a_cmd a = Some 7 /\
    get OBool [118] a = Done (VBool true) /\ get OBool [102] a = Done (VBool true) /\
    get OInt [110] a = Done (VInt 5) /\ get OStr [120] a = Done (VStr [97]).
Proof.
  intros q p l ps. split; [|split; [|split; [|split; [|split; [|split; [|split; [|split]]]]]]].
  - apply (B_cmd alnum (Parser [([118], Opt OBool (Some (VBool false)))] [(118, [118])] [] []) [99] 7 q); [| |reflexivity].
    + apply (B_bool alnum (Parser [] [] [] []) [118] (Some [118])); [constructor|reflexivity].
    + apply (B_bool alnum (Parser [([110], Opt OInt (Some (VInt 9)))] [(110, [110])] [Arg [120] true One] []) [102] (Some [102])); [|reflexivity].
      apply (B_option alnum (Parser [] [] [Arg [120] true One] []) [110] OInt (Some (VInt 9)) (Some [110])); [| |reflexivity].
      * apply (B_arg alnum (Parser [] [] [] []) [120] true One); [constructor|reflexivity].
      * intros v K. injection K as <-. reflexivity.
  - apply (L_sub (program p) 0 l [99] 7 q [q] None); [| | |].
    + cbn. unfold plain, mine, is_bool. repeat split; try discriminate; try lia; try (constructor; [|constructor; [|constructor]]); cbn; repeat split; try discriminate; try lia; eauto.
      * eexists. split; reflexivity.
      * right. intros r K. discriminate.
      * intros _ x [<-|[<-|[]]]; reflexivity.
      * right. intros r K. discriminate.
    + reflexivity.
    + reflexivity.
    + apply L_last; [|reflexivity|reflexivity]. cbn. unfold not_mine, plain, mine, is_bool, takes_value. repeat split; try discriminate; try lia.
      * constructor; [|constructor]. cbn. repeat split; try discriminate; try lia. eexists. split; reflexivity.
      * eexists. split; [reflexivity|discriminate].
      * right. intros r K. discriminate.
  - vm_compute. repeat constructor; cbn; intuition discriminate.
  - intros (k & u & n & d & v & Hk & Hd & Ht & Hv & Hi). destruct k as [|[|[|k]]]; try discriminate; injection Hk as <-.
    + unfold program in Hd. cbn [lookup p_opts p help_name] in Hd.
      cbn in Hd. destruct (teqb n [118]); [injection Hd as <-; discriminate|]. destruct (teqb n help_name); [injection Hd as <-; discriminate|discriminate].
    + cbn [lookup p_opts q] in Hd. destruct (teqb n [110]) eqn:En.
      * apply teqb_ok in En. subst n. vm_compute in Hv. destruct Hv as [<-|[]]. discriminate.
      * destruct (teqb n [102]); [injection Hd as <-; discriminate|discriminate].
  - intros [_ K]. apply K. reflexivity.
  - apply (DA_cons _ _ _ _ [] _ _); [|constructor]. apply (DA_cons _ _ _ _ [[97]] _ _); [constructor|]. apply (D_one [120] true [] [97] [] [] []). constructor.
  - intros (d & a & [] & _).
  - reflexivity.
  - eexists. eexists. split; [vm_compute; reflexivity|]. repeat split; reflexivity.
Qed.

(** Random numbers: proofs. *)
From Coq Require Import String.
From Verif Require Import Base P_Base P_Bmh M_Bigint S_Bigint P_BigStr M_Http M_Random S_Random T_Bigint.
From Coq Require Import ZifyBool ZifyNat.
Local Notation llen := List.length.

Lemma spin_ok b rs : forall v rest, spin b rs = Ok (v, rest) -> v < b /\ exists u, rs = u ++ v :: rest /\ Forall (fun r => b <= r) u.
Proof.
  induction rs as [|r rs IH]; intros v rest; cbn [spin]; [discriminate|]. destruct (b <=? r) eqn:E.
  - intros H. destruct (IH _ _ H) as (L & u & -> & F). split; [exact L|]. exists (r :: u). split; [reflexivity|]. constructor; [lia|exact F].
  - intros [= -> ->]. split; [lia|]. exists []. split; [reflexivity|constructor].
Qed.
Lemma spin_never b rs : Forall (fun r => b <= r) rs -> spin b rs = NoFuel.
Proof. induction 1 as [|r rs H _ IH]; cbn [spin]; [reflexivity|]. assert (E : (b <=? r) = true) by lia. rewrite E. exact IH. Qed.
Definition bound (range : Z) : Z := RAND_MAX / range * range.
Lemma bound_range range : 0 < range -> 0 <= bound range <= RAND_MAX /\ RAND_MAX < bound range + range.
Proof.
  intros H. unfold bound. pose proof (Z.div_mod RAND_MAX range ltac:(lia)). pose proof (Z.mod_pos_bound RAND_MAX range H). pose proof (Z.div_pos RAND_MAX range ltac:(unfold RAND_MAX; lia) H). nia.
Qed.
Lemma wr z : whole z -> wrapS 64 z = z.
Proof. intros H. apply wrapS_id; [lia|]. unfold inS. exact H. Qed.
Lemma randint_eq min max rs : whole min -> whole max -> min < max -> max - min < 2 ^ 63 ->
  randint min max rs = (do (r, rs) <- spin (bound (max - min)) rs; Ok (wrapS 64 (min + Z.rem r (max - min)), rs)).
Proof.
  unfold whole. intros Hm HM L W. unfold randint. destruct (max <? min) eqn:E; [lia|]. rewrite (wr (max - min)) by (unfold whole; lia). destruct (max - min =? 0) eqn:E2; [lia|].
  rewrite Z.quot_div_nonneg by (unfold RAND_MAX; lia). fold (bound (max - min)). destruct (bound_range (max - min) ltac:(lia)) as [B _]. rewrite (wr (bound _)) by (unfold whole, RAND_MAX in *; lia). reflexivity.
Qed.
Lemma randint_range min max rs v rest : whole min -> whole max -> min < max -> max - min < 2 ^ 63 -> Forall raw rs -> randint min max rs = Ok (v, rest) ->
  min <= v < max /\ exists u, rs = u ++ rest /\ u <> [].
Proof.
  intros Hm HM L W F. rewrite randint_eq by assumption. destruct (spin _ rs) as [[r rest']| | |] eqn:E; try discriminate. cbn [bindr]. intros [= <- <-].
  apply spin_ok in E as (B & u & -> & _). apply Forall_app in F as [_ F]. inversion F as [|? ? Hr _]; subst. unfold raw in Hr. rewrite Z.rem_mod_nonneg by lia.
  pose proof (Z.mod_pos_bound r (max - min) ltac:(lia)). unfold whole in *. rewrite wr by (unfold whole; lia). split; [lia|]. exists (u ++ [r]). split; [rewrite <- app_assoc; reflexivity|]. intros C. apply app_eq_nil in C as [_ C]. discriminate.
Qed.
Lemma randint_one min max r rs : whole min -> whole max -> min < max -> max - min < 2 ^ 63 -> 0 <= r < bound (max - min) ->
  randint min max (r :: rs) = Ok (min + r mod (max - min), rs).
Proof.
  intros Hm HM L W H. rewrite randint_eq by assumption. cbn [spin]. destruct (bound (max - min) <=? r) eqn:E; [lia|]. cbn [bindr]. rewrite Z.rem_mod_nonneg by lia.
  pose proof (Z.mod_pos_bound r (max - min) ltac:(lia)). unfold whole in *. rewrite wr by (unfold whole; lia). reflexivity.
Qed.
Lemma randint_skip min max r rs : whole min -> whole max -> min < max -> max - min < 2 ^ 63 -> bound (max - min) <= r ->
  randint min max (r :: rs) = randint min max rs.
Proof. intros Hm HM L W H. rewrite !randint_eq by assumption. cbn [spin]. destruct (bound (max - min) <=? r) eqn:E; [reflexivity|lia]. Qed.
Lemma spin_len b rs : forall v rest, spin b rs = Ok (v, rest) -> (llen rest < llen rs)%nat.
Proof. intros v rest H. apply spin_ok in H as (_ & u & -> & _). rewrite app_length. cbn. lia. Qed.
(** Each value has RAND_MAX / range raw values. *)
Definition raws (range j : Z) : list Z := map (fun k => Z.of_nat k * range + j) (seq 0 (Z.to_nat (RAND_MAX / range))).
Lemma raws_ok min max v : whole min -> whole max -> min < max -> max - min < 2 ^ 63 -> min <= v < max -> let L := raws (max - min) (v - min) in
  NoDup L /\ Forall raw L /\ zlen L = RAND_MAX / (max - min) /\ forall r rs, raw r -> In r L <-> randint min max (r :: rs) = Ok (v, rs).
Proof.
  intros Hm HM L W Hv. cbv zeta. set (g := max - min) in *. assert (G : 0 < g) by lia. destruct (bound_range g G) as [B1 B2]. pose proof (Z.div_pos RAND_MAX g ltac:(unfold RAND_MAX; lia) G) as Q. unfold raws, bound in *. set (q := RAND_MAX / g) in *. split; [|split; [|split]].
  - apply FinFun.Injective_map_NoDup; [|apply seq_NoDup]. intros a b H. nia.
  - apply Forall_forall. intros x Hx. apply in_map_iff in Hx as (k & <- & Hk). apply in_seq in Hk. unfold raw. nia.
  - unfold zlen. rewrite map_length, seq_length. lia.
  - intros r rs Hr. unfold raw in Hr. split.
    + intros I. apply in_map_iff in I as (k & <- & Hk). apply in_seq in Hk. rewrite randint_one; [|assumption..|fold g; unfold bound; fold q; nia].
      fold g. rewrite Z.add_comm, (Z.add_comm (_ * g)), Z.mod_add, Z.mod_small by lia. f_equal. f_equal. lia.
    + intros E. destruct (Z.lt_ge_cases r (q * g)) as [C|C].
      * rewrite randint_one in E; [|assumption..|fold g; unfold bound; fold q; lia]. injection E as E. fold g in E. apply in_map_iff. exists (Z.to_nat (r / g)).
        pose proof (Z.div_mod r g ltac:(lia)). pose proof (Z.div_pos r g ltac:(lia) G). assert (r / g < q) by (apply Z.div_lt_upper_bound; lia). split; [lia|]. apply in_seq. lia.
      * rewrite randint_skip in E; [|assumption..|fold g; unfold bound; fold q; lia]. exfalso. rewrite randint_eq in E by assumption. destruct (spin _ rs) as [[r' rest]| | |] eqn:S; try discriminate. cbn [bindr] in E. injection E as _ ->. apply spin_len in S. lia.
Qed.

(** ** Lists. *)
Lemma zget_in {A} (l : list A) i x : zget l i = Some x -> In x l.
Proof. unfold zget. destruct (_ <? 0); [discriminate|]. apply nth_error_In. Qed.
Lemma zget_lt {A} (l : list A) i x : zget l i = Some x -> 0 <= i < zlen l.
Proof. unfold zget, zlen. destruct (i <? 0) eqn:E; [discriminate|]. intros H. assert (nth_error l (Z.to_nat i) <> None) as N by congruence. apply nth_error_Some in N. lia. Qed.
Lemma zget_some {A} (l : list A) i : 0 <= i < zlen l -> exists x, zget l i = Some x.
Proof. unfold zget, zlen. intros H. destruct (i <? 0) eqn:E; [lia|]. destruct (nth_error l (Z.to_nat i)) eqn:N; [eauto|]. apply nth_error_None in N. lia. Qed.
Lemma choice_ok {A} (l : list A) rs x rest : zlen l < 2 ^ 63 -> Forall raw rs -> choice l rs = Ok (x, rest) -> exists i, zget l i = Some x /\ (exists u, rs = u ++ rest) /\ Forall raw rest.
Proof.
  intros W F. unfold choice. pose proof (zlen_nn l). destruct (zlen l =? 0) eqn:E; [discriminate|]. destruct (randint 0 (zlen l) rs) as [[i r]| | |] eqn:R; try discriminate. cbn [bindr].
  destruct (zget l i) as [y|] eqn:G; [|discriminate]. intros [= -> ->]. apply randint_range in R as (_ & u & -> & _); [|unfold whole; lia|unfold whole; lia|lia|lia|exact F].
  apply Forall_app in F as [_ F]. exists i. split; [exact G|]. split; [exists u; reflexivity|exact F].
Qed.
Lemma choice_reach {A} (l : list A) i x : zget l i = Some x -> zlen l <= RAND_MAX -> exists r, raw r /\ forall rs, choice l (r :: rs) = Ok (x, rs).
Proof.
  intros G W. pose proof (zget_lt l i x G). exists i. split; [unfold raw; lia|]. intros rs. unfold choice. destruct (zlen l =? 0) eqn:E; [lia|].
  unfold RAND_MAX in W. rewrite randint_one; [|unfold whole; lia|unfold whole; lia|lia|lia|].
  - cbn [bindr]. rewrite Z.sub_0_r, Z.mod_small, Z.add_0_l, G by lia. reflexivity.
  - rewrite Z.sub_0_r. unfold bound. assert (1 <= RAND_MAX / zlen l) by (apply Z.div_le_lower_bound; unfold RAND_MAX; lia). nia.
Qed.
Lemma choice_not_exn {A} (l : list A) rs : 0 < zlen l < 2 ^ 63 -> Forall raw rs -> choice l rs = NoFuel \/ exists x rest, choice l rs = Ok (x, rest).
Proof.
  intros W F. unfold choice. destruct (zlen l =? 0) eqn:E; [lia|]. destruct (randint 0 (zlen l) rs) as [[i r]| | |] eqn:R; cbn [bindr]; auto.
  - apply randint_range in R as (B & _); [|unfold whole; lia|unfold whole; lia|lia|lia|exact F]. destruct (zget_some l i B) as [x ->]. right. eauto.
  - exfalso. rewrite randint_eq in R by (unfold whole; lia). clear -R. destruct (spin _ rs) as [[? ?]|e0| |] eqn:S; cbn [bindr] in R; try discriminate. clear R. induction rs as [|y rs IH]; cbn [spin] in S; [discriminate|]. destruct (_ <=? y); [auto|discriminate].
  - exfalso. rewrite randint_eq in R by (unfold whole; lia). clear -R. destruct (spin _ rs) as [[? ?]|e0| |] eqn:S; cbn [bindr] in R; try discriminate. clear R. induction rs as [|y rs IH]; cbn [spin] in S; [discriminate|]. destruct (_ <=? y); [auto|discriminate].
Qed.
Lemma choices_ok {A} (l : list A) n : zlen l < 2 ^ 63 -> forall rs cs rest, Forall raw rs -> choices n l rs = Ok (cs, rest) -> llen cs = n /\ Forall (fun c => In c l) cs /\ Forall raw rest.
Proof.
  intros W. induction n as [|n IH]; intros rs cs rest F; cbn [choices]; [intros [= <- <-]; auto|].
  destruct (choice l rs) as [[c r]| | |] eqn:E; try discriminate. cbn [bindr]. destruct (choices n l r) as [[cs' r']| | |] eqn:E2; try discriminate. cbn [bindr]. intros [= <- <-].
  destruct (choice_ok l rs c r W F E) as (i & G & _ & F2). destruct (IH _ _ _ F2 E2) as (L & In2 & F3). split; [cbn; lia|]. split; [constructor; [apply (zget_in _ _ _ G)|exact In2]|exact F3].
Qed.
Lemma in_zget {A} (l : list A) x : In x l -> exists i, zget l i = Some x.
Proof. intros H. apply In_nth_error in H as [n H]. exists (Z.of_nat n). unfold zget. destruct (Z.of_nat n <? 0) eqn:E; [lia|]. rewrite Nat2Z.id. exact H. Qed.
Lemma choices_reach {A} (l : list A) cs : zlen l <= RAND_MAX -> Forall (fun c => In c l) cs -> exists us, Forall raw us /\ forall rs, choices (llen cs) l (us ++ rs) = Ok (cs, rs).
Proof.
  intros W. induction 1 as [|c cs H _ (us & F & IH)]; [exists []; split; [constructor|reflexivity]|]. destruct (in_zget _ _ H) as [i G]. destruct (choice_reach l i c G W) as (r & Hr & E).
  exists (r :: us). split; [constructor; assumption|]. intros rs. cbn [app llen choices]. rewrite E. cbn [bindr]. rewrite IH. reflexivity.
Qed.

(** ** Samples. *)
Lemma place_ok x l : forall i, In x l -> exists a b, l = a ++ x :: b /\ ~ In x a /\ place x l i = i + Z.of_nat (llen a).
Proof.
  induction l as [|y l IH]; intros i H; [destruct H|]. cbn [place]. destruct (y =? x) eqn:E.
  - exists [], l. assert (y = x) by lia. subst. split; [reflexivity|]. split; [auto|]. cbn. lia.
  - destruct H as [C|H]; [lia|]. destruct (IH (i + 1) H) as (a & b & -> & N & ->). exists (y :: a), b. split; [reflexivity|]. split; [intros [C|C]; [lia|auto]|]. cbn [llen]. lia.
Qed.
Lemma removed x l : In x l -> let i := Z.to_nat (place x l 0) in exists a b, l = a ++ x :: b /\ firstn i l ++ skipn (S i) l = a ++ b.
Proof.
  intros H. destruct (place_ok x l 0 H) as (a & b & E & _ & P). cbv zeta. rewrite P. exists a, b. split; [exact E|]. replace (Z.to_nat (0 + Z.of_nat (llen a))) with (llen a) by lia. rewrite E.
  rewrite firstn_app, firstn_all, Nat.sub_diag, firstn_O, app_nil_r. f_equal. rewrite skipn_app. rewrite skipn_all2 by lia. replace (S (llen a) - llen a)%nat with 1%nat by lia. reflexivity.
Qed.
Lemma sample_loop_ok {A} (pop : list A) k : forall ix rs vs rest, zlen ix < 2 ^ 63 -> NoDup ix -> Forall raw rs -> sample_loop pop k ix rs = Ok (vs, rest) ->
  exists ps, NoDup ps /\ llen ps = k /\ incl ps ix /\ Forall2 (fun p v => zget pop p = Some v) ps vs.
Proof.
  induction k as [|k IH]; intros ix rs vs rest W D F; cbn [sample_loop].
  - intros [= <- <-]. exists []. repeat split; try constructor. intros x [].
  - destruct (choice ix rs) as [[x r]| | |] eqn:E; try discriminate. cbn [bindr]. destruct (zget pop x) as [v|] eqn:G; [|discriminate].
    destruct (choice_ok ix rs x r W F E) as (i & Gi & _ & F2). apply zget_in in Gi. destruct (removed x ix Gi) as (a & b & -> & ->). destruct (sample_loop pop k (a ++ b) r) as [[vs' r']| | |] eqn:E2; try discriminate. cbn [bindr]. intros [= <- <-].
    assert (W2 : zlen (a ++ b) < 2 ^ 63) by (rewrite zlen_app in *; rewrite zlen_cons in W; lia). pose proof (NoDup_remove _ _ _ D) as [D2 N].
    destruct (IH _ _ _ _ W2 D2 F2 E2) as (ps & Dp & L & I & H2). exists (x :: ps). split; [constructor; [intros C; apply N; apply I; exact C|exact Dp]|]. split; [cbn; lia|]. split; [|constructor; assumption].
    intros y [<-|Hy]; [apply in_elt|]. apply I in Hy. apply in_app_or in Hy. apply in_or_app. cbn. tauto.
Qed.
Lemma sample_loop_reach {A} (pop : list A) ps : forall ix vs, zlen ix <= RAND_MAX -> NoDup ps -> incl ps ix -> Forall2 (fun p v => zget pop p = Some v) ps vs ->
  exists us, Forall raw us /\ forall rs, sample_loop pop (llen ps) ix (us ++ rs) = Ok (vs, rs).
Proof.
  induction ps as [|p ps IH]; intros ix vs W D I H; inversion H as [|? v ? vs' G H2]; subst; [exists []; split; [constructor|reflexivity]|].
  inversion D as [|? ? N D2]; subst. assert (Hp : In p ix) by (apply I; left; reflexivity). destruct (removed p ix Hp) as (a & b & E & R). destruct (in_zget _ _ Hp) as [i Gi]. destruct (choice_reach ix i p Gi W) as (r & Hr & C).
  assert (W2 : zlen (a ++ b) <= RAND_MAX) by (subst ix; rewrite zlen_app in *; rewrite zlen_cons in W; lia).
  assert (I2 : incl ps (a ++ b)). { intros y Hy. assert (Iy : In y ix) by (apply I; right; exact Hy). subst ix. apply in_app_or in Iy. apply in_or_app. cbn in Iy. destruct Iy as [Iy|[<-|Iy]]; auto. contradiction. }
  destruct (IH (a ++ b) vs' W2 D2 I2 H2) as (us & F & E2). exists (r :: us). split; [constructor; assumption|]. intros rs. cbn [app llen sample_loop]. rewrite C. cbn [bindr]. rewrite G, R, E2. reflexivity.
Qed.
Lemma indices_ok {A} (l : list A) : let ix := map Z.of_nat (seq 0 (llen l)) in NoDup ix /\ zlen ix = zlen l /\ forall i, In i ix <-> 0 <= i < zlen l.
Proof.
  cbv zeta. split; [apply FinFun.Injective_map_NoDup; [intros a b H; lia|apply seq_NoDup]|]. split; [unfold zlen; rewrite map_length, seq_length; reflexivity|].
  intros i. rewrite in_map_iff. unfold zlen. split; [intros (k & <- & H); apply in_seq in H; lia|]. intros H. exists (Z.to_nat i). split; [lia|apply in_seq; lia].
Qed.
Lemma rand_ints_ok size n : 0 < size < 2 ^ 62 -> forall rs xs rest, Forall raw rs -> rand_ints n size rs = Ok (xs, rest) -> llen xs = n /\ Forall (fun x => - size <= x < size) xs.
Proof.
  intros H. induction n as [|n IH]; intros rs xs rest F; cbn [rand_ints]; [intros [= <- <-]; auto|]. rewrite wr by (unfold whole; lia).
  destruct (randint (- size) size rs) as [[x r]| | |] eqn:E; try discriminate. cbn [bindr]. destruct (rand_ints n size r) as [[xs' r']| | |] eqn:E2; try discriminate. cbn [bindr]. intros [= <- <-].
  apply randint_range in E as (B & u & -> & _); [|unfold whole; lia|unfold whole; lia|lia|lia|exact F]. apply Forall_app in F as [_ F]. destruct (IH _ _ _ F E2) as [L G]. split; [cbn; lia|constructor; assumption].
Qed.
(** ** Big integers. *)
Lemma digits_value ds : Forall (fun c => In c (map (fun c => [c]) (lit "0123456789"))) ds -> ds <> [] -> exists v, numeral 10 (List.concat ds) v /\ 0 <= v < 10 ^ zlen ds /\ zlen (List.concat ds) = zlen ds /\ Forall (fun c => 48 <= c <= 57) (List.concat ds).
Proof.
  intros F N. assert (G : zlen (List.concat ds) = zlen ds /\ Forall (fun c => 48 <= c <= 57) (List.concat ds)).
  { clear N. induction F as [|d ds H _ [L IH]]; [split; [reflexivity|constructor]|]. apply in_map_iff in H as (c & <- & Hc). assert (48 <= c <= 57) by (cbn in Hc; lia). cbn [List.concat app]. rewrite !zlen_cons, L. split; [reflexivity|constructor; assumption]. }
  destruct G as [L G]. set (t := List.concat ds) in *. assert (Nt : t <> []) by (intros C; rewrite C in L; destruct ds; [congruence|rewrite zlen_cons, zlen_nil in L; pose proof (zlen_nn ds); lia]).
  clearbody t. clear F N. rewrite <- L. clear L. exists (dv 10 t). assert (B : below 10 t) by (eapply Forall_impl; [|exact G]; cbn; intros c Hc; unfold digvalue; repeat match goal with |- context [if ?b then _ else _] => destruct b eqn:? end; lia).
  split; [apply numeral_iff; [lia|auto]|]. split; [apply dval_bound; [lia|exact B]|]. split; [reflexivity|exact G].
Qed.

(** Literals: proofs. *)
From Coq Require Import List ZArith Bool Lia ZifyBool.
From Verif Require Import S_Lit M_Lit.
Import ListNotations.
Open Scope Z_scope.

(** ** Digits. *)
Lemma digit_hex : forall c, hex_digit c = true -> 0 <= digit c < 16.
Proof. intros c H. unfold hex_digit, dec_digit in H. unfold digit. destruct (Z.leb_spec c 57); [lia|]. destruct (Z.leb_spec c 70); lia. Qed.
Lemma digit_dec : forall c, dec_digit c = true -> 0 <= digit c < 10.
Proof. intros c H. unfold dec_digit in H. unfold digit. destruct (Z.leb_spec c 57); lia. Qed.
Lemma oct_dec : forall c, oct_digit c = true -> dec_digit c = true.
Proof. intros c H. unfold oct_digit, dec_digit in *. lia. Qed.
Lemma digit_oct : forall c, oct_digit c = true -> 0 <= digit c < 8.
Proof. intros c H. unfold oct_digit in H. unfold digit. destruct (Z.leb_spec c 57); lia. Qed.
Lemma number_hex2 : forall a b, hex_digit a = true -> hex_digit b = true -> 0 <= number 16 [a; b] < 256.
Proof. intros a b A B. apply digit_hex in A, B. unfold number. cbn [fold_left]. lia. Qed.
Lemma number_oct : forall ds, forallb oct_digit ds = true -> 0 <= number 8 ds.
Proof.
  intros ds. unfold number. assert (G : forall a, 0 <= a -> forallb oct_digit ds = true -> 0 <= fold_left (fun n d => 8 * n + digit d) ds a); [|intro H; apply G; [lia|exact H]].
  induction ds as [|d ds IH]; intros a A H; cbn [fold_left]; [exact A|]. cbn [forallb] in H. apply andb_prop in H. destruct H as [D H]. apply digit_oct in D. apply IH; [lia|exact H].
Qed.
Lemma number_dec3 : forall ds, forallb dec_digit ds = true -> (length ds <= 3)%nat -> number 10 ds <= 1114111.
Proof.
  intros [|a [|b [|c [|d ds]]]] H L; cbn [forallb] in H; cbn [length] in L; try lia; unfold number; cbn [fold_left]; try lia;
    repeat match goal with H : _ && _ = true |- _ => apply andb_prop in H; destruct H end;
    repeat match goal with H : dec_digit _ = true |- _ => apply digit_dec in H end; lia.
Qed.
Lemma forallb_imp : forall (p q : Z -> bool) l, (forall c, p c = true -> q c = true) -> forallb p l = true -> forallb q l = true.
Proof. intros p q l H. induction l as [|a l IH]; [reflexivity|]. cbn [forallb]. intro G. apply andb_prop in G. destruct G as [G1 G2]. rewrite (H _ G1), (IH G2). reflexivity. Qed.

Lemma take_all : forall p k ds s, forallb p ds = true -> (length ds <= k)%nat -> ((length ds < k)%nat -> hd_is p s = false) -> take k p (ds ++ s) = (ds, s).
Proof.
  intros p. induction k as [|k IH]; intros ds s F L H.
  - destruct ds; [reflexivity|cbn in L; lia].
  - destruct ds as [|d ds].
    + cbn [app]. destruct s as [|c s]; [reflexivity|]. cbn [take]. specialize (H ltac:(cbn; lia)). cbn [hd_is] in H. rewrite H. reflexivity.
    + cbn [forallb] in F. apply andb_prop in F. destruct F as [F1 F2]. cbn [app take]. rewrite F1, (IH ds s F2) by (cbn in *; try lia; intros; apply H; lia). reflexivity.
Qed.
Lemma span_all : forall p ds s, forallb p ds = true -> hd_is p s = false -> span p (ds ++ s) = (ds, s).
Proof.
  intros p. induction ds as [|d ds IH]; intros s F H.
  - cbn [app]. destruct s as [|c s]; [reflexivity|]. cbn [span]. cbn [hd_is] in H. rewrite H. reflexivity.
  - cbn [forallb] in F. apply andb_prop in F. destruct F as [F1 F2]. cbn [app span]. rewrite F1, (IH s F2 H). reflexivity.
Qed.
Lemma simple_cases : forall c x, simple c = Some x -> In (c, x) [(39, 39); (34, 34); (92, 92); (97, 7); (98, 8); (102, 12); (110, 10); (114, 13); (116, 9); (118, 11)].
Proof.
  intros c x H. unfold simple in H. cbn [In].
  repeat (match type of H with context [if ?a =? ?b then _ else _] => destruct (Z.eqb_spec a b) as [->|?]; [injection H as <-; tauto|] end). discriminate H.
Qed.
Lemma simple_single : forall c, simple c <> None -> single c = true /\ c <> 120 /\ c <> 117 /\ c <> 85 /\ oct_digit c = false /\ dec_digit c = false /\ c <> 10 /\ hex_digit 92 = false.
Proof.
  intros c H. destruct (simple c) as [x|] eqn:E; [|exfalso; apply H; reflexivity]. apply simple_cases in E. cbn [In] in E.
  repeat match goal with H : _ \/ _ |- _ => destruct H as [E|E] end; try (injection E as <- <-; repeat split; try discriminate; reflexivity); destruct E.
Qed.
Lemma simple_val : forall c x, simple c = Some x -> 0 < x < 128.
Proof.
  intros c x E. apply simple_cases in E. cbn [In] in E.
  repeat match goal with H : _ \/ _ |- _ => destruct H as [E|E] end; try (injection E as <- <-; lia); destruct E.
Qed.

(** ** The text for C in units. *)
Inductive unit_ := UC (c : Z) | US (c : Z) | UX (a b : Z) | UO (ds : list Z) | U4 (ds : list Z) | U8 (ds : list Z).
Definition rend (u : unit_) : list Z :=
  match u with UC c => [c] | US c => [92; c] | UX a b => [92; 120; a; b] | UO ds => 92 :: ds | U4 ds => 92 :: 117 :: ds | U8 ds => 92 :: 85 :: ds end.
Definition rends (us : list unit_) : list Z := flat_map rend us.
Definition ok (u : unit_) : Prop :=
  match u with
  | UC c => c <> 92 /\ c <> 10 /\ c <> 13
  | US c => simple c <> None
  | UX a b => hex_digit a = true /\ hex_digit b = true
  | UO ds => forallb oct_digit ds = true /\ (1 <= length ds <= 3)%nat /\ number 8 ds < 256
  | U4 ds => forallb hex_digit ds = true /\ length ds = 4%nat /\ ucn (number 16 ds)
  | U8 ds => forallb hex_digit ds = true /\ length ds = 8%nat /\ ucn (number 16 ds)
  end.
Definition bytes (u : unit_) : list Z :=
  match u with
  | UC c => utf8 c
  | US c => match simple c with Some x => [x] | None => [] end
  | UX a b => [number 16 [a; b]]
  | UO ds => [number 8 ds]
  | U4 ds | U8 ds => utf8 (number 16 ds)
  end.
Definition not_x (us : list unit_) : Prop := match us with UX _ _ :: _ => False | _ => True end.
Fixpoint good (us : list unit_) : Prop :=
  match us with
  | [] => True
  | u :: us =>
      ok u /\
      match u with
      | UO ds => (length ds < 3)%nat -> hd_is oct_digit (rends us) = false
      | US c => c = 92 -> not_x us
      | _ => True
      end /\ good us
  end.
Lemma rends_app : forall a b, rends (a ++ b) = rends a ++ rends b.
Proof. intros a b. unfold rends. apply flat_map_app. Qed.
Lemma rends_cons : forall u us, rends (u :: us) = rend u ++ rends us.
Proof. reflexivity. Qed.
Lemma rend_cons : forall u, exists c l, rend u = c :: l.
Proof. intros []; cbn; eauto. Qed.
Lemma hd_app : forall p a b, hd_is p (a ++ b) = match a with [] => hd_is p b | c :: _ => p c end.
Proof. intros p [|c a] b; reflexivity. Qed.
Lemma good_app : forall a b, good (a ++ b) -> good a /\ good b.
Proof.
  induction a as [|u a IH]; intros b H; [split; [exact I|exact H]|]. cbn [app good] in *. destruct H as (H1 & H2 & H3). destruct (IH b H3) as [G1 G2]. split; [|exact G2].
  split; [exact H1|]. split; [|exact G1]. destruct u; auto.
  - intro C. specialize (H2 C). destruct a as [|u a]; [exact I|exact H2].
  - intro C. specialize (H2 C). destruct a as [|u a]; [reflexivity|]. cbn [app] in H2. rewrite rends_cons in *. destruct (rend_cons u) as (c & l & E). rewrite E in *. exact H2.
Qed.

(** A hexadecimal escape is not followed by a digit. *)
Fixpoint sepc (us : list unit_) (nxt : list Z) : Prop :=
  match us with
  | [] => True
  | u :: us => match u with UX _ _ => hd_is hex_digit (rends us ++ nxt) = false | _ => True end /\ sepc us nxt
  end.
Lemma sepc_app : forall a b nxt, sepc (a ++ b) nxt <-> sepc a (rends b ++ nxt) /\ sepc b nxt.
Proof.
  induction a as [|u a IH]; intros b nxt; cbn [app sepc]; [tauto|]. rewrite IH, rends_app, <- app_assoc. tauto.
Qed.
Lemma sepc_hd : forall us n1 n2, hd_is hex_digit n1 = hd_is hex_digit n2 -> sepc us n1 -> sepc us n2.
Proof.
  induction us as [|u us IH]; intros n1 n2 H S1; [exact I|]. cbn [sepc] in *. destruct S1 as [S1 S2]. split; [|eapply IH; eassumption].
  destruct u; auto. rewrite hd_app in *. destruct (rends us); [rewrite <- H; exact S1|exact S1].
Qed.

(** ** Splitting. *)
Lemma process_skip : forall l s acc ch, Forall (fun c => c <> 92) l -> process (l ++ s) acc ch = process s (rev l ++ acc) ch.
Proof.
  induction l as [|c l IH]; intros s acc ch F; [reflexivity|]. inversion F as [|? ? C F1]; subst. cbn [app rev]. rewrite <- app_assoc. cbn [app].
  rewrite <- IH by exact F1. cbn [process]. destruct (l ++ s) as [|b s2]; [reflexivity|]. replace (c =? 92) with false by lia. reflexivity.
Qed.
Lemma process_esc : forall b s acc ch, b <> 120 -> process (92 :: b :: s) acc ch = process (b :: s) (92 :: acc) ch.
Proof. intros b s acc ch H. cbn [process]. replace (b =? 120) with false by lia. cbn [andb]. rewrite andb_false_r. reflexivity. Qed.
Lemma oct_not : forall ds, forallb oct_digit ds = true -> Forall (fun c => c <> 92 /\ c <> 120 /\ c <> 34) ds.
Proof.
  induction ds as [|d ds IH]; intro H; [constructor|]. cbn [forallb] in H. apply andb_prop in H. destruct H as [H1 H2]. constructor; [|apply IH, H2]. unfold oct_digit in H1. lia.
Qed.
Lemma hex_not : forall ds, forallb hex_digit ds = true -> Forall (fun c => c <> 92 /\ c <> 120 /\ c <> 34) ds.
Proof.
  induction ds as [|d ds IH]; intro H; [constructor|]. cbn [forallb] in H. apply andb_prop in H. destruct H as [H1 H2]. constructor; [|apply IH, H2]. unfold hex_digit, dec_digit in H1. lia.
Qed.
Lemma not_92 : forall ds, Forall (fun c => c <> 92 /\ c <> 120 /\ c <> 34) ds -> Forall (fun c => c <> 92) ds.
Proof. intros ds H. eapply Forall_impl; [|exact H]. cbn. tauto. Qed.
Definition plain_rend (u : unit_) : Prop := match u with UX _ _ => False | US c => c <> 92 | _ => True end.
(** All units but hexadecimal escapes and escaped backslashes are passed over. *)
Lemma process_plain : forall u s acc ch, ok u -> plain_rend u -> process (rend u ++ s) acc ch = process s (rev (rend u) ++ acc) ch.
Proof.
  intros u s acc ch O P. destruct u as [c|c|a b|ds|ds|ds]; cbn [plain_rend ok] in *; try contradiction.
  - destruct O as (C & _). apply process_skip. repeat constructor. exact C.
  - cbn [rend app]. destruct (simple_single c O) as (_ & X & _). rewrite process_esc by exact X. apply (process_skip [c]). repeat constructor. exact P.
  - destruct O as (O & L & _). destruct ds as [|d ds]; [cbn in L; lia|]. pose proof (oct_not _ O) as N. cbn [rend app]. rewrite process_esc by (inversion N; lia).
    change (d :: ds ++ s) with ((d :: ds) ++ s). rewrite process_skip by (apply not_92, N). cbn [rev]. rewrite <- !app_assoc. reflexivity.
  - destruct O as (O & L & _). cbn [rend app]. rewrite process_esc by lia. change (117 :: ds ++ s) with ((117 :: ds) ++ s).
    rewrite process_skip by (constructor; [lia|apply not_92, hex_not, O]). cbn [rev]. rewrite <- !app_assoc. reflexivity.
  - destruct O as (O & L & _). cbn [rend app]. rewrite process_esc by lia. change (85 :: ds ++ s) with ((85 :: ds) ++ s).
    rewrite process_skip by (constructor; [lia|apply not_92, hex_not, O]). cbn [rev]. rewrite <- !app_assoc. reflexivity.
Qed.
Lemma starts : forall us c s, rends us = c :: s -> c <> 92 -> exists us', us = UC c :: us' /\ s = rends us'.
Proof.
  intros [|u us] c s E C; [discriminate E|]. destruct u; cbn in E; injection E as E1 E2; try congruence. subst. eauto.
Qed.
Lemma rev_rends_snoc : forall us u acc, rev (rend u) ++ rev (rends us) ++ acc = rev (rends (us ++ [u])) ++ acc.
Proof. intros us u acc. rewrite rends_app, rev_app_distr. cbn [rends flat_map]. rewrite app_nil_r, app_assoc. reflexivity. Qed.
Lemma process_units : forall n us ua ch, (length us <= n)%nat -> good us -> sepc ua (rends us) ->
  exists uss, rev (map (@rev Z) (process (rends us) (rev (rends ua)) ch)) = rev (map (@rev Z) ch) ++ map rends uss /\ concat uss = ua ++ us /\ Forall (fun u => sepc u []) uss.
Proof.
  induction n as [|n IH]; intros us ua ch L G S1.
  - destruct us; [|cbn in L; lia]. exists [ua]. cbn [rends flat_map process map rev concat]. rewrite !rev_involutive. split; [reflexivity|]. split; [reflexivity|]. constructor; [exact S1|constructor].
  - destruct us as [|u us]; [apply (IH [] ua ch); [cbn; lia|exact G|exact S1]|].
    cbn [length] in L. cbn [good] in G. destruct G as (O & X & G).
    assert (next : forall ua', sepc ua' (rends us) -> forall acc, acc = rev (rends ua') -> forall ch, exists uss,
      rev (map (@rev Z) (process (rends us) acc ch)) = rev (map (@rev Z) ch) ++ map rends uss /\ concat uss = ua' ++ us /\ Forall (fun u => sepc u []) uss).
    { intros ua' S2 acc -> ch'. apply IH; [lia|exact G|exact S2]. }
    assert (plain : plain_rend u -> exists uss, rev (map (@rev Z) (process (rends (u :: us)) (rev (rends ua)) ch)) = rev (map (@rev Z) ch) ++ map rends uss /\ concat uss = ua ++ u :: us /\ Forall (fun u => sepc u []) uss).
    { intro P. rewrite rends_cons, process_plain by assumption. destruct (next (ua ++ [u])) with (acc := rev (rend u) ++ rev (rends ua)) (ch := ch) as (uss & E1 & E2 & E3).
      - apply sepc_app. split; [|destruct u; cbn; auto; contradiction]. change (rends [u]) with (rend u ++ []). rewrite app_nil_r. exact S1.
      - pose proof (rev_rends_snoc ua u []) as R. rewrite !app_nil_r in R. exact R.
      - exists uss. rewrite <- app_assoc in E2. auto. }
    destruct u as [c|c|a b|ds|ds|ds]; try (apply plain; exact I).
    + destruct (Z.eq_dec c 92) as [->|C]; [|apply plain; exact C]. clear plain.
      change (rends (US 92 :: us)) with (92 :: 92 :: rends us). rewrite process_esc by lia.
      assert (A1 : sepc (ua ++ [US 92]) (rends us)).
      { apply sepc_app. split; [|cbn; auto]. eapply sepc_hd; [|exact S1]. reflexivity. }
      assert (P1 : rev (rends (ua ++ [US 92])) = 92 :: 92 :: rev (rends ua)) by (rewrite rends_app, rev_app_distr; reflexivity).
      assert (easy : exists uss, rev (map (@rev Z) (process (rends us) (92 :: 92 :: rev (rends ua)) ch)) = rev (map (@rev Z) ch) ++ map rends uss /\ concat uss = ua ++ US 92 :: us /\ Forall (fun u => sepc u []) uss).
      { destruct (next _ A1 _ (eq_sym P1) ch) as (uss & E1 & E2 & E3). exists uss. rewrite <- app_assoc in E2. auto. }
      destruct (rends us) as [|b s2] eqn:E; [exact easy|]. destruct (Z.eq_dec b 120) as [->|B].
      2: { rewrite process_esc by exact B. exact easy. }
      destruct (starts us 120 s2 E ltac:(lia)) as (us1 & -> & ->). destruct (rends us1) as [|h1 s3] eqn:E1; [exact easy|]. destruct s3 as [|h2 s4]; [exact easy|].
      cbn [process]. change ((92 =? 92) && (120 =? 120)) with true. cbv iota. cbn [good] in G. destruct G as (_ & _ & G1).
      destruct (hex_digit h1 && hex_digit h2) eqn:H.
      * apply andb_prop in H. destruct H as [H1 H2]. destruct (starts us1 h1 (h2 :: s4) E1) as (us2 & -> & E2); [intros ->; discriminate H1|].
        destruct (starts us2 h2 s4 (eq_sym E2)) as (us3 & -> & ->); [intros ->; discriminate H2|]. cbn [good] in G1. destruct G1 as (_ & _ & _ & _ & G3). cbn [length] in L.
        assert (P2 : rev (rends (ua ++ [US 92; UC 120; UC h1; UC h2])) = h2 :: h1 :: 120 :: 92 :: 92 :: rev (rends ua)) by (rewrite rends_app, rev_app_distr; reflexivity).
        assert (A2 : forall nx, sepc (ua ++ [US 92; UC 120; UC h1; UC h2]) nx).
        { intro nx. apply sepc_app. split; [|cbn; auto]. eapply sepc_hd; [|exact S1]. reflexivity. }
        destruct (hd_is hex_digit (rends us3)) eqn:HD.
        -- destruct (IH us3 [] ((h2 :: h1 :: 120 :: 92 :: 92 :: rev (rends ua)) :: ch)) as (uss & F1 & F2 & F3); [lia|exact G3|exact I|]. cbn [rends flat_map rev] in F1.
           exists ((ua ++ [US 92; UC 120; UC h1; UC h2]) :: uss). split; [|split].
           ++ change (flat_map rend) with rends in F1. etransitivity; [exact F1|]. change (map (@rev Z) ((h2 :: h1 :: 120 :: 92 :: 92 :: rev (rends ua)) :: ch)) with (rev (h2 :: h1 :: 120 :: 92 :: 92 :: rev (rends ua)) :: map (@rev Z) ch).
              rewrite <- P2, rev_involutive. cbn [map rev]. rewrite <- app_assoc. reflexivity.
           ++ cbn [concat]. rewrite F2. cbn [app]. rewrite <- app_assoc. reflexivity.
           ++ constructor; [apply A2|exact F3].
        -- destruct (IH us3 (ua ++ [US 92; UC 120; UC h1; UC h2]) ch) as (uss & F1 & F2 & F3); [lia|exact G3|apply A2|]. rewrite P2 in F1. exists uss. split; [exact F1|]. split; [|exact F3].
           rewrite F2, <- app_assoc. reflexivity.
      * destruct (IH us1 (ua ++ [US 92; UC 120]) ch) as (uss & F1 & F2 & F3); [cbn [length] in L; lia|exact G1| |].
        -- apply sepc_app. split; [|cbn; auto]. eapply sepc_hd; [|exact S1]. reflexivity.
        -- exists uss. rewrite E1 in F1. replace (rev (rends (ua ++ [US 92; UC 120]))) with (120 :: 92 :: 92 :: rev (rends ua)) in F1 by (rewrite rends_app, rev_app_distr; reflexivity).
           split; [exact F1|]. split; [|exact F3]. rewrite F2, <- app_assoc. reflexivity.
    + clear plain. destruct O as [Ha Hb]. change (rends (UX a b :: us)) with (92 :: 120 :: a :: b :: rends us) in *. cbn [process]. change ((92 =? 92) && (120 =? 120)) with true. cbv iota. rewrite Ha, Hb. cbn [andb].
      assert (P2 : rev (rends (ua ++ [UX a b])) = b :: a :: 120 :: 92 :: rev (rends ua)) by (rewrite rends_app, rev_app_distr; reflexivity).
      destruct (hd_is hex_digit (rends us)) eqn:HD.
      * destruct (IH us [] ((b :: a :: 120 :: 92 :: rev (rends ua)) :: ch)) as (uss & F1 & F2 & F3); [lia|exact G|exact I|].
        exists ((ua ++ [UX a b]) :: uss). split; [|split].
        -- etransitivity; [exact F1|]. change (map (@rev Z) ((b :: a :: 120 :: 92 :: rev (rends ua)) :: ch)) with (rev (b :: a :: 120 :: 92 :: rev (rends ua)) :: map (@rev Z) ch).
           rewrite <- P2, rev_involutive. cbn [map rev]. rewrite <- app_assoc. reflexivity.
        -- cbn [concat]. rewrite F2. cbn [app]. rewrite <- app_assoc. reflexivity.
        -- constructor; [|exact F3]. apply sepc_app. split; [|cbn; auto]. eapply sepc_hd; [|exact S1]. reflexivity.
      * destruct (next (ua ++ [UX a b])) with (acc := b :: a :: 120 :: 92 :: rev (rends ua)) (ch := ch) as (uss & E1 & E2 & E3).
        -- apply sepc_app. split; [eapply sepc_hd; [|exact S1]; reflexivity|]. cbn. auto.
        -- symmetry. exact P2.
        -- exists uss. rewrite <- app_assoc in E2. auto.
Qed.

Lemma has_skip : forall l s, Forall (fun c => c <> 92) l -> has_hex (l ++ s) = has_hex s.
Proof.
  induction l as [|c l IH]; intros s F; [reflexivity|]. inversion F as [|? ? C F1]; subst. cbn [app has_hex]. replace (c =? 92) with false by lia. apply IH, F1.
Qed.
Lemma has_esc : forall b s, b <> 120 -> b <> 92 -> has_hex (92 :: b :: s) = has_hex (b :: s).
Proof. intros b s H G. cbn [has_hex]. replace (b =? 92) with false by lia. replace (b =? 120) with false by lia. reflexivity. Qed.
Definition no_x (u : unit_) : Prop := match u with UX _ _ => False | _ => True end.
Lemma has_units : forall n us, (length us <= n)%nat -> good us -> has_hex (rends us) = false -> Forall no_x us.
Proof.
  induction n as [|n IH]; intros us L G H.
  - destruct us; [constructor|cbn in L; lia].
  - destruct us as [|u us]; [constructor|]. cbn [length] in L. cbn [good] in G. destruct G as (O & X & G).
    assert (K : has_hex (rends us) = false -> no_x u -> Forall no_x (u :: us)) by (intros K1 K2; constructor; [exact K2|apply IH; [lia|exact G|exact K1]]).
    destruct u as [c|c|a b|ds|ds|ds]; cbn [ok] in O.
    + apply K; [|exact I]. rewrite <- H. symmetry. apply (has_skip [c]). repeat constructor. tauto.
    + destruct (Z.eq_dec c 92) as [->|C].
      2: { apply K; [|exact I]. rewrite <- H. symmetry. change (rends (US c :: us)) with (92 :: c :: rends us). destruct (simple_single c O) as (_ & Y & _).
           rewrite has_esc by assumption. apply (has_skip [c]). repeat constructor. exact C. }
      change (rends (US 92 :: us)) with (92 :: 92 :: rends us) in H. specialize (X eq_refl).
      assert (M : has_hex (92 :: rends us) = has_hex (rends us) \/ exists us1, us = UC 120 :: us1).
      { destruct (rends us) as [|b s2] eqn:E; [left; reflexivity|]. destruct (Z.eq_dec b 120) as [->|B]; [right; destruct (starts us 120 s2 E ltac:(lia)) as (us1 & -> & _); eauto|].
        destruct (Z.eq_dec b 92) as [->|B2]; [|left; apply has_esc; assumption]. left. change (has_hex (92 :: 92 :: s2)) with (match s2 with c :: s3 => if c =? 120 then has_hex s3 else has_hex (92 :: s2) | [] => has_hex (92 :: s2) end).
        destruct s2 as [|c s3]; [reflexivity|]. destruct (Z.eqb_spec c 120) as [->|]; [|reflexivity]. exfalso.
        destruct us as [|u us1]; [discriminate E|]. cbn [good] in G. destruct G as (O1 & _ & _). destruct u as [c|c|a b|ds|ds|ds]; cbn in E; cbn [ok] in O1.
        - injection E as E1 E2. subst. tauto.
        - injection E as E1 E2. subst. exact (proj1 (proj2 (simple_single _ O1)) eq_refl).
        - exact X.
        - destruct O1 as (O1 & L1 & _). destruct ds as [|d ds]; [cbn in L1; lia|]. injection E as E1 E2. subst. discriminate O1.
        - injection E as E1 E2. discriminate E1.
        - injection E as E1 E2. discriminate E1. }
      destruct M as [M|(us1 & ->)].
      * apply K; [|exact I]. rewrite <- M, <- H. destruct (rends us) as [|b s2] eqn:E; [reflexivity|].
        change (has_hex (92 :: 92 :: b :: s2)) with (if b =? 120 then has_hex s2 else has_hex (92 :: b :: s2)). destruct (Z.eqb_spec b 120) as [->|]; [|reflexivity].
        destruct (starts us 120 s2 E ltac:(lia)) as (us1 & -> & ->). rewrite M. reflexivity.
      * apply K; [|exact I]. change (rends (UC 120 :: us1)) with (120 :: rends us1) in *. exact H.
    + exfalso. change (rends (UX a b :: us)) with (92 :: 120 :: a :: b :: rends us) in H. cbn [has_hex] in H. change (92 =? 92) with true in H. change (120 =? 92) with false in H. change (120 =? 120) with true in H. cbv iota in H.
      rewrite (proj1 O), (proj2 O) in H. discriminate H.
    + apply K; [|exact I]. rewrite <- H. symmetry. destruct O as (O & Ln & _). destruct ds as [|d ds]; [cbn in Ln; lia|]. pose proof (oct_not _ O) as N. rewrite rends_cons. cbn [rend app].
      rewrite has_esc by (inversion N; tauto). apply (has_skip (d :: ds)), not_92, N.
    + apply K; [|exact I]. rewrite <- H. symmetry. destruct O as (O & Ln & _). rewrite rends_cons. cbn [rend app]. rewrite has_esc by lia. apply (has_skip (117 :: ds)). constructor; [lia|]. apply not_92, hex_not, O.
    + apply K; [|exact I]. rewrite <- H. symmetry. destruct O as (O & Ln & _). rewrite rends_cons. cbn [rend app]. rewrite has_esc by lia. apply (has_skip (85 :: ds)). constructor; [lia|]. apply not_92, hex_not, O.
Qed.
Lemma sepc_no_x : forall us, Forall no_x us -> sepc us [].
Proof. induction us as [|u us IH]; intro H; [exact I|]. inversion H as [|? ? H1 H2]; subst. split; [destruct u; auto; contradiction|apply IH, H2]. Qed.
Lemma filter_units : forall uss, filter nonempty (map rends uss) = map rends (filter (fun us => match us with [] => false | _ => true end) uss).
Proof.
  induction uss as [|us uss IH]; [reflexivity|]. cbn [map filter]. destruct us as [|u us]; [exact IH|]. rewrite rends_cons. destruct (rend_cons u) as (c & l & E). rewrite E. cbn [app nonempty]. cbn [map]. rewrite rends_cons, E. cbn [app]. rewrite IH. reflexivity.
Qed.
Lemma filter_concat : forall uss : list (list unit_), concat (filter (fun us => match us with [] => false | _ => true end) uss) = concat uss.
Proof. induction uss as [|us uss IH]; [reflexivity|]. cbn [filter concat]. destruct us; [exact IH|]. cbn [concat]. rewrite IH. reflexivity. Qed.
Lemma split_units : forall us, good us -> exists uss, hex_split (rends us) = map rends uss /\ concat uss = us /\ Forall (fun u => sepc u []) uss.
Proof.
  intros us G. unfold hex_split. destruct us as [|u us]; [exists [[]]; repeat split; repeat constructor|].
  assert (E : exists c s, rends (u :: us) = c :: s) by (rewrite rends_cons; destruct (rend_cons u) as (c & l & ->); cbn; eauto). destruct E as (c & s & E). rewrite E, <- E.
  destruct (has_hex (rends (u :: us))) eqn:H.
  - destruct (process_units _ (u :: us) [] [] (le_n _) G I) as (uss & E1 & E2 & E3). cbn [rends flat_map rev map app] in E1. change (flat_map rend) with rends in E1.
    exists (filter (fun us => match us with [] => false | _ => true end) uss). rewrite <- filter_units, filter_concat. split; [|split].
    + f_equal. exact E1.
    + exact E2.
    + apply Forall_forall. intros x X. apply filter_In in X. rewrite Forall_forall in E3. apply E3, X.
  - exists [u :: us]. cbn [map concat]. rewrite app_nil_r. repeat split. constructor; [|constructor]. apply sepc_no_x, (has_units _ _ (le_n _) G H).
Qed.

(** ** Quoting for C. *)
Definition dq (u : unit_) : unit_ := match u with UC c => if c =? 34 then US 34 else UC c | u => u end.
Lemma escape_skip : forall l s, Forall (fun c => c <> 92 /\ c <> 34) l -> escape 34 (l ++ s) = l ++ escape 34 s.
Proof.
  induction l as [|c l IH]; intros s F; [reflexivity|]. inversion F as [|? ? C F1]; subst. cbn [app]. rewrite <- IH by exact F1. cbn [escape].
  replace (c =? 92) with false by lia. replace (c =? 34) with false by lia. destruct (l ++ s); reflexivity.
Qed.
Lemma escape_units : forall us, Forall ok us -> escape 34 (rends us) = rends (map dq us).
Proof.
  induction us as [|u us IH]; intro F; [reflexivity|]. inversion F as [|? ? O F1]; subst. specialize (IH F1). cbn [map]. rewrite !rends_cons, <- IH. destruct u as [c|c|a b|ds|ds|ds]; cbn [ok] in O.
  - cbn [dq]. destruct (Z.eqb_spec c 34) as [->|C].
    + cbn [rend app escape]. change (34 =? 92) with false. change (34 =? 34) with true. cbv iota. destruct (rends us); reflexivity.
    + apply (escape_skip [c]). repeat constructor; tauto.
  - cbn [dq rend app escape]. reflexivity.
  - cbn [dq rend app]. change (escape 34 (92 :: 120 :: a :: b :: rends us)) with (92 :: 120 :: escape 34 ([a; b] ++ rends us)). rewrite escape_skip; [reflexivity|].
    destruct O as [O1 O2]. assert (forallb hex_digit [a; b] = true) as N by (cbn; rewrite O1, O2; reflexivity). apply hex_not in N. eapply Forall_impl; [|exact N]. cbn. tauto.
  - destruct O as (O & L & _). destruct ds as [|d ds]; [cbn in L; lia|]. apply oct_not in O. inversion O as [|? ? D O1]; subst. cbn [dq rend app].
    change (escape 34 (92 :: d :: ds ++ rends us)) with (92 :: d :: escape 34 (ds ++ rends us)). rewrite escape_skip; [reflexivity|]. eapply Forall_impl; [|exact O1]. cbn. tauto.
  - destruct O as (O & L & _). apply hex_not in O. cbn [dq rend app]. change (escape 34 (92 :: 117 :: ds ++ rends us)) with (92 :: 117 :: escape 34 (ds ++ rends us)). rewrite escape_skip; [reflexivity|]. eapply Forall_impl; [|exact O]. cbn. tauto.
  - destruct O as (O & L & _). apply hex_not in O. cbn [dq rend app]. change (escape 34 (92 :: 85 :: ds ++ rends us)) with (92 :: 85 :: escape 34 (ds ++ rends us)). rewrite escape_skip; [reflexivity|]. eapply Forall_impl; [|exact O]. cbn. tauto.
Qed.
Lemma good_ok : forall us, good us -> Forall ok us.
Proof. induction us as [|u us IH]; intro G; [constructor|]. destruct G as (O & _ & G). constructor; [exact O|apply IH, G]. Qed.
Lemma hd_dq : forall p us nxt, p 92 = p 34 -> hd_is p (rends (map dq us) ++ nxt) = hd_is p (rends us ++ nxt).
Proof.
  intros p [|u us] nxt H; [reflexivity|]. cbn [map]. rewrite !rends_cons, <- !app_assoc. destruct u as [c| | | | |]; try reflexivity. cbn [dq]. destruct (Z.eqb_spec c 34) as [->|]; [cbn; exact H|reflexivity].
Qed.

(** ** The C compiler. *)
Lemma ucnb_true : forall x, ucn x -> ucnb x = true.
Proof. intros x H. unfold ucn, ucnb in *. lia. Qed.
Lemma c_units : forall us n, good us -> sepc us [] -> (length (rends (map dq us)) < n)%nat ->
  c_body n (rends (map dq us) ++ [34]) = Some (flat_map bytes us).
Proof.
  induction us as [|u us IH]; intros n G S1 N; destruct n as [|n]; try lia; [reflexivity|].
  cbn [good] in G. destruct G as (O & X & G). cbn [sepc] in S1. destruct S1 as (S1 & S2). cbn [map] in *. rewrite rends_cons in *. rewrite app_length in N. rewrite <- app_assoc.
  assert (IH' : forall k, (length (rends (map dq us)) < k)%nat -> c_body k (rends (map dq us) ++ [34]) = Some (flat_map bytes us)) by (intros; apply IH; assumption). clear IH.
  assert (H8 : hd_is oct_digit (rends (map dq us) ++ [34]) = hd_is oct_digit (rends us)).
  { rewrite hd_dq by reflexivity. rewrite hd_app. destruct (rends us); reflexivity. }
  assert (H16 : hd_is hex_digit (rends (map dq us) ++ [34]) = hd_is hex_digit (rends us ++ [])).
  { rewrite hd_dq by reflexivity. rewrite hd_app, app_nil_r. destruct (rends us); reflexivity. }
  set (R := rends (map dq us) ++ [34]) in *. cbn [flat_map].
  destruct u as [c|c|a b|ds|ds|ds]; cbn [ok dq] in *.
  - destruct (Z.eqb_spec c 34) as [->|C].
    + cbn [rend app length] in *. cbn [c_body]. change (92 =? 34) with false. change (92 =? 92) with true. cbv iota. change (c_esc (34 :: R)) with (Some ([34], R)). cbv iota. rewrite IH' by lia. reflexivity.
    + cbn [rend app length] in *. cbn [c_body]. replace (c =? 34) with false by lia. replace (c =? 92) with false by lia. replace ((c =? 10) || (c =? 13)) with false by lia. rewrite IH' by lia. reflexivity.
  - cbn [rend app length] in *. cbn [c_body]. change (92 =? 34) with false. change (92 =? 92) with true. cbv iota. destruct (simple_single c O) as (_ & C1 & C2 & C3 & C4 & _). unfold c_esc.
    replace (c =? 120) with false by lia. rewrite C4. replace ((c =? 117) || (c =? 85)) with false by lia. cbn [bytes]. destruct (simple c) as [x|]; [|contradiction]. rewrite IH' by lia. reflexivity.
  - cbn [rend app length] in *. cbn [c_body]. change (92 =? 34) with false. change (92 =? 92) with true. cbv iota. unfold c_esc. change (120 =? 120) with true. cbv iota. destruct O as [O1 O2].
    change (a :: b :: R) with ([a; b] ++ R). rewrite span_all; [|cbn; rewrite O1, O2; reflexivity|rewrite H16; exact S1]. pose proof (number_hex2 a b O1 O2) as Q. cbn [nonempty andb].
    replace (number 16 [a; b] <? 256) with true by lia. rewrite IH' by lia. reflexivity.
  - destruct O as (O & L & V). cbn [rend app length] in *. destruct ds as [|d ds]; [cbn in L; lia|]. cbn [c_body app]. change (92 =? 34) with false. change (92 =? 92) with true. cbv iota. unfold c_esc.
    pose proof (oct_not _ O) as Nt. inversion Nt as [|? ? D Nt1]; subst. replace (d =? 120) with false by lia. assert (D8 : oct_digit d = true) by (cbn [forallb] in O; apply andb_prop in O; tauto). rewrite D8.
    change (d :: ds ++ R) with ((d :: ds) ++ R). rewrite take_all; [|exact O|lia|intro Q; rewrite H8; apply X, Q]. replace (number 8 (d :: ds) <? 256) with true by lia. rewrite IH' by (cbn [length] in N; lia). reflexivity.
  - destruct O as (O & L & V). cbn [rend app length] in *. cbn [c_body app]. change (92 =? 34) with false. change (92 =? 92) with true. cbv iota. unfold c_esc.
    change (117 =? 120) with false. change (oct_digit 117) with false. change (117 =? 117) with true. change (true || (117 =? 85)) with true. cbv iota. rewrite take_all; [|exact O|lia|intro Q; lia].
    rewrite L. cbn [Nat.eqb andb]. rewrite (ucnb_true _ V). rewrite IH' by lia. reflexivity.
  - destruct O as (O & L & V). cbn [rend app length] in *. cbn [c_body app]. change (92 =? 34) with false. change (92 =? 92) with true. cbv iota. unfold c_esc.
    change (85 =? 120) with false. change (oct_digit 85) with false. change (85 =? 117) with false. change (false || (85 =? 85)) with true. cbv iota zeta. rewrite take_all; [|exact O|lia|intro Q; lia].
    rewrite L. cbn [Nat.eqb andb]. rewrite (ucnb_true _ V). rewrite IH' by lia. reflexivity.
Qed.
Lemma c_chunk : forall us, good us -> sepc us [] -> c_literal (quote (escape 34 (rends us))) = Some (flat_map bytes us).
Proof.
  intros us G S1. rewrite escape_units by (apply good_ok, G). unfold quote, c_literal. apply c_units; [exact G|exact S1|]. rewrite app_length. cbn. lia.
Qed.
Lemma c_all : forall uss, good (concat uss) -> Forall (fun u => sepc u []) uss -> c_literals (cat_strings (map rends uss)) = Some (flat_map bytes (concat uss)).
Proof.
  induction uss as [|us uss IH]; intros G F; [reflexivity|]. inversion F as [|? ? F1 F2]; subst. cbn [concat] in *. apply good_app in G. destruct G as [G1 G2].
  unfold cat_strings in *. cbn [map c_literals]. rewrite c_chunk by assumption. rewrite IH by assumption. rewrite flat_map_app. reflexivity.
Qed.
Lemma c_text : forall us, good us -> c_literals (cat_strings (hex_split (rends us))) = Some (flat_map bytes us).
Proof. intros us G. destruct (split_units us G) as (uss & -> & E & F). rewrite <- E in *. apply c_all; assumption. Qed.

(** ** UTF-8. *)
Lemma decode_utf8 : forall c s, scalar c -> decode (utf8 c ++ s) = match decode s with Some l => Some (c :: l) | None => None end.
Proof.
  intros c s H. unfold scalar in H. unfold utf8. destruct (Z.ltb_spec c 128).
  { cbn [app decode]. replace (c <? 128) with true by lia. reflexivity. }
  destruct (Z.ltb_spec c 2048).
  { cbn [app decode]. pose proof (Z.div_mod c 64 ltac:(lia)). pose proof (Z.mod_pos_bound c 64 ltac:(lia)). set (x := c / 64) in *. set (y := c mod 64) in *.
    replace (192 + x <? 128) with false by lia. replace ((194 <=? 192 + x) && (192 + x <? 224)) with true by lia. unfold tail. replace ((128 <=? 128 + y) && (128 + y <? 192)) with true by lia.
    replace (64 * (192 + x - 192) + (128 + y - 128)) with c by lia. reflexivity. }
  destruct (Z.ltb_spec c 65536).
  { cbn [app decode]. pose proof (Z.div_mod c 64 ltac:(lia)) as D1. pose proof (Z.mod_pos_bound c 64 ltac:(lia)). pose proof (Z.div_mod (c / 64) 64 ltac:(lia)) as D2. pose proof (Z.mod_pos_bound (c / 64) 64 ltac:(lia)).
    rewrite Z.div_div in D2 by lia. change (64 * 64) with 4096 in D2. set (x := c / 4096) in *. set (y := c / 64 mod 64) in *. set (z := c mod 64) in *. set (w := c / 64) in *.
    replace (224 + x <? 128) with false by lia. replace ((194 <=? 224 + x) && (224 + x <? 224)) with false by lia. replace ((224 <=? 224 + x) && (224 + x <? 240)) with true by lia. unfold tail.
    replace ((128 <=? 128 + y) && (128 + y <? 192)) with true by lia. replace ((128 <=? 128 + z) && (128 + z <? 192)) with true by lia.
    replace (4096 * (224 + x - 224) + 64 * (128 + y - 128) + (128 + z - 128)) with c by lia. replace (2048 <=? c) with true by lia. replace ((55296 <=? c) && (c <? 57344)) with false by lia. reflexivity. }
  cbn [app decode]. pose proof (Z.div_mod c 64 ltac:(lia)) as D1. pose proof (Z.mod_pos_bound c 64 ltac:(lia)). pose proof (Z.div_mod (c / 64) 64 ltac:(lia)) as D2. pose proof (Z.mod_pos_bound (c / 64) 64 ltac:(lia)).
  rewrite Z.div_div in D2 by lia. change (64 * 64) with 4096 in D2. pose proof (Z.div_mod (c / 4096) 64 ltac:(lia)) as D3. pose proof (Z.mod_pos_bound (c / 4096) 64 ltac:(lia)).
  rewrite Z.div_div in D3 by lia. change (4096 * 64) with 262144 in D3. set (x := c / 262144) in *. set (t := c / 4096 mod 64) in *. set (u := c / 4096) in *. set (y := c / 64 mod 64) in *. set (z := c mod 64) in *. set (w := c / 64) in *.
  replace (240 + x <? 128) with false by lia. replace ((194 <=? 240 + x) && (240 + x <? 224)) with false by lia. replace ((224 <=? 240 + x) && (240 + x <? 240)) with false by lia. replace ((240 <=? 240 + x) && (240 + x <? 245)) with true by lia. unfold tail.
  replace ((128 <=? 128 + t) && (128 + t <? 192)) with true by lia. replace ((128 <=? 128 + y) && (128 + y <? 192)) with true by lia. replace ((128 <=? 128 + z) && (128 + z <? 192)) with true by lia.
  replace (262144 * (240 + x - 240) + 4096 * (128 + t - 128) + 64 * (128 + y - 128) + (128 + z - 128)) with c by lia. replace (65536 <=? c) with true by lia. replace (c <=? 1114111) with true by lia. reflexivity.
Qed.
Lemma decode_all : forall l, Forall scalar l -> decode (utf8s l) = Some l.
Proof. induction l as [|c l IH]; intro F; [reflexivity|]. inversion F as [|? ? F1 F2]; subst. unfold utf8s. cbn [flat_map]. rewrite decode_utf8 by exact F1. fold (utf8s l). rewrite IH by exact F2. reflexivity. Qed.
Lemma c_string_id : forall l, ~ In 0 l -> c_string l = l.
Proof. induction l as [|c l IH]; intro H; [reflexivity|]. cbn [c_string In] in *. destruct (Z.eqb_spec c 0); [exfalso; apply H; left; lia|]. rewrite IH by tauto. reflexivity. Qed.
Lemma utf8_nonzero : forall c, scalar c -> c <> 0 -> ~ In 0 (utf8 c).
Proof.
  intros c H N I0. unfold scalar in H. unfold utf8 in I0.
  pose proof (Z.mod_pos_bound c 64 ltac:(lia)). pose proof (Z.mod_pos_bound (c / 64) 64 ltac:(lia)). pose proof (Z.mod_pos_bound (c / 4096) 64 ltac:(lia)).
  pose proof (Z.div_pos c 64 ltac:(lia) ltac:(lia)). pose proof (Z.div_pos c 4096 ltac:(lia) ltac:(lia)). pose proof (Z.div_pos c 262144 ltac:(lia) ltac:(lia)).
  repeat match type of I0 with In _ (if ?b then _ else _) => destruct b end; cbn [In] in I0; lia.
Qed.
Lemma to_str_utf8 : forall l, Forall scalar l -> ~ In 0 l -> to_str (utf8s l) = Chars l.
Proof.
  intros l F N. unfold to_str. rewrite c_string_id; [rewrite decode_all by exact F; reflexivity|]. intro I0. unfold utf8s in I0. apply in_flat_map in I0. destruct I0 as (c & C1 & C2).
  rewrite Forall_forall in F. revert C2. apply utf8_nonzero; [apply F, C1|]. intros ->. apply N, C1.
Qed.

(** ** Haskell's length. *)
Definition good_h (us : list unit_) : Prop := forall a ds b, us = a ++ UO ds :: b -> hd_is dec_digit (rends b) = false.
Definition no_u (u : unit_) : Prop := match u with U4 _ | U8 _ => False | _ => True end.
Lemma h_units : forall us n, good us -> sepc us [] -> good_h us -> Forall no_u us -> (length (rends (map dq us)) < n)%nat ->
  h_body n (rends (map dq us) ++ [34]) = Some (Z.of_nat (length us)).
Proof.
  induction us as [|u us IH]; intros n G S1 GH NU N; destruct n as [|n]; try lia; [reflexivity|].
  cbn [good] in G. destruct G as (O & X & G). cbn [sepc] in S1. destruct S1 as (S1 & S2). cbn [map] in *. rewrite rends_cons in *. rewrite app_length in N. rewrite <- app_assoc. inversion NU as [|? ? NU1 NU2]; subst.
  assert (GH' : good_h us) by (intros a ds b E; apply (GH (u :: a) ds b); rewrite E; reflexivity).
  assert (IH' : forall k, (length (rends (map dq us)) < k)%nat -> h_body k (rends (map dq us) ++ [34]) = Some (Z.of_nat (length us))) by (intros; apply IH; assumption). clear IH.
  assert (H10 : hd_is dec_digit (rends (map dq us) ++ [34]) = hd_is dec_digit (rends us)).
  { rewrite hd_dq by reflexivity. rewrite hd_app. destruct (rends us); reflexivity. }
  assert (H16 : hd_is hex_digit (rends (map dq us) ++ [34]) = hd_is hex_digit (rends us ++ [])).
  { rewrite hd_dq by reflexivity. rewrite hd_app, app_nil_r. destruct (rends us); reflexivity. }
  set (R := rends (map dq us) ++ [34]) in *. replace (Z.of_nat (length (u :: us))) with (1 + Z.of_nat (length us)) by (cbn [length]; lia).
  destruct u as [c|c|a b|ds|ds|ds]; cbn [ok dq no_u] in *; try contradiction.
  - destruct (Z.eqb_spec c 34) as [->|C].
    + cbn [rend app length] in *. cbn [h_body]. change (92 =? 34) with false. change (92 =? 92) with true. cbv iota. change (h_esc (34 :: R)) with (Some R). cbv iota. rewrite IH' by lia. reflexivity.
    + cbn [rend app length] in *. cbn [h_body]. replace (c =? 34) with false by lia. replace (c =? 92) with false by lia. rewrite IH' by lia. reflexivity.
  - cbn [rend app length] in *. cbn [h_body]. change (92 =? 34) with false. change (92 =? 92) with true. cbv iota. destruct (simple_single c O) as (C0 & C1 & C2 & C3 & C4 & C5 & _). unfold h_esc.
    replace (c =? 120) with false by lia. rewrite C5, C0. rewrite IH' by lia. reflexivity.
  - cbn [rend app length] in *. cbn [h_body]. change (92 =? 34) with false. change (92 =? 92) with true. cbv iota. unfold h_esc. change (120 =? 120) with true. cbv iota. destruct O as [O1 O2].
    change (a :: b :: R) with ([a; b] ++ R). rewrite span_all; [|cbn; rewrite O1, O2; reflexivity|rewrite H16; exact S1]. pose proof (number_hex2 a b O1 O2) as Q. cbn [nonempty andb].
    replace (number 16 [a; b] <=? 1114111) with true by lia. rewrite IH' by lia. reflexivity.
  - destruct O as (O & L & V). cbn [rend app length] in *. destruct ds as [|d ds]; [cbn in L; lia|]. cbn [h_body app]. change (92 =? 34) with false. change (92 =? 92) with true. cbv iota. unfold h_esc.
    pose proof (oct_not _ O) as Nt. inversion Nt as [|? ? D Nt1]; subst. replace (d =? 120) with false by lia. assert (O10 : forallb dec_digit (d :: ds) = true) by (apply (forallb_imp oct_digit); [apply oct_dec|exact O]).
    assert (D8 : dec_digit d = true) by (cbn [forallb] in O10; apply andb_prop in O10; tauto). rewrite D8.
    change (d :: ds ++ R) with ((d :: ds) ++ R). rewrite span_all; [|exact O10|rewrite H10; apply (GH [] (d :: ds) us eq_refl)]. pose proof (number_dec3 (d :: ds) O10 ltac:(lia)) as Q. replace (number 10 (d :: ds) <=? 1114111) with true by lia.
    rewrite IH' by (cbn [length] in N; lia). reflexivity.
Qed.
Lemma good_h_app : forall a b, good_h (a ++ b) -> good_h a /\ good_h b.
Proof.
  intros a b H. split.
  - intros x ds y E. specialize (H x ds (y ++ b)). rewrite E, <- app_assoc in H. specialize (H eq_refl). rewrite rends_app, hd_app in H. destruct (rends y); [reflexivity|exact H].
  - intros x ds y E. apply (H (a ++ x) ds y). rewrite E, <- app_assoc. reflexivity.
Qed.
Lemma h_all : forall uss, good (concat uss) -> good_h (concat uss) -> Forall no_u (concat uss) -> Forall (fun u => sepc u []) uss ->
  h_lengths (cat_strings (map rends uss)) = Some (Z.of_nat (length (concat uss))).
Proof.
  induction uss as [|us uss IH]; intros G GH NU F; [reflexivity|]. inversion F as [|? ? F1 F2]; subst. cbn [concat] in *. apply good_app in G. destruct G as [G1 G2]. apply good_h_app in GH. destruct GH as [GH1 GH2].
  apply Forall_app in NU. destruct NU as [NU1 NU2]. unfold cat_strings in *. cbn [map h_lengths]. rewrite IH by assumption. unfold quote at 1. cbn [h_length]. rewrite escape_units by (apply good_ok, G1).
  change (h_length (34 :: rends (map dq us) ++ [34])) with (h_body (length (rends (map dq us) ++ [34])) (rends (map dq us) ++ [34])).
  rewrite h_units by (try assumption; rewrite app_length; cbn; lia). rewrite app_length. f_equal. lia.
Qed.

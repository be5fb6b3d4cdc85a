(** Parsing messages: prefixes, bodies, requests and responses. *)
From Coq Require Import String Ascii.
From Verif Require Import Base M_Slice S_Slice M_Str S_Str M_Bytes P_Base P_Bmh P_Str P_Str2 P_Bytes P_Bytes2 P_Bytes3 P_Http.
From Verif Require Import M_Bigint S_Bigint T_Bigint S_Uri M_Uri P_Uri M_Http S_Http S_HttpRun S_Bytes P_Http2.
From Coq Require Import ZifyBool ZifyNat.
Local Notation llen := List.length.

Lemma bfits_app a b : bfits (a ++ b) -> bfits a /\ bfits b.
Proof. unfold bfits. rewrite zlen_app. pose proof (zlen_nn a). pose proof (zlen_nn b). lia. Qed.

Lemma chunked_prefix body w : chunked body w -> forall p t acc fuel, bfits w -> w = p ++ t -> t <> [] -> (llen p < fuel)%nat ->
  chunks_loop fuel p acc = Ok None.
Proof.
  assert (Short : forall z n p t c1 acc fuel, numeral 16 z n -> z ++ [13; 10] ++ c1 = p ++ t -> zlen p < zlen z + 2 -> bfits p -> (0 < fuel)%nat -> chunks_loop fuel p acc = Ok None).
  { intros z n p t c1 acc fuel Hz E L Fp Hf. destruct fuel as [|fuel]; [lia|]. cbn [chunks_loop]. rewrite (bsplit_absent p [13; 10] (Some 1)); [reflexivity|discriminate|assumption|discriminate|].
    apply (absent_short p t z [13; 10] c1); [symmetry; exact E| |exact L]. intros m Hm. apply (proj2 (first_no 13 [10] z c1 ltac:(intros Hi; destruct (numeral_chars _ _ _ Hz) as (_ & Hc & _); rewrite Forall_forall in Hc; specialize (Hc 13 Hi); lia)) m Hm). }
  assert (Cut : forall z c1 p t, z ++ [13; 10] ++ c1 = p ++ t -> zlen p < zlen z + 2 \/ exists u, p = z ++ [13; 10] ++ u /\ c1 = u ++ t).
  { intros z c1 p t E. rewrite app_assoc in E. symmetry in E. destruct (prefix_cases p t (z ++ [13; 10]) c1 E) as [(u & E1 & _ & Hu)|(u & -> & ->)].
    - left. assert (H := f_equal zlen E1). rewrite !zlen_app in H. pose proof (ne_len u Hu). change (zlen [13; 10]) with 2 in H. lia.
    - right. exists u. rewrite <- app_assoc. auto. }
  induction 1 as [z Hz Hp|z d body w Hz Hp Hd Hw IH]; intros p t acc fuel F E Ht Hf.
  - unfold CRLF in *. destruct (Cut z [13; 10] p t ltac:(cbn [app] in E |- *; exact E)) as [L|(u & -> & Eu)].
    { rewrite E in F. destruct (bfits_app _ _ F). eapply Short; eauto; lia. }
    destruct fuel as [|fuel]; [lia|]. rewrite E in F. destruct (bfits_app _ _ F) as [Fp _]. rewrite (chunk_step fuel z 0 u); [|assumption|assumption|lia|assumption].
    assert (H := f_equal zlen Eu). rewrite zlen_app in H. change (zlen [13; 10]) with 2 in H. pose proof (ne_len t Ht). pose proof (zlen_nn u). destruct (0 <=? zlen u) eqn:E0; [|lia]. cbn [Z.to_nat skipn]. cbv zeta. destruct (zlen u <? 2) eqn:E2; [reflexivity|lia].
  - unfold CRLF in *. destruct (Cut z (d ++ [13; 10] ++ w) p t E) as [L|(u & -> & Eu)].
    { rewrite E in F. destruct (bfits_app _ _ F). eapply Short; eauto; lia. }
    destruct fuel as [|fuel]; [lia|]. pose proof F as F0. rewrite E in F. destruct (bfits_app _ _ F) as [Fp _]. unfold bfits in F0. rewrite !zlen_app in F0. pose proof (zlen_nn z). pose proof (zlen_nn d). pose proof (zlen_nn w). change (zlen [13; 10]) with 2 in F0.
    rewrite (chunk_step fuel z (zlen d) u); [|assumption|assumption|lia|assumption].
    destruct (zlen d <=? zlen u) eqn:E0; [|reflexivity].
    symmetry in Eu. destruct (prefix_cases u t d _ Eu) as [(v & E1 & _ & Hv)|(v & -> & Ev)].
    { assert (G := f_equal zlen E1). rewrite zlen_app in G. pose proof (ne_len v Hv). lia. }
    assert (Es : skipn (Z.to_nat (zlen d)) (d ++ v) = v) by (unfold zlen; rewrite Nat2Z.id; apply skipn_app_exact). rewrite Es. cbv zeta.
    destruct (zlen v <? 2) eqn:E2; [reflexivity|]. pose proof (ne_len d Hd). destruct (zlen d =? 0) eqn:E3; [lia|].
    destruct v as [|x [|y v]]; [cbn in E2; lia|cbn in E2; lia|]. cbn [app] in Ev. injection Ev as <- <- Ev. cbn [skipn].
    apply (IH v t); [unfold bfits; lia|assumption|assumption|]. rewrite !app_length in Hf. cbn in Hf. lia.
Qed.

(** ** Bodies. *)
Lemma value_good fs n v : Forall good_field fs -> value_of fs n = Some v -> field_value v.
Proof.
  induction 1 as [|f fs G _ IH]; cbn [value_of]; [discriminate|]. destruct (value_of fs n) as [v'|]; [intros [= ->]; auto|]. destruct (list_eq_dec _ _ _); [|discriminate]. intros [= <-]. exact (proj2 G).
Qed.
Lemma strip_value v : field_value v -> strip_blanks v = v.
Proof. intros (_ & H1 & H2). apply strip_id; assumption. Qed.
Lemma lit_asc s : lit s = asc s.
Proof. reflexivity. Qed.

Lemma commas_ne t : commas t <> [].
Proof. destruct t as [|c t]; [discriminate|]. cbn [commas]. destruct (c =? 44); [discriminate|]. destruct (commas t); discriminate. Qed.
Lemma commas_tail a t x : In x (commas t) -> In x (commas (a ++ [44] ++ t)).
Proof.
  intros H. induction a as [|c a IH]; [right; exact H|]. cbn [app commas] in *. destruct (c =? 44); [right; exact IH|].
  set (l := commas (a ++ 44 :: t)) in *. assert (G : In x (tl l)).
  { clear IH. subst l. induction a as [|c' a IH]; [exact H|]. cbn [app commas]. destruct (c' =? 44); [cbn [tl]|destruct (commas (a ++ 44 :: t)); exact IH]. destruct (commas (a ++ 44 :: t)); [destruct IH|right; exact IH]. }
  destruct l; [destruct G|right; exact G].
Qed.
Lemma chunked_said t : ends_chunked t -> field_value t -> existsb (bytes_eq (asc "chunked")) (commas (strip_blanks t)) = true.
Proof.
  intros H F. rewrite (strip_value t F). apply existsb_exists. exists (asc "chunked"). split; [|reflexivity]. assert (I : In (asc "chunked") (commas (asc "chunked"))) by (left; reflexivity).
  destruct H as [-> | [a ->]]; [exact I|apply commas_tail; exact I].
Qed.
Section L.
Context (fs : list field) (h : dict) (body b : list Z) (G : Forall good_field fs) (Hh : forall n, dget h n = value_of fs n) (Hf : framed fs body b).
Lemma body_ok i start rest : bfits (b ++ rest) -> parse_body i start h (b ++ rest) = Ok (Some (Msg start h body), rest).
Proof.
  intros F. unfold parse_body. change lit with asc. rewrite !Hh. unfold framed in Hf. destruct (value_of fs (asc "content-length")) as [t|] eqn:E1.
  - destruct Hf as [Hn ->]. rewrite (strip_value t (value_good _ _ _ G E1)). pose proof (zlen_nn body). pose proof (zlen_nn rest).
    unfold bfits in F. rewrite zlen_app in F. rewrite (int10 t (zlen body) Hn) by lia. cbn [bindr]. rewrite zlen_app. destruct (zlen body <=? _) eqn:E; [|lia].
    rewrite firstn_clamp, skipn_clamp by (unfold bfits; rewrite ?zlen_app; lia). cbn [bindr]. unfold zlen. rewrite Nat2Z.id, firstn_app_exact, skipn_app_exact. reflexivity.
  - destruct (value_of fs (asc "transfer-encoding")) as [t|] eqn:E2.
    + destruct Hf as [Hs Hc]. rewrite (chunked_said t Hs (value_good _ _ _ G E2)). rewrite (chunked_ok body b Hc rest [] _ F) by lia. reflexivity.
    + destruct Hf as [-> ->]. reflexivity.
Qed.
Lemma body_prefix i start p t : bfits b -> b = p ++ t -> t <> [] -> parse_body i start h p = Ok (None, i).
Proof.
  intros F E Ht. pose proof (ne_len t Ht). unfold parse_body. change lit with asc. rewrite !Hh. unfold framed in Hf. destruct (value_of fs (asc "content-length")) as [v|] eqn:E1.
  - destruct Hf as [Hn <-]. rewrite (strip_value v (value_good _ _ _ G E1)). unfold bfits in F. rewrite (int10 v (zlen b) Hn) by lia. cbn [bindr].
    assert (L := f_equal zlen E). rewrite zlen_app in L. destruct (zlen b <=? zlen p) eqn:E3; [lia|reflexivity].
  - destruct (value_of fs (asc "transfer-encoding")) as [v|] eqn:E2.
    + destruct Hf as [Hs Hc]. rewrite (chunked_said v Hs (value_good _ _ _ G E2)). rewrite (chunked_prefix body b Hc p t [] _ F E Ht) by lia. reflexivity.
    + destruct Hf as [_ E3]. subst b. destruct p; [|discriminate]. cbn [app] in E3. congruence.
Qed.
End L.

(** ** Messages. *)
Section L2.
Context (lower : list Z -> list Z) (Hlow : lower_ok lower).
Context (start : list Z) (Hs0 : start <> []) (Hs : Forall (fun c => 32 <= c <= 126) start).

Lemma rstrip_start : bytes_rstrip start (Some [13; 10]) = Ok start.
Proof.
  destruct (brstrip_ok start (Some [13; 10])) as (K & D & E & HD & _ & ->). f_equal. subst start. apply Forall_app in Hs as [_ H].
  destruct D as [|c D]; [symmetry; apply app_nil_r|]. inversion H; subst. inversion HD as [|? ? Hc]; subst. cbn in Hc. lia.
Qed.
Lemma good_lines fs : Forall good_field fs -> Forall (fun x => x <> [] /\ ~ In 13 x /\ ~ In 10 x) (start :: map field_line fs).
Proof.
  intros G. constructor; [split; [assumption|split; apply not_in_printable; assumption || lia]|]. apply Forall_map. eapply Forall_impl; [|exact G]. intros f Hf.
  pose proof (field_chars f Hf). split; [intros E; unfold field_line in E; destruct (f_name f); discriminate E|]. split; apply not_in_printable; assumption || lia.
Qed.
Lemma lines_fit P l : bfits (joined P l) -> Forall bfits l.
Proof.
  induction l as [|x l IH]; intros F; [constructor|]. destruct l as [|y l]; [constructor; [exact F|constructor]|].
  change (joined P (x :: y :: l)) with (x ++ P ++ joined P (y :: l)) in F. destruct (bfits_app _ _ F) as [F1 F2]. destruct (bfits_app _ _ F2) as [_ F3]. constructor; auto.
Qed.
Lemma head_ok fs i tail : Forall good_field fs -> bfits i -> i = joined [13; 10] (start :: map field_line fs) ++ [13; 10; 13; 10] ++ tail ->
  exists h, (forall n, dget h n = value_of fs n) /\ parse_message lower i = parse_body i start h tail.
Proof.
  intros G F E. pose proof (good_lines fs G) as HL. pose proof F as F'. rewrite E in F'. destruct (bfits_app _ _ F') as [FJ _].
  pose proof (lines_fit _ _ FJ) as FL. inversion FL as [|? ? _ FL2]; subst x l. rewrite Forall_map in FL2.
  destruct (headers_ok lower Hlow fs G FL2 []) as (h & Eh & Hh). exists h. split; [intros n; rewrite Hh; destruct (value_of fs n); reflexivity|].
  unfold parse_message. rewrite (bsplit1 i [13; 10; 13; 10] _ tail ltac:(discriminate) F E).
  2:{ split; [rewrite E; eexists _, tail; split; reflexivity|]. intros m Hm. rewrite E in Hm. exact (head_end (start :: map field_line fs) tail ltac:(discriminate) HL m Hm). }
  cbn [bindr]. rewrite bsplit_pieces; [|discriminate|eapply Forall_impl; [|exact HL]; cbn; tauto|exact FJ]. cbn [bindr hd tl]. rewrite rstrip_start. cbn [bindr]. rewrite Eh. reflexivity.
Qed.

Lemma message_ok fs body w rest : on_wire start fs body w -> bfits (w ++ rest) ->
  exists h, (forall n, dget h n = value_of fs n) /\ parse_message lower (w ++ rest) = Ok (Some (Msg start h body), rest).
Proof.
  intros (G & b & Hf & E) F. rewrite lines_joined in E. assert (E2 : w ++ rest = joined [13; 10] (start :: map field_line fs) ++ [13; 10; 13; 10] ++ (b ++ rest)) by (rewrite E, <- !app_assoc; reflexivity).
  destruct (head_ok fs _ _ G F E2) as (h & Hh & ->). exists h. split; [assumption|]. apply (body_ok fs h body b G Hh Hf). rewrite E2 in F. destruct (bfits_app _ _ F) as [_ F1]. exact (proj2 (bfits_app _ _ F1)).
Qed.
Lemma message_prefix fs body w p t : on_wire start fs body w -> bfits w -> w = p ++ t -> t <> [] -> parse_message lower p = Ok (None, p).
Proof.
  intros (G & b & Hf & E) F Ep Ht. rewrite lines_joined in E. set (J := joined [13; 10] (start :: map field_line fs)) in *.
  assert (Fp : bfits p) by (rewrite Ep in F; exact (proj1 (bfits_app _ _ F))).
  rewrite Ep in E. rewrite app_assoc in E. destruct (prefix_cases p t (J ++ [13; 10; 13; 10]) b E) as [(u & E1 & _ & Hu)|(u & E1 & E2)].
  - unfold parse_message. rewrite bsplit_absent; [reflexivity|discriminate|assumption|discriminate|]. rewrite <- app_assoc in E.
    apply (absent_short p t J [13; 10; 13; 10] b E); [intros m Hm; exact (head_end (start :: map field_line fs) b ltac:(discriminate) (good_lines fs G) m Hm)|].
    assert (L := f_equal zlen E1). rewrite !zlen_app in L. pose proof (ne_len u Hu). lia.
  - rewrite <- app_assoc in E1. destruct (head_ok fs p u G Fp E1) as (h & Hh & ->). apply (body_prefix fs h body b G Hh Hf p start u t); [|assumption|assumption].
    rewrite Ep, E in F. exact (proj2 (bfits_app _ _ F)).
Qed.
End L2.

(** ** Requests and responses. *)

Lemma version_ok v : known_version v -> supported v = true /\ Forall (fun c => 33 <= c <= 126 /\ c <> 47) v /\ v <> [].
Proof. intros [-> | ->]; (split; [reflexivity|split; [apply Forall_forall; intros c Hc; cbn in Hc; lia|discriminate]]). Qed.
Lemma wire_fits start fs body w : on_wire start fs body w -> bfits w -> bfits start.
Proof. intros (_ & b & _ & ->) F. exact (proj1 (bfits_app _ _ F)). Qed.

Ltac known := apply Forall_forall; let c := fresh in let H := fresh in intros c H; cbn in H; lia.
Section L3.
Context (lower : list Z -> list Z) (Hlow : lower_ok lower).

Lemma request_start q w : request_on_wire q w ->
  let s := hq_method q ++ [32] ++ hq_path q ++ asc " HTTP/" ++ hq_version q in s <> [] /\ Forall (fun c => 32 <= c <= 126) s.
Proof.
  intros (Hm & Hp & Hv & _) s. destruct (version_ok _ Hv) as (_ & Hv2 & _). split; [unfold s; destruct (hq_method q); discriminate|].
  unfold s. repeat (apply Forall_app; split); first [known | eapply Forall_impl; [|eassumption]; cbn; lia].
Qed.
Lemma request_ok q w rest : request_on_wire q w -> bfits (w ++ rest) ->
  exists r, parse_request lower (w ++ rest) = Ok (Some r, rest) /\ same_request q r.
Proof.
  intros Hq F. destruct (request_start q w Hq) as [S1 S2]. pose proof Hq as (Hm & Hp & Hv & Hw). destruct (version_ok _ Hv) as (V1 & V2 & V3).
  destruct (message_ok lower Hlow _ S1 S2 _ _ _ rest Hw F) as (h & Hh & E). unfold parse_request. rewrite E. cbn [bindr m_start].
  assert (Fs : bfits (hq_method q ++ [32] ++ hq_path q ++ asc " HTTP/" ++ hq_version q)) by (eapply wire_fits; [exact Hw|exact (proj1 (bfits_app _ _ F))]).
  assert (No32 : forall t, Forall (fun c => 33 <= c <= 126) t -> ~ In 32 t) by (intros t Ht Hi; rewrite Forall_forall in Ht; specialize (Ht 32 Hi); lia).
  change (hq_method q ++ [32] ++ hq_path q ++ asc " HTTP/" ++ hq_version q) with (joined [32] [hq_method q; hq_path q; asc "HTTP/" ++ hq_version q]) in *.
  rewrite bsplit_pieces; [|discriminate| |exact Fs].
  2:{ repeat constructor; apply No32; try assumption. apply Forall_app. split; [known|]. eapply Forall_impl; [|exact V2]. cbn. lia. }
  cbn [bindr]. rewrite !decode_plain by (eapply Forall_impl; [|eassumption]; cbn; lia).
  assert (Fv : bfits (asc "HTTP/" ++ hq_version q)) by (unfold bfits; rewrite zlen_app; destruct Hv as [-> | ->]; cbn; lia).
  rewrite (bsplit1 (asc "HTTP/" ++ hq_version q) [47] (asc "HTTP") (hq_version q) ltac:(discriminate) Fv eq_refl).
  2:{ apply (first_no 47 [] (asc "HTTP") (hq_version q)). cbn. lia. }
  cbn [bindr]. rewrite V1. eexists. split; [reflexivity|]. repeat split. exact Hh.
Qed.
Lemma request_prefix q w p t : request_on_wire q w -> bfits w -> w = p ++ t -> t <> [] -> parse_request lower p = Ok (None, p).
Proof.
  intros Hq F E Ht. destruct (request_start q w Hq) as [S1 S2]. destruct Hq as (_ & _ & _ & Hw). unfold parse_request.
  rewrite (message_prefix lower Hlow _ S1 S2 _ _ w p t Hw F E Ht). reflexivity.
Qed.

Lemma response_start v d reason n : known_version v -> numeral 10 d n -> (reason = [] \/ exists t, reason = 32 :: t /\ Forall (fun c => 32 <= c <= 126) t) ->
  let s := asc "HTTP/" ++ v ++ [32] ++ d ++ reason in s <> [] /\ Forall (fun c => 32 <= c <= 126) s.
Proof.
  intros Hv Hd Hr s. destruct (version_ok _ Hv) as (_ & Hv2 & _). apply numeral10 in Hd. split; [discriminate|].
  unfold s. repeat (apply Forall_app; split); try first [known | eapply Forall_impl; [|eassumption]; cbn; lia].
  destruct Hr as [-> |(t & -> & Ht)]; [constructor|constructor; [lia|assumption]].
Qed.
Lemma response_ok r0 w rest : response_on_wire r0 w -> bfits (w ++ rest) ->
  exists r, parse_response lower (w ++ rest) = Ok (Some r, rest) /\ same_response r0 r.
Proof.
  intros (Hv & Hst & d & reason & Hd & Hr & Hw) F. destruct (response_start _ _ _ _ Hv Hd Hr) as [S1 S2]. destruct (version_ok _ Hv) as (V1 & V2 & V3).
  destruct (message_ok lower Hlow _ S1 S2 _ _ _ rest Hw F) as (h & Hh & E). unfold parse_response. rewrite E. cbn [bindr m_start].
  assert (Fs : bfits (asc "HTTP/" ++ hr_version r0 ++ [32] ++ d ++ reason)) by (eapply wire_fits; [exact Hw|exact (proj1 (bfits_app _ _ F))]).
  assert (Hd10 := numeral10 _ _ Hd).
  assert (N1 : ~ In 32 (asc "HTTP/" ++ hr_version r0)).
  { intros Hi. apply in_app_or in Hi as [Hi|Hi]; [cbn in Hi; lia|]. rewrite Forall_forall in V2. specialize (V2 32 Hi). lia. }
  assert (N2 : ~ In 32 d) by (intros Hi; rewrite Forall_forall in Hd10; specialize (Hd10 32 Hi); lia).
  assert (Hsplit : exists l, bytes_split (asc "HTTP/" ++ hr_version r0 ++ [32] ++ d ++ reason) [32] None = Ok ((asc "HTTP/" ++ hr_version r0) :: d :: l)).
  { destruct (bsplit_ok _ [32] None ltac:(discriminate) Fs ltac:(discriminate)) as (l & Hl & ->). destruct Hr as [-> |(t & -> & Ht)].
    - exists []. f_equal. apply (splits_det _ _ _ _ Hl). rewrite app_nil_r, app_assoc. apply (splits_pieces 32 [] [asc "HTTP/" ++ hr_version r0; d]); [discriminate|repeat constructor; assumption].
    - destruct (bsplit_ok t [32] None ltac:(discriminate)) as (l2 & Hl2 & _); [|discriminate|].
      { change (32 :: t) with ([32] ++ t) in Fs. do 5 (apply bfits_app in Fs as [_ Fs]). exact Fs. }
      exists l2. f_equal. apply (splits_det _ _ _ _ Hl). rewrite app_assoc. eapply splits_cons; [discriminate|reflexivity|exact (first_no 32 [] _ _ N1)|].
      change (d ++ 32 :: t) with (d ++ [32] ++ t). eapply splits_cons; [discriminate|reflexivity|exact (first_no 32 [] _ _ N2)|exact Hl2]. }
  destruct Hsplit as [l ->]. cbn [bindr].
  assert (Fv : bfits (asc "HTTP/" ++ hr_version r0)) by (unfold bfits; rewrite zlen_app; destruct Hv as [-> | ->]; cbn; lia).
  rewrite (bsplit1 (asc "HTTP/" ++ hr_version r0) [47] (asc "HTTP") (hr_version r0) ltac:(discriminate) Fv eq_refl).
  2:{ apply (first_no 47 [] (asc "HTTP") (hr_version r0)). cbn. lia. }
  cbn [bindr]. rewrite V1, (decode_plain d (numeral_plain _ _ _ Hd)). cbn [bindr]. rewrite (int10 _ _ Hd Hst). eexists. split; [reflexivity|]. repeat split. exact Hh.
Qed.
Lemma response_prefix r0 w p t : response_on_wire r0 w -> bfits w -> w = p ++ t -> t <> [] -> parse_response lower p = Ok (None, p).
Proof.
  intros (Hv & Hst & d & reason & Hd & Hr & Hw) F E Ht. destruct (response_start _ _ _ _ Hv Hd Hr) as [S1 S2]. unfold parse_response.
  rewrite (message_prefix lower Hlow _ S1 S2 _ _ w p t Hw F E Ht). reflexivity.
Qed.
End L3.

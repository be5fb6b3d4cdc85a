(** What the builders write is what the parsers read. *)
From Coq Require Import String Ascii.
From Verif Require Import Base M_Slice M_Str S_Str M_Uri M_Bytes P_Base P_Bmh P_Str P_Str2 P_Bytes P_Bytes2 P_Bytes3 P_Http.
From Verif Require Import M_Bigint S_Bigint P_BigStr M_Http S_Http S_HttpRun S_Bytes P_Http2 P_Http3 P_Http4 P_Http5.
From Coq Require Import ZifyBool ZifyNat.
Local Notation llen := List.length.

Lemma badd_ok a b : bfits (a ++ b) -> bytes_add a b = Ok (a ++ b).
Proof. intros F. unfold bytes_add, new_bytes, bfits in *. destruct (_ <? _) eqn:E; [reflexivity|lia]. Qed.


Lemma beq_neq a b : a <> b -> bytes_eq a b = false.
Proof. intros H. destruct (bytes_eq a b) eqn:E; [apply beq_ok in E; congruence|reflexivity]. Qed.
Lemma dput_new h k v : ~ In (map small k) (names h) -> dput h k v = h ++ [(k, v)].
Proof.
  induction h as [|(k', v') h IH]; intros H; [reflexivity|]. cbn [dput]. rewrite beq_neq; [rewrite IH; [reflexivity|]|]; intros C; apply H; [right; exact C|left; cbn; congruence].
Qed.
Lemma names_app a b : names (a ++ b) = names a ++ names b.
Proof. apply map_app. Qed.
Lemma name_plain k : field_name k -> Forall (fun c => 0 <= c < 128) k.
Proof. intros [_ H]. eapply Forall_impl; [|exact H]. cbn. lia. Qed.

Section B.
Context (lower : list Z -> list Z) (Hlow : lower_ok lower).

Lemma lheaders_ok h n : Forall good_entry h -> forall a, dget (fold_left (fun a kv => dput a (lower (fst kv)) (fst kv)) h a) n = None <-> dget a n = None /\ ~ In n (names h).
Proof.
  induction 1 as [|(k, v) h (Hk & _) Hh IH]; intros a; cbn [fold_left names map In fst]; [tauto|]. rewrite IH, dget_dput. cbn [fst] in *. rewrite Hlow by (apply name_plain; assumption).
  destruct (list_eq_dec Z.eq_dec (map small k) n) as [E|E]; [split; [intros [C _]; discriminate|intros [_ C]; destruct C; auto]|]. unfold names. tauto.
Qed.
Lemma keys_ok h n : Forall good_entry h -> dget (map (fun kv => (lower (fst kv), @nil Z)) h) n = None <-> ~ In n (names h).
Proof.
  induction 1 as [|(k, v) h (Hk & _) Hh IH]; cbn [map dget names In fst]; [tauto|]. cbn [fst] in *. rewrite Hlow by (apply name_plain; assumption).
  destruct (bytes_eq (map small k) n) eqn:E.
  - apply beq_ok in E. split; [discriminate|intros C; destruct C; auto].
  - assert (map small k <> n) by (intros C; rewrite C, beq_refl in E; discriminate). unfold names in *. tauto.
Qed.

Lemma default_ok l H A (k : string) v : (dget l (map small (lit k)) = None <-> ~ In (map small (lit k)) (names H)) -> good_headers (H ++ A) ->
  ~ In (map small (lit k)) (names A) -> good_entry (lit k, v) ->
  exists A', default_ l (H ++ A) k v = H ++ A' /\ good_headers (H ++ A') /\
    (In (map small (lit k)) (names H) /\ A' = A \/ ~ In (map small (lit k)) (names H) /\ A' = A ++ [(lit k, v)]).
Proof.
  intros Hl (G1 & G2) Ha He. unfold default_. change (fun c : Z => if (65 <=? c) && (c <=? 90) then c + 32 else c) with small. destruct (in_dec (list_eq_dec Z.eq_dec) (map small (lit k)) (names H)) as [Hi|Hi].
  - exists A. destruct (dget l (map small (lit k))) eqn:E; [|tauto]. split; [reflexivity|]. split; [split; assumption|auto].
  - exists (A ++ [(lit k, v)]). replace (dget l (map small (lit k))) with (@None (list Z)) by (symmetry; tauto). assert (Hn : ~ In (map small (lit k)) (names (H ++ A))) by (rewrite names_app, in_app_iff; tauto).
    rewrite dput_new by assumption. rewrite app_assoc. split; [reflexivity|]. split; [|auto]. split; [apply Forall_app; split; [assumption|repeat constructor; apply He]|].
    rewrite names_app. cbn [names map fst]. apply NoDup_rev in G2. rewrite <- (rev_involutive (names (H ++ A) ++ _)). apply NoDup_rev. rewrite rev_app_distr. cbn [rev app]. constructor; [rewrite <- in_rev; assumption|assumption].
Qed.
End B.

Definition fields_of (h : dict) : list field := map (fun kv => Field (fst kv) 1 (snd kv) 0) h.
Lemma value_none h n : ~ In n (names h) -> value_of (fields_of h) n = None.
Proof.
  induction h as [|(k, v) h IH]; intros H; [reflexivity|]. cbn [fields_of map value_of f_name f_value fst snd]. fold (fields_of h). cbn [names map In fst] in H. rewrite IH by (unfold names; tauto).
  destruct (list_eq_dec _ _ _); [exfalso; tauto|reflexivity].
Qed.
Lemma value_in h k v : NoDup (names h) -> In (k, v) h -> value_of (fields_of h) (map small k) = Some v.
Proof.
  induction h as [|(k', v') h IH]; intros N Hi; [destruct Hi|]. cbn [names map fst] in N. inversion N as [|? ? N1 N2]; subst. cbn [fields_of map value_of f_name f_value fst snd]. fold (fields_of h). destruct Hi as [E|Hi].
  - injection E as -> ->. rewrite (value_none h _ N1). destruct (list_eq_dec _ _ _); [reflexivity|congruence].
  - rewrite (IH N2 Hi). reflexivity.
Qed.
Lemma fields_good h : Forall good_entry h -> Forall good_field (fields_of h).
Proof. intros H. unfold fields_of. apply Forall_map. eapply Forall_impl; [|exact H]. intros (k, v) E. exact E. Qed.

Lemma joined_snoc {A} (P y : list A) l x : joined P (x :: l ++ [y]) = joined P (x :: l) ++ P ++ y.
Proof.
  revert x. induction l as [|z l IH]; intros x; [reflexivity|]. change (joined P (x :: (z :: l) ++ [y])) with (x ++ P ++ joined P (z :: l ++ [y])). rewrite IH.
  change (joined P (x :: z :: l)) with (x ++ P ++ joined P (z :: l)). rewrite <- !app_assoc. reflexivity.
Qed.
Lemma lines_of h : Forall good_entry h -> map (fun kv => encode (fst kv) ++ [58; 32] ++ encode (snd kv)) h = map field_line (fields_of h).
Proof.
  induction 1 as [|(k, v) h (Hk & Hv & _) _ IH]; [reflexivity|]. cbn [map fields_of fst snd]. fold (fields_of h). rewrite IH. cbn [fst snd] in *. f_equal. unfold field_line. cbn [f_name f_before f_value f_after repeat].
  rewrite !encode_plain; [rewrite app_nil_r; reflexivity|apply printable_plain; assumption|]. apply printable_plain. destruct Hk as [_ Hk]. eapply Forall_impl; [|exact Hk]. cbn. lia.
Qed.
Lemma written_wire start h body : Forall good_entry h -> value_of (fields_of h) (asc "content-length") = Some (str_nat (zlen body)) -> bfits body ->
  on_wire start (fields_of h) body (joined [13; 10] (start :: map field_line (fields_of h) ++ [[13; 10]]) ++ body).
Proof.
  intros G V F. split; [apply fields_good; assumption|]. exists body. split.
  - unfold framed. rewrite V. split; [|reflexivity]. apply str_nat_ok. unfold bfits in F. pose proof (zlen_nn body). lia.
  - rewrite joined_snoc, lines_joined, <- !app_assoc. reflexivity.
Qed.
Lemma lit_entry k v : Forall (fun c => 33 <= c <= 126 /\ c <> 58) (lit k) -> lit k <> [] -> field_value v -> good_entry (lit k, v).
Proof. intros H1 H2 H3. split; [split; assumption|assumption]. Qed.
Lemma digits_value n : 0 <= n < 2 ^ 63 -> field_value (str_nat n).
Proof.
  intros H. pose proof (numeral10 _ _ (str_nat_ok n H)) as F. split; [eapply Forall_impl; [|exact F]; cbn; lia|]. apply word_ends. eapply Forall_impl; [|exact F]. cbn. lia.
Qed.
Ltac entry := apply lit_entry; [known|discriminate|].
Ltac plainv := split; [known|split; cbn; lia].

Section B2.
Context (lower : list Z -> list Z) (Hlow : lower_ok lower).

Lemma request_built host meth path version H body : good_headers H -> ~ In (asc "content-length") (names H) -> field_value host -> bfits body ->
  exists A, good_headers (H ++ A) /\ In (asc "Content-Length", str_nat (zlen body)) A /\
    (~ In (asc "host") (names H) -> In (asc "Host", host) A) /\
    forall w, w = joined [13; 10] ((meth ++ [32] ++ path ++ asc " HTTP/" ++ version) :: map field_line (fields_of (H ++ A)) ++ [[13; 10]]) ++ body -> bfits w ->
      build_request lower host meth path version H body = Ok (w, H ++ A).
Proof.
  intros G Nc Hh Fb. pose proof G as [G1 _].
  assert (Hl : forall k, dget (lheaders lower H) (map small (lit k)) = None <-> ~ In (map small (lit k)) (names H)).
  { intros k. unfold lheaders. rewrite (lheaders_ok lower Hlow H _ G1). cbn [dget]. tauto. }
  assert (Zb : 0 <= zlen body < 2 ^ 63) by (unfold bfits in Fb; pose proof (zlen_nn body); lia).
  assert (G0 : good_headers (H ++ [])) by (rewrite app_nil_r; assumption).
  destruct (default_ok (lheaders lower H) H [] "Host" host (Hl _) G0) as (A1 & E1 & GA1 & C1); [intros []|entry; assumption|].
  destruct (default_ok (lheaders lower H) H A1 "User-Agent" (lit "Acton HTTP Client") (Hl _) GA1) as (A2 & E2 & GA2 & C2); [destruct C1 as [[_ ->]|[_ ->]]; cbn; intuition discriminate|entry; plainv|].
  destruct (default_ok (lheaders lower H) H A2 "Accept" (lit "*/*") (Hl _) GA2) as (A3 & E3 & GA3 & C3); [destruct C1 as [[_ ->]|[_ ->]], C2 as [[_ ->]|[_ ->]]; cbn; intuition discriminate|entry; plainv|].
  destruct (default_ok (lheaders lower H) H A3 "Connection" (lit "keep-alive") (Hl _) GA3) as (A4 & E4 & GA4 & C4); [destruct C1 as [[_ ->]|[_ ->]], C2 as [[_ ->]|[_ ->]], C3 as [[_ ->]|[_ ->]]; cbn; intuition discriminate|entry; plainv|].
  destruct (default_ok (lheaders lower H) H A4 "Content-Length" (str_nat (zlen body)) (Hl _) GA4) as (A5 & E5 & GA5 & C5); [destruct C1 as [[_ ->]|[_ ->]], C2 as [[_ ->]|[_ ->]], C3 as [[_ ->]|[_ ->]], C4 as [[_ ->]|[_ ->]]; cbn; intuition discriminate|entry; apply digits_value; assumption|].
  exists A5. split; [assumption|]. destruct C5 as [[C5 _]|[_ C5]]; [exfalso; exact (Nc C5)|]. split; [rewrite C5; apply in_or_app; right; left; reflexivity|]. split.
  { intros Nh. destruct C1 as [[C1 _]|[_ C1]]; [exfalso; exact (Nh C1)|]. assert (I1 : In (asc "Host", host) A1) by (rewrite C1; left; reflexivity).
    rewrite C5. apply in_or_app. left. destruct C4 as [[_ ->]|[_ ->]], C3 as [[_ ->]|[_ ->]], C2 as [[_ ->]|[_ ->]]; rewrite ?in_app_iff; auto. }
  intros w -> Fw. unfold build_request. rewrite app_nil_r in E1. rewrite E1, E2, E3, E4, E5. rewrite (lines_of _ (proj1 GA5)).
  change (map field_line (fields_of (H ++ A5))) with (map field_line (fields_of (H ++ A5))) in Fw. cbn [app]. rewrite bjoin_ok by exact (proj1 (bfits_app _ _ Fw)). cbn [bindr].
  change (lit " HTTP/") with (asc " HTTP/"). destruct (0 <? zlen body) eqn:Eb.
  - rewrite badd_ok by exact Fw. reflexivity.
  - pose proof (zlen_nn body). assert (body = []) as -> by (destruct body; [reflexivity|rewrite zlen_cons in *; pose proof (zlen_nn body); lia]). rewrite app_nil_r. reflexivity.
Qed.

Lemma filter_names h : Forall good_entry h -> NoDup (names h) -> let f := filter (fun kv => negb (bytes_eq (lower (fst kv)) (lit "content-length"))) h in
  Forall good_entry f /\ NoDup (names f) /\ ~ In (asc "content-length") (names f) /\ (forall k v, In (k, v) f <-> In (k, v) h /\ map small k <> asc "content-length").
Proof.
  intros G N f. assert (Hf : forall kv, In kv f <-> In kv h /\ map small (fst kv) <> asc "content-length").
  { intros kv. unfold f. rewrite filter_In. split; intros [Hi Hc]; (split; [assumption|]); rewrite Forall_forall in G; destruct (G kv Hi) as [Hk _]; rewrite (Hlow _ (name_plain _ Hk)) in *.
    - intros C. change lit with asc in Hc. rewrite C, beq_refl in Hc. discriminate.
    - rewrite beq_neq; [reflexivity|exact Hc]. }
  split; [apply Forall_forall; intros kv Hi; rewrite Forall_forall in G; apply G, Hf; assumption|]. split.
  - unfold f. clear Hf f. induction h as [|kv h IH]; [constructor|]. inversion N as [|? ? N1 N2]; subst. inversion G as [|? ? _ G2]; subst. cbn [filter]. destruct (negb _); [|auto]. cbn [names map]. constructor; [|apply IH; assumption].
    intros C. apply N1. unfold names in C. apply in_map_iff in C as (x & Ex & Hx). apply filter_In in Hx as [Hx _]. unfold names. rewrite <- Ex. exact (in_map (fun kv => map small (fst kv)) h x Hx).
  - split; [|intros k v; apply (Hf (k, v))]. intros C. unfold names in C. apply in_map_iff in C as (x & Ex & Hx). apply Hf in Hx as [_ Hx]. contradiction.
Qed.

Lemma reason_ok status : let r := reason_of status in r = [] \/ exists t, r = 32 :: t /\ Forall (fun c => 32 <= c <= 126) t.
Proof.
  cbn. unfold reason_of. destruct (List.find _ reasons) as [p|] eqn:E; [|left; reflexivity]. right. eexists. split; [reflexivity|].
  apply List.find_some in E as [E _]. assert (G : Forall (fun p => Forall (fun c => 32 <= c <= 126) (lit (snd p))) reasons).
  { apply Forall_forall. intros q Hq. apply Forall_forall. intros c Hc. assert (B : forallb (fun q => forallb (fun c => (32 <=? c) && (c <=? 126)) (lit (snd q))) reasons = true) by (vm_compute; reflexivity).
    rewrite forallb_forall in B. specialize (B q Hq). rewrite forallb_forall in B. specialize (B c Hc). lia. }
  rewrite Forall_forall in G. apply G. exact E.
Qed.

Lemma response_built date version status H body : good_headers H -> field_value date -> bfits (encode body) ->
  exists h, good_headers (h ++ [(asc "Content-Length", str_nat (zlen (encode body)))]) /\ (forall k v, In (k, v) H -> map small k <> asc "content-length" -> In (k, v) h) /\
    (~ In (asc "date") (names H) -> In (asc "Date", date) h) /\
    forall w, w = joined [13; 10] ((asc "HTTP/" ++ version ++ [32] ++ str_nat status ++ reason_of status) :: map field_line (fields_of (h ++ [(asc "Content-Length", str_nat (zlen (encode body)))])) ++ [[13; 10]]) ++ encode body -> bfits w ->
      build_response lower date version status H body = Ok w.
Proof.
  intros G Hd Fb. pose proof G as [G1 _]. set (b := encode body) in *. set (keys := map (fun kv => (lower (fst kv), @nil Z)) H).
  assert (Hl : forall k, dget keys (map small (lit k)) = None <-> ~ In (map small (lit k)) (names H)) by (intros k; apply keys_ok; assumption).
  assert (Zb : 0 <= zlen b < 2 ^ 63) by (unfold bfits in Fb; pose proof (zlen_nn b); lia).
  assert (G0 : good_headers (H ++ [])) by (rewrite app_nil_r; assumption).
  destruct (default_ok keys H [] "Server" (lit "Acton HTTP Server") (Hl _) G0) as (A1 & E1 & GA1 & C1); [intros []|entry; plainv|].
  destruct (default_ok keys H A1 "Content-Type" (lit "text/html; charset=utf-8") (Hl _) GA1) as (A2 & E2 & GA2 & C2); [destruct C1 as [[_ ->]|[_ ->]]; cbn; intuition discriminate|entry; plainv|].
  destruct (default_ok keys H A2 "Date" date (Hl _) GA2) as (A3 & E3 & [GA3 GN3] & C3); [destruct C1 as [[_ ->]|[_ ->]], C2 as [[_ ->]|[_ ->]]; cbn; intuition discriminate|entry; assumption|].
  destruct (filter_names _ GA3 GN3) as (F1 & F2 & F3 & F4). set (h := filter _ (H ++ A3)) in *. exists h. split; [|split; [|split]].
  - split; [apply Forall_app; split; [assumption|constructor; [entry; apply digits_value; assumption|constructor]]|]. rewrite names_app. change (names [(asc "Content-Length", str_nat (zlen b))]) with [asc "content-length"].
    apply NoDup_rev in F2. rewrite <- (rev_involutive (names h ++ _)). apply NoDup_rev. rewrite rev_app_distr. cbn [rev app]. constructor; [rewrite <- in_rev; assumption|assumption].
  - intros k v Hi Hc. apply F4. split; [apply in_or_app; auto|assumption].
  - intros Nd. apply F4. split; [|discriminate]. destruct C3 as [[C3 _]|[_ C3]]; [exfalso; exact (Nd C3)|]. rewrite C3. apply in_or_app. right. apply in_or_app. right. left. reflexivity.
  - intros w -> Fw. unfold build_response. fold keys. rewrite app_nil_r in E1. rewrite E1, E2, E3. fold h. fold b. rewrite (lines_of _ F1).
    assert (El : map field_line (fields_of h) ++ [lit "Content-Length: " ++ str_nat (zlen b)] = map field_line (fields_of (h ++ [(asc "Content-Length", str_nat (zlen b))]))).
    { unfold fields_of. rewrite !map_app. cbn [map]. f_equal. unfold field_line. cbn [f_name f_before f_value f_after repeat fst snd]. rewrite app_nil_r. reflexivity. }
    rewrite El. change (lit "HTTP/") with (asc "HTTP/"). cbn [app]. rewrite bjoin_ok by exact (proj1 (bfits_app _ _ Fw)). cbn [bindr]. destruct (0 <? zlen b) eqn:Eb.
    + rewrite badd_ok by exact Fw. reflexivity.
    + assert (b = []) as -> by (destruct b as [|x l]; [reflexivity|rewrite zlen_cons in *; pose proof (zlen_nn l); lia]). rewrite app_nil_r. reflexivity.
Qed.
End B2.

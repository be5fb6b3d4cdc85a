(** Streams of messages: the client and the server. *)
From Coq Require Import String Ascii.
From Verif Require Import Base M_Slice M_Str S_Str M_Bytes P_Base P_Bmh P_Str P_Str2 P_Bytes P_Bytes3 P_Http.
From Verif Require Import M_Bigint S_Bigint M_Http S_Http S_HttpRun S_Bytes P_Http2 P_Http3.
From Coq Require Import ZifyBool ZifyNat.
Local Notation llen := List.length.


Lemma stream_cons {A} (m : A * list Z) ms : stream (m :: ms) = snd m ++ stream ms.
Proof. reflexivity. Qed.
Lemma stream_app {A} (a b : list (A * list Z)) : stream (a ++ b) = stream a ++ stream b.
Proof. unfold stream. rewrite map_app, concat_app. reflexivity. Qed.


Lemma on_wire_ne start fs body w : start <> [] -> on_wire start fs body w -> w <> [].
Proof. intros H (_ & b & _ & ->) E. apply H. destruct start; [reflexivity|discriminate E]. Qed.
Lemma response_ne r w : response_on_wire r w -> w <> [].
Proof. intros (_ & _ & d & reason & _ & _ & H). eapply on_wire_ne; [|exact H]. discriminate. Qed.
Lemma request_ne q w : request_on_wire q w -> w <> [].
Proof. intros H. pose proof (request_start q w H) as [S _]. destruct H as (_ & _ & _ & H). exact (on_wire_ne _ _ _ _ S H). Qed.

Section C.
Context (lower : list Z -> list Z) (Hlow : lower_ok lower).

Lemma client_loop_ok rs : Forall good_response rs -> forall out buf t fuel, buf ++ t = stream (firstn (llen out) rs) -> bfits buf -> Forall (fun m => bfits (snd m)) rs ->
  (llen buf < fuel)%nat ->
  exists m ds buf', client_loop lower fuel (Client buf out) = Ok (Client buf' (skipn m out), delivers ds) /\ (m <= llen out)%nat /\ (m <= llen rs)%nat /\
    map fst ds = firstn m out /\ Forall2 same_response (map fst (firstn m rs)) (map snd ds) /\ buf = stream (firstn m rs) ++ buf' /\ unfinished (skipn m rs) buf'.
Proof.
  assert (Nil : forall out fuel, client_loop lower (S fuel) (Client [] out) = Ok (Client [] out, [])) by reflexivity.
  induction 1 as [|(r, w) rs (Hw & Ho) Hrs IH]; intros out buf t fuel E F FW Hf; (destruct fuel as [|fuel]; [lia|]).
  - rewrite firstn_nil in E. destruct buf; [|discriminate]. exists O, [], []. rewrite Nil. repeat split; try reflexivity; try lia. constructor.
  - inversion FW as [|? ? Fw FW2]; subst. cbn [fst snd] in *. pose proof (response_ne _ _ Hw) as Hne. destruct out as [|k out].
    { cbn [llen firstn] in E. destruct buf; [|discriminate]. exists O, [], []. rewrite Nil. repeat split; try reflexivity; try (cbn; lia); [constructor|]. exists w. split; [assumption|reflexivity]. }
    cbn [llen firstn] in E. rewrite stream_cons in E. cbn [snd] in E. destruct (prefix_cases _ _ _ _ E) as [(u & Ew & _ & Hu)|(u & -> & Eu)].
    + exists O, [], buf. cbn [client_loop c_buf]. rewrite (response_prefix lower Hlow r w buf u Hw Fw Ew Hu). cbn [bindr c_out skipn].
      repeat split; try reflexivity; try (cbn; lia); [constructor|]. exists u. split; assumption.
    + cbn [client_loop c_buf]. destruct (response_ok lower Hlow r w u Hw F) as (r' & -> & Hsame). cbn [bindr c_out].
      assert (Hev : match dget (r_headers r') (lit "connection") with Some v => if bytes_eq v (lit "close") then [Reconnect] else [] | None => [] end = []).
      { destruct Hsame as (_ & _ & _ & Hd). change lit with asc. rewrite Hd. unfold keeps_open in Ho. cbn [fst] in Ho. destruct (value_of (hr_fields r) (asc "connection")) as [v|]; [|reflexivity].
        destruct (bytes_eq v (asc "close")) eqn:Ec; [apply beq_ok in Ec; congruence|reflexivity]. }
      rewrite Hev. destruct (IH out u t fuel) as (m & ds & buf' & -> & M1 & M2 & M3 & M4 & M5 & M6); [symmetry; exact Eu|exact (proj2 (bfits_app _ _ F))|assumption| |].
      { rewrite app_length in Hf. destruct w; [congruence|]. cbn in Hf. lia. }
      exists (S m), ((k, r') :: ds), buf'. cbn [bindr app delivers map fst snd firstn skipn llen]. repeat split; try reflexivity; try lia; try assumption.
      * rewrite M3. reflexivity.
      * constructor; assumption.
      * rewrite stream_cons, <- app_assoc, <- M5. reflexivity.
Qed.

Lemma client_run_app s xs ys : client_run lower s (xs ++ ys) = (do (s1, e1) <- client_run lower s xs; do (s2, e2) <- client_run lower s1 ys; Ok (s2, e1 ++ e2)).
Proof.
  revert s. induction xs as [|x xs IH]; intros s; cbn [app client_run bindr].
  - destruct (client_run lower s ys) as [[s2 e2]| | |]; reflexivity.
  - destruct (client_step lower s x) as [[s1 e1]| | |]; cbn [bindr]; try reflexivity. rewrite IH. destruct (client_run lower s1 xs) as [[s2 e2]| | |]; cbn [bindr]; try reflexivity.
    destruct (client_run lower s2 ys) as [[s3 e3]| | |]; cbn [bindr]; try reflexivity. rewrite app_assoc. reflexivity.
Qed.
Lemma asked_app a b : asked (a ++ b) = asked a ++ asked b.
Proof. unfold asked. apply flat_map_app. Qed.
Lemma received_app a b : received (a ++ b) = received a ++ received b.
Proof. unfold received. apply flat_map_app. Qed.

Lemma firstn_skipn_split {A} (l : list A) n k : firstn (n + k) l = firstn n l ++ firstn k (skipn n l).
Proof. revert l. induction n as [|n IH]; intros l; [reflexivity|]. destruct l; cbn [Nat.add firstn skipn app]; [rewrite firstn_nil; reflexivity|]. rewrite IH. reflexivity. Qed.
Lemma skipn_add {A} (l : list A) n k : skipn k (skipn n l) = skipn (n + k) l.
Proof. revert l. induction n as [|n IH]; intros l; [reflexivity|]. destruct l; cbn [Nat.add skipn]; [rewrite skipn_nil; reflexivity|]. apply IH. Qed.

Lemma client_ok rs : Forall good_response rs -> bfits (stream rs) -> forall xs,
  (forall ys zs, xs = ys ++ zs -> exists t, received ys ++ t = stream (firstn (llen (asked ys)) rs)) ->
  exists n ds buf, client_run lower (Client [] []) xs = Ok (Client buf (skipn n (asked xs)), delivers ds) /\ (n <= llen (asked xs))%nat /\ (n <= llen rs)%nat /\
    map fst ds = firstn n (asked xs) /\ Forall2 same_response (map fst (firstn n rs)) (map snd ds) /\
    received xs = stream (firstn n rs) ++ buf /\ unfinished (skipn n rs) buf.
Proof.
  intros Hrs F. assert (FW : Forall (fun m => bfits (snd m)) rs).
  { clear Hrs. induction rs as [|m rs IH]; [constructor|]. rewrite stream_cons in F. destruct (bfits_app _ _ F). constructor; auto. }
  assert (Fit : forall k p t, p ++ t = stream (firstn k rs) -> bfits p).
  { intros k p t E. rewrite <- (firstn_skipn k rs), stream_app in F. destruct (bfits_app _ _ F) as [F1 _]. rewrite <- E in F1. exact (proj1 (bfits_app _ _ F1)). }
  induction xs as [|x xs IH] using rev_ind; intros Hok.
  - exists O, [], []. cbn [client_run]. repeat split; try reflexivity; try (cbn; lia); [constructor|]. destruct rs as [|m rs]; [reflexivity|]. inversion Hrs as [|? ? [Hm _]]; subst. exists (snd m). split; [exact (response_ne _ _ Hm)|reflexivity].
  - destruct IH as (n & ds & buf & Er & N1 & N2 & N3 & N4 & N5 & N6).
    { intros ys zs E. apply (Hok ys (zs ++ [x])). rewrite E, app_assoc. reflexivity. }
    rewrite client_run_app, Er. cbn [bindr]. rewrite asked_app, received_app. destruct x as [k|d].
    + cbn [client_run client_step bindr asked received flat_map app c_buf c_out]. exists n, ds, buf. rewrite !app_nil_r. split; [rewrite skipn_app; replace (n - llen (asked xs))%nat with O by lia; reflexivity|].
      split; [rewrite app_length; cbn; lia|]. split; [assumption|]. split; [rewrite firstn_app; replace (n - llen (asked xs))%nat with O by lia; rewrite firstn_O, app_nil_r; exact N3|]. auto.
    + destruct (Hok (xs ++ [Data d]) [] (eq_sym (app_nil_r _))) as [t Et]. rewrite received_app, asked_app in Et. cbn [asked received flat_map app] in *. rewrite !app_nil_r in *.
      cbn [client_run client_step]. unfold client_receive. cbn [c_buf c_out].
      assert (Et2 : (buf ++ d) ++ t = stream (firstn (llen (skipn n (asked xs))) (skipn n rs))).
      { rewrite N5, <- !app_assoc in Et. replace (llen (asked xs)) with (n + (llen (asked xs) - n))%nat in Et by lia. rewrite firstn_skipn_split, stream_app in Et. apply app_inv_head in Et. rewrite skipn_length, <- app_assoc. exact Et. }
      destruct (client_loop_ok (skipn n rs)) with (out := skipn n (asked xs)) (buf := buf ++ d) (t := t) (fuel := S (llen (buf ++ d))) as (m & ds2 & buf' & El & M1 & M2 & M3 & M4 & M5 & M6); [rewrite <- (firstn_skipn n rs) in Hrs; apply Forall_app in Hrs; tauto|exact Et2| | |lia|].
      { assert (F3 : bfits (received xs ++ d)) by (eapply Fit; exact Et). rewrite N5, <- app_assoc in F3. exact (proj2 (bfits_app _ _ F3)). }
      { rewrite <- (firstn_skipn n rs) in FW; apply Forall_app in FW; tauto. }
      rewrite El. cbn [bindr]. rewrite app_nil_r. exists (n + m)%nat, (ds ++ ds2), buf'. rewrite skipn_length in M1, M2.
      split; [unfold delivers; rewrite skipn_add, map_app; reflexivity|]. split; [lia|]. split; [lia|].
      split; [rewrite map_app, N3, M3, firstn_skipn_split; reflexivity|]. split; [rewrite firstn_skipn_split, !map_app; apply Forall2_app; assumption|].
      split; [|rewrite <- skipn_add; exact M6]. rewrite N5, <- app_assoc, M5, firstn_skipn_split, stream_app, <- app_assoc. reflexivity.
Qed.
End C.

(** ** The server. *)
Section S.
Context (lower : list Z -> list Z) (Hlow : lower_ok lower).

Lemma server_step_ok qs s d t : Forall good_request qs -> s_cb s = true -> (s_buf s ++ d) ++ t = stream qs -> bfits (stream qs) ->
  exists s' es, server_receive lower s d = Ok (s', es) /\ s_cb s' = true /\
  ((requests es = [] /\ s_buf s' = s_buf s ++ d /\ unfinished qs (s_buf s ++ d)) \/
   exists q m qs', qs = m :: qs' /\ requests es = [q] /\ same_request (fst m) q /\ s_buf s ++ d = snd m ++ s_buf s' /\ s_buf s' ++ t = stream qs').
Proof.
  intros Hq Hc E F. unfold server_receive. rewrite Hc. cbn [negb]. assert (Fb : bfits (s_buf s ++ d)) by (rewrite <- E in F; exact (proj1 (bfits_app _ _ F))).
  destruct qs as [|(q0, w) qs].
  - destruct (s_buf s ++ d) as [|c l] eqn:Eb; [|discriminate]. change (parse_request lower []) with (Ok (@None request, @nil Z)). cbn [bindr].
    eexists _, _. split; [reflexivity|]. split; [reflexivity|]. left. repeat split; reflexivity.
  - inversion Hq as [|? ? Hw Hq2]; subst. unfold good_request in Hw. rewrite stream_cons in *. cbn [fst snd] in *. destruct (prefix_cases _ _ _ _ E) as [(u & Ew & _ & Hu)|(u & Eb & Eu)].
    + rewrite (request_prefix lower Hlow q0 w _ u Hw (proj1 (bfits_app _ _ F)) Ew Hu). cbn [bindr]. eexists _, _. split; [reflexivity|]. split; [reflexivity|]. left. repeat split. exists u. split; assumption.
    + rewrite Eb in Fb |- *. destruct (request_ok lower Hlow q0 w u Hw Fb) as (r & -> & Hsame). cbn [bindr]. eexists _, _. split; [reflexivity|]. split; [reflexivity|]. right.
      exists r, (q0, w), qs. cbn [fst snd s_buf]. split; [reflexivity|]. split; [unfold requests; rewrite flat_map_app; destruct (s_version s) as [v|]; [destruct (bytes_eq v (q_version r))|]; reflexivity|]. split; [assumption|]. split; [reflexivity|]. symmetry. exact Eu.
Qed.

Lemma requests_app a b : requests (a ++ b) = requests a ++ requests b.
Proof. apply flat_map_app. Qed.
Lemma server_ok : forall ds qs s t, Forall good_request qs -> s_cb s = true -> (s_buf s ++ concat ds) ++ t = stream qs -> bfits (stream qs) ->
  exists s' es n, server_run lower s ds = Ok (s', es) /\ s_cb s' = true /\ (n <= llen qs)%nat /\ (n <= llen ds)%nat /\
    Forall2 same_request (map fst (firstn n qs)) (requests es) /\ s_buf s ++ concat ds = stream (firstn n qs) ++ s_buf s'.
Proof.
  induction ds as [|d ds IH]; intros qs s t Hq Hc E F; cbn [server_run concat].
  - exists s, [], O. rewrite app_nil_r. repeat split; try reflexivity; try (cbn; lia); constructor.
  - cbn [concat] in E. destruct (server_step_ok qs s d (concat ds ++ t) Hq Hc ltac:(rewrite <- E, <- !app_assoc; reflexivity) F) as (s1 & e1 & -> & Hc1 & H). cbn [bindr].
    destruct H as [(R & B & _)|(q & m & qs' & -> & R & Hs & B & B2)].
    + destruct (IH qs s1 t Hq Hc1 ltac:(rewrite B, <- E, <- !app_assoc; reflexivity) F) as (s2 & e2 & n & -> & K1 & K2 & K3 & K4 & K5). cbn [bindr]. exists s2, (e1 ++ e2), n. rewrite requests_app, R. rewrite B in K5.
      repeat split; try assumption; [cbn; lia|]. rewrite app_assoc. exact K5.
    + inversion Hq as [|? ? Hm Hq2]; subst. rewrite stream_cons in F. destruct (IH qs' s1 t Hq2 Hc1 ltac:(rewrite <- app_assoc; exact B2) (proj2 (bfits_app _ _ F))) as (s2 & e2 & n & -> & K1 & K2 & K3 & K4 & K5).
      cbn [bindr]. exists s2, (e1 ++ e2), (S n). rewrite requests_app, R. cbn [firstn map app llen]. rewrite stream_cons. repeat split; try assumption; try lia; [constructor; assumption|].
      rewrite app_assoc, B, <- !app_assoc, K5. reflexivity.
Qed.

(** If no piece brings the ends of two requests, each is handed on with the piece that ends it. *)
Lemma server_each : forall ds qs s, Forall good_request qs -> s_cb s = true -> bfits (stream qs) -> unfinished qs (s_buf s) ->
  (exists t, (s_buf s ++ concat ds) ++ t = stream qs) ->
  (forall ps d rest n m, ds = ps ++ d :: rest -> (n <= llen qs)%nat -> (m <= llen qs)%nat ->
     (exists b, s_buf s ++ concat ps = stream (firstn n qs) ++ b /\ unfinished (skipn n qs) b) ->
     (exists b, s_buf s ++ concat ps ++ d = stream (firstn m qs) ++ b /\ unfinished (skipn m qs) b) -> (m <= S n)%nat) ->
  exists s' es n, server_run lower s ds = Ok (s', es) /\ Forall2 same_request (map fst (firstn n qs)) (requests es) /\ (n <= llen qs)%nat /\
    s_buf s ++ concat ds = stream (firstn n qs) ++ s_buf s' /\ unfinished (skipn n qs) (s_buf s').
Proof.
  assert (Cut : forall (qs : list (hrequest * list Z)), Forall good_request qs -> forall b t, b ++ t = stream qs -> exists n b', (n <= llen qs)%nat /\ b = stream (firstn n qs) ++ b' /\ unfinished (skipn n qs) b').
  { induction 1 as [|m qs Hm Hq IH]; intros b t E.
    - destruct b; [|discriminate]. exists O, []. repeat split; auto.
    - rewrite stream_cons in E. destruct (prefix_cases _ _ _ _ E) as [(u & Ew & _ & Hu)|(u & -> & Eu)].
      + exists O, b. split; [lia|]. split; [reflexivity|]. exists u. split; assumption.
      + destruct (IH u t (eq_sym Eu)) as (n & b' & L & -> & U). exists (S n), b'. cbn [firstn skipn llen]. rewrite stream_cons, <- app_assoc. split; [lia|auto]. }
  induction ds as [|d ds IH]; intros qs s Hq Hc F Hu [t E] Hone; cbn [server_run concat].
  - exists s, [], O. rewrite app_nil_r. repeat split; try (cbn; lia); [constructor|assumption].
  - cbn [concat] in E. destruct (server_step_ok qs s d (concat ds ++ t) Hq Hc ltac:(rewrite <- E, <- !app_assoc; reflexivity) F) as (s1 & e1 & -> & Hc1 & H). cbn [bindr].
    destruct H as [(R & B & U)|(q & m & qs' & -> & R & Hs & B & B2)].
    + destruct (IH qs s1) as (s2 & e2 & n & -> & K4 & K2 & K5 & K6); [assumption|assumption|assumption|rewrite B; assumption|exists t; rewrite B, <- E, <- !app_assoc; reflexivity| |].
      { intros ps d' rest n k Ed N K Hb1 Hb2. apply (Hone (d :: ps) d' rest n k); [rewrite Ed; reflexivity|assumption|assumption| |]; cbn [concat]; rewrite <- ?app_assoc; rewrite B in Hb1, Hb2; rewrite <- app_assoc in Hb1; rewrite <- app_assoc in Hb2; assumption. }
      cbn [bindr]. exists s2, (e1 ++ e2), n. rewrite requests_app, R, app_assoc, <- B. auto.
    + inversion Hq as [|? ? Hm Hq2]; subst. rewrite stream_cons in F. destruct (bfits_app _ _ F) as [_ F2].
      destruct (Cut qs' Hq2 (s_buf s1) (concat ds ++ t) B2) as (k & b' & Lk & Ek & Uk).
      assert (k = O). { pose proof (Hone [] d ds O (S k) eq_refl ltac:(lia) ltac:(cbn; lia)) as H1. cbn [concat app skipn firstn] in H1. rewrite app_nil_r in H1. enough (S k <= 1)%nat by lia. apply H1.
        - exists (s_buf s). split; [reflexivity|exact Hu].
        - exists b'. split; [|exact Uk]. rewrite B, stream_cons, Ek, <- app_assoc. reflexivity. }
      subst k. cbn [firstn skipn stream concat map app] in Ek, Uk. subst b'.
      destruct (IH qs' s1) as (s2 & e2 & n & -> & K4 & K2 & K5 & K6); [assumption|assumption|assumption|assumption|exists t; rewrite <- app_assoc; exact B2| |].
      { intros ps d' rest n k Ed N K (b1 & G1 & G2) (b2 & G3 & G4). enough (S k <= S (S n))%nat by lia. apply (Hone (d :: ps) d' rest (S n) (S k)); [rewrite Ed; reflexivity|cbn; lia|cbn; lia| |].
        - exists b1. split; [|exact G2]. cbn [concat firstn]. rewrite stream_cons, app_assoc, B, <- !app_assoc, G1. reflexivity.
        - exists b2. split; [|exact G4]. cbn [concat firstn]. rewrite stream_cons, <- app_assoc, app_assoc, B, <- !app_assoc, G3. reflexivity. }
      cbn [bindr]. exists s2, (e1 ++ e2), (S n). rewrite requests_app, R. cbn [firstn map app llen skipn]. rewrite stream_cons, app_assoc, B, <- !app_assoc, K5. repeat split; [constructor; assumption|lia|assumption].
Qed.
End S.

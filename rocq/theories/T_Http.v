(** HTTP messages (base/src/http.act): parsing, the streams of the client and the server, building. *)
From Coq Require Import String Ascii.
From Verif Require Import Base M_Slice M_Bytes P_Base P_Bmh P_Http M_Bigint S_Bigint S_Str M_Http S_Http S_HttpRun S_Bytes P_Http2 P_Http3 P_Http4 P_Http5 P_Http6.
From Coq Require Import ZifyBool ZifyNat.
Local Notation llen := List.length.

Lemma small_ok : lower_ok (map small).
Proof. intros t _. reflexivity. Qed.
Definition crlf (l : list string) : list Z := concat (map (fun s => asc s ++ CRLF) l).

(** * C71: messages. *)

(** A message, whatever follows it, comes out as it was written, and what follows is left. *)
Theorem C71_request : forall lower q w rest, lower_ok lower -> request_on_wire q w -> bfits (w ++ rest) ->
  exists r, parse_request lower (w ++ rest) = Ok (Some r, rest) /\ same_request q r.
Proof. intros. apply request_ok; assumption. Qed.
Print Assumptions C71_request.
Theorem C71_response : forall lower p w rest, lower_ok lower -> response_on_wire p w -> bfits (w ++ rest) ->
  exists r, parse_response lower (w ++ rest) = Ok (Some r, rest) /\ same_response p r.
Proof. intros. apply response_ok; assumption. Qed.
Print Assumptions C71_response.

(** The beginning of a message is not taken for a message, and stays as it is. *)
Theorem C71_incomplete : forall lower p t, lower_ok lower -> t <> [] -> bfits (p ++ t) ->
  (forall q, request_on_wire q (p ++ t) -> parse_request lower p = Ok (None, p)) /\
  (forall r, response_on_wire r (p ++ t) -> parse_response lower p = Ok (None, p)).
Proof.
  intros lower p t Hl Ht F. split; intros x Hx.
  - apply (request_prefix lower Hl x (p ++ t) p t); auto.
  - apply (response_prefix lower Hl x (p ++ t) p t); auto.
Qed.
Print Assumptions C71_incomplete.

(** Whatever the bytes are, parsing ends, and a message that is handed on is gone from the bytes. *)
Theorem C71_any : forall lower i, bfits i -> parsed i (parse_request lower i) /\ parsed i (parse_response lower i).
Proof. intros lower i F. split; [apply request_settled|apply response_settled]; assumption. Qed.
Print Assumptions C71_any.

(** A chunked response with two chunks. *)
Definition ok_fields : list field := [Field (asc "Server") 1 (asc "x y") 0; Field (asc "transfer-Encoding") 0 (asc "chunked") 2].
Definition ok_wire : list Z := crlf ["HTTP/1.1 200 OK"; "Server: x y"; "transfer-Encoding:chunked  "; ""; "3"; "abc"; "0a"; "0123456789"; "0"; ""]%string.
Lemma field_value_dec (s : string) : forallb (fun c => (32 <=? c) && (c <=? 126)) (asc s) && negb (hd 0 (asc s) =? 32) && negb (last (asc s) 0 =? 32) = true -> field_value (asc s).
Proof. intros H. apply andb_prop in H as [H H3]. apply andb_prop in H as [H1 H2]. rewrite forallb_forall in H1. split; [apply Forall_forall; intros c Hc; specialize (H1 c Hc); lia|lia]. Qed.
Lemma field_name_dec (s : string) : negb (zlen (asc s) =? 0) && forallb (fun c => (33 <=? c) && (c <=? 126) && negb (c =? 58)) (asc s) = true -> field_name (asc s).
Proof. intros H. apply andb_prop in H as [H1 H2]. rewrite forallb_forall in H2. split; [intros E; rewrite E in H1; discriminate|apply Forall_forall; intros c Hc; specialize (H2 c Hc); lia]. Qed.
Ltac fields := repeat first [apply Forall_nil | apply Forall_cons; [split; [apply field_name_dec|apply field_value_dec]; reflexivity|]].
Lemma no_prefix s : negb (match s with 48 :: c :: _ => existsb (Z.eqb c) [120; 88; 111; 79; 98; 66] | _ => false end) = true -> ~ has_prefix s.
Proof.
  intros H (p & r & b & -> & c & -> & Hc). cbn [app] in H. cbn [existsb] in H. rewrite negb_true_iff in H. lia.
Qed.
Lemma ok_on_wire : good_response (HResponse (asc "1.1") 200 ok_fields (asc "abc0123456789"), ok_wire).
Proof.
  split; [|intros C; discriminate C]. split; [right; reflexivity|]. split; [cbn; lia|]. exists (asc "200"), (asc " OK"). split; [|split].
  - exact (num_more 10 [50; 48] 20 48 0 (num_more 10 [50] 2 48 0 (num_one 10 50 2 ltac:(unfold digit; lia) ltac:(lia)) ltac:(unfold digit; lia) ltac:(lia)) ltac:(unfold digit; lia) ltac:(lia)).
  - right. exists (asc "OK"). split; [reflexivity|]. known.
  - split; [fields|].
    exists (crlf ["3"; "abc"; "0a"; "0123456789"; "0"; ""]%string). split; [|reflexivity]. split; [left; reflexivity|].
    apply (chunked_more (asc "3") (asc "abc") (asc "0123456789") (crlf ["0a"; "0123456789"; "0"; ""]%string)); [exact (num_one 16 51 3 ltac:(unfold digit; lia) ltac:(lia))|apply no_prefix; reflexivity|discriminate|].
    apply (chunked_more (asc "0a") (asc "0123456789") [] (crlf ["0"; ""]%string)); [exact (num_more 16 [48] 0 97 10 (num_one 16 48 0 ltac:(unfold digit; lia) ltac:(lia)) ltac:(unfold digit; lia) ltac:(lia))|apply no_prefix; reflexivity|discriminate|].
    apply (chunked_last (asc "0")); [exact (num_one 16 48 0 ltac:(unfold digit; lia) ltac:(lia))|apply no_prefix; reflexivity].
Qed.
Example C71_case : bfits (ok_wire ++ asc "HTTP/1.1 2") /\
  parse_response (map small) (ok_wire ++ asc "HTTP/1.1 2") =
  Ok (Some (Response (asc "1.1") 200 [(asc "server", asc "x y"); (asc "transfer-encoding", asc "chunked")] (asc "abc0123456789")), asc "HTTP/1.1 2").
Proof. split; vm_compute; reflexivity. Qed.

(** Legal messages outside of these, and illegal ones:
    - a chunk with an extension is skipped, and so is its data: the body is lost;
    - trailer fields are left in the stream, without their first two bytes;
    - another case, or another coding before it ("gzip, chunked"), and the message never ends;
    - the CRLF after the data of a chunk is not looked at if two bytes are there;
    - a negative length is taken: here the body and the next message overlap;
    - a length that is not a number is a ValueError;
    - a tab before the value becomes part of it;
    - an unknown start line throws away all that came after the message, too. *)
Theorem C71_refuted :
  let p := parse_response (map small) in
  let q := parse_request (map small) in
  let r := Response (asc "1.1") 200 [(asc "transfer-encoding", asc "chunked")] in
  let start := ["HTTP/1.1 200 OK"; "Transfer-Encoding: chunked"; ""]%string in
  p (crlf (start ++ ["4;x=1"; "wxyz"; "0"; ""]%string)) = Ok (Some (r []), []) /\
  p (crlf (start ++ ["2"; "ab"; "0"; "X: y"; ""]%string)) = Ok (Some (r (asc "ab")), crlf [" y"; ""]%string) /\
  (forall v, In v [asc "Chunked"; asc "gzip, chunked"] -> let i := crlf ["HTTP/1.1 200 OK"]%string ++ asc "Transfer-Encoding: " ++ v ++ CRLF ++ CRLF ++ crlf ["2"; "ab"; "0"; ""]%string in p i = Ok (None, i)) /\
  p (crlf (start ++ ["4"; "wxyzAB0"; ""]%string)) = Ok (Some (r (asc "wxyz")), []) /\
  q (crlf ["GET / HTTP/1.1"; "Content-Length: -18"; ""; "GET /2 HTTP/1.1"; ""]%string) =
    Ok (Some (Request (asc "GET") (asc "/") (asc "1.1") [(asc "content-length", asc "-18")] (asc "G")), skipn 1 (crlf ["GET /2 HTTP/1.1"; ""]%string)) /\
  q (crlf ["GET / HTTP/1.1"; "Content-Length: abc"; ""]%string) = Exn ValueError /\
  q (asc "GET / HTTP/1.1" ++ CRLF ++ asc "A:" ++ [9] ++ asc "b" ++ CRLF ++ CRLF) = Ok (Some (Request (asc "GET") (asc "/") (asc "1.1") [(asc "a", 9 :: asc "b")] []), []) /\
  q (crlf ["GET /"; ""; "GET / HTTP/1.1"; ""]%string) = Ok (None, []).
Proof.
  cbv zeta. repeat match goal with |- _ /\ _ => split end.
  3: intros v [<-|[<-|[]]]. all: vm_compute; reflexivity.
Qed.
Print Assumptions C71_refuted.

(** * C72: the client. *)

(** The other side answers the requests in order, and only after they were made: at every point of the
    history the bytes received are the beginning of the responses to what was asked so far.  However these
    bytes are cut into pieces, and whenever they arrive between the requests, the responses that are complete
    are delivered, each to the callback of its request, in order, once; the rest waits. *)
Theorem C72_client : forall lower rs xs, lower_ok lower -> Forall good_response rs -> bfits (stream rs) ->
  (forall ys zs, xs = ys ++ zs -> exists t, received ys ++ t = stream (firstn (llen (asked ys)) rs)) ->
  exists n ds buf, client_run lower (Client [] []) xs = Ok (Client buf (skipn n (asked xs)), delivers ds) /\
    received xs = stream (firstn n rs) ++ buf /\ unfinished (skipn n rs) buf /\ (n <= llen (asked xs))%nat /\
    map fst ds = firstn n (asked xs) /\ Forall2 same_response (map fst (firstn n rs)) (map snd ds).
Proof.
  intros lower rs xs Hl Hr F H. destruct (client_ok lower Hl rs Hr F xs H) as (n & ds & buf & E & N1 & N2 & N3 & N4 & N5 & N6). exists n, ds, buf. auto 8.
Qed.
Print Assumptions C72_client.

(** Whatever arrives: the loop of the client ends. *)
Theorem C72_any : forall lower s d, bfits (c_buf s ++ d) -> settled (client_receive lower s d).
Proof. intros lower s d F. unfold client_receive. apply client_loop_settled; [exact F|cbn [c_buf]; lia]. Qed.
Print Assumptions C72_any.

Example C72_case :
  let xs := [Ask 7; Data (firstn 20 ok_wire); Ask 8; Data (skipn 20 ok_wire ++ firstn 60 ok_wire)]%nat in
  (forall ys zs, xs = ys ++ zs -> exists t, received ys ++ t = stream (firstn (llen (asked ys)) [(tt, ok_wire); (tt, ok_wire)])) /\
  bfits (stream [(tt, ok_wire); (tt, ok_wire)]) /\
  exists r, client_run (map small) (Client [] []) xs = Ok (Client (firstn 60 ok_wire) [8%nat], [Deliver 7 r]) /\ r_body r = asc "abc0123456789".
Proof.
  split; [|split; [vm_compute; reflexivity|eexists; split; [vm_compute; reflexivity|reflexivity]]].
  intros ys zs E. destruct ys as [|y1 ys]; [exists []; reflexivity|]. cbn [app] in E. injection E as <- E.
  destruct ys as [|y2 ys]; [exists ok_wire; vm_compute; reflexivity|]. cbn [app] in E. injection E as <- E.
  destruct ys as [|y3 ys]; [exists (skipn 20 ok_wire); vm_compute; reflexivity|]. cbn [app] in E. injection E as <- E.
  destruct ys as [|y4 ys]; [exists (skipn 20 ok_wire ++ ok_wire); vm_compute; reflexivity|]. cbn [app] in E. injection E as <- E.
  destruct ys as [|y5 ys]; [exists (skipn 60 ok_wire); vm_compute; reflexivity|discriminate].
Qed.

(** Where the client fails:
    - the response to a HEAD request says the length of a body that does not come: the next response is
      taken for that body, and the second request is never answered;
    - bytes left in the buffer when the connection is replaced are put before those of the new
      connection, whose response is thrown away. *)
Theorem C72_refuted :
  (let xs := [Ask 1; Ask 2; Data (crlf ["HTTP/1.1 200 OK"; "Content-Length: 19"; ""]%string); Data (crlf ["HTTP/1.1 200 OK"; ""]%string)]%nat in
   client_run (map small) (Client [] []) xs = Ok (Client [] [2%nat], [Deliver 1 (Response (asc "1.1") 200 [(asc "content-length", asc "19")] (crlf ["HTTP/1.1 200 OK"; ""]%string))])) /\
  (let xs := [Ask 1; Ask 2; Data (crlf ["HTTP/1.1 200 OK"; "Connection: close"; ""]%string ++ asc "HTTP/1.1 2"); Data (crlf ["HTTP/1.1 200 OK"; ""]%string)]%nat in
   client_run (map small) (Client [] []) xs = Ok (Client [] [2%nat], [Reconnect; Deliver 1 (Response (asc "1.1") 200 [(asc "connection", asc "close")] [])])).
Proof. split; vm_compute; reflexivity. Qed.
Print Assumptions C72_refuted.

(** * C73: the server. *)

(** Requests are handed on whole, in order, none twice, and no byte of the stream is lost; but see
    C73_refuted. *)
Theorem C73_order_partial : forall lower qs ds t, lower_ok lower -> Forall good_request qs -> bfits (stream qs) -> concat ds ++ t = stream qs ->
  exists s es n, server_run lower listening ds = Ok (s, es) /\ (n <= llen qs)%nat /\
    Forall2 same_request (map fst (firstn n qs)) (requests es) /\ concat ds = stream (firstn n qs) ++ s_buf s.
Proof.
  intros lower qs ds t Hl Hq F E. destruct (server_ok lower Hl ds qs listening t Hq eq_refl E F) as (s & es & n & H1 & _ & H2 & _ & H3 & H4). exists s, es, n. auto.
Qed.
Print Assumptions C73_order_partial.

(** If no piece has the ends of two requests in it, every request is handed on with the piece that ends
    it. *)
Theorem C73_each_partial : forall lower qs ds t, lower_ok lower -> Forall good_request qs -> bfits (stream qs) -> concat ds ++ t = stream qs ->
  (forall ps d rest n m, ds = ps ++ d :: rest -> (n <= llen qs)%nat -> (m <= llen qs)%nat ->
     (exists b, concat ps = stream (firstn n qs) ++ b /\ unfinished (skipn n qs) b) ->
     (exists b, concat ps ++ d = stream (firstn m qs) ++ b /\ unfinished (skipn m qs) b) -> (m <= S n)%nat) ->
  exists s es n, server_run lower listening ds = Ok (s, es) /\ (n <= llen qs)%nat /\
    Forall2 same_request (map fst (firstn n qs)) (requests es) /\ concat ds = stream (firstn n qs) ++ s_buf s /\ unfinished (skipn n qs) (s_buf s).
Proof.
  intros lower qs ds t Hl Hq F E H. destruct (server_each lower Hl ds qs listening Hq eq_refl F) as (s & es & n & H1 & H2 & H3 & H4 & H5); [|exists t; exact E|exact H|exists s, es, n; auto].
  destruct qs as [|m qs]; [reflexivity|]. inversion Hq as [|? ? Hm _]; subst. exists (snd m). split; [exact (request_ne _ _ Hm)|reflexivity].
Qed.
Print Assumptions C73_each_partial.

Definition get1 : list Z := crlf ["GET /1 HTTP/1.1"; "Host: h"; ""]%string.
Definition get2 : list Z := crlf ["GET /2 HTTP/1.1"; "Host: h"; ""]%string.
Definition req (p : string) : request := Request (asc "GET") (asc p) (asc "1.1") [(asc "host", asc "h")] [].
Definition hreq (p : string) : hrequest := HRequest (asc "GET") (asc p) (asc "1.1") [Field (asc "Host") 1 (asc "h") 0] [].
Lemma get_wire : good_request (hreq "/1", get1) /\ good_request (hreq "/2", get2).
Proof.
  split; (split; [known|split; [known|split; [right; reflexivity|split; [fields|]]]]; exists []; split; [split; reflexivity|reflexivity]).
Qed.
Example C73_case : let qs := [(hreq "/1", get1); (hreq "/2", get2)] in let ds := [firstn 9 get1; skipn 9 get1 ++ firstn 3 get2; skipn 3 get2] in
  Forall good_request qs /\ bfits (stream qs) /\ concat ds ++ [] = stream qs /\
  (forall ps d rest n m, ds = ps ++ d :: rest -> (n <= llen qs)%nat -> (m <= llen qs)%nat ->
     (exists b, concat ps = stream (firstn n qs) ++ b /\ unfinished (skipn n qs) b) ->
     (exists b, concat ps ++ d = stream (firstn m qs) ++ b /\ unfinished (skipn m qs) b) -> (m <= S n)%nat) /\
  (exists s es, server_run (map small) listening ds = Ok (s, es) /\ requests es = [req "/1"; req "/2"] /\ s_buf s = []).
Proof.
  cbv zeta. split; [apply Forall_cons; [apply get_wire|apply Forall_cons; [apply get_wire|apply Forall_nil]]|]. split; [vm_compute; reflexivity|]. split; [vm_compute; reflexivity|]. split; [|eexists _, _; split; [vm_compute; reflexivity|]; split; reflexivity].
  intros ps d rest n m E Hn Hm (b1 & B1 & U1) (b2 & B2 & U2). cbn [llen] in Hn, Hm.
  destruct n as [|n]; [|lia]. destruct m as [|[|[|m]]]; [lia|lia| |lia]. exfalso. cbn [skipn unfinished] in U1, U2. destruct U1 as (t & Ht & U1). subst b2. rewrite app_nil_r in B2. cbn [firstn stream map concat app] in B1. rewrite <- B1 in U1.
  apply (f_equal (@llen Z)) in B2. rewrite app_length in B2. apply (f_equal (@llen Z)) in U1. rewrite app_length in U1. destruct t as [|x t]; [congruence|]. clear - E B2 U1.
  destruct ps as [|p1 ps]; cbn [app] in E; injection E as E1 E; [rewrite <- E1 in B2; vm_compute in B2; discriminate|]. destruct ps as [|p2 ps]; cbn [app] in E; injection E as E2 E; [subst; vm_compute in B2; discriminate|].
  destruct ps as [|p3 ps]; cbn [app] in E; injection E as E3 E; [|destruct ps; discriminate]. subst p1 p2. cbn [concat] in U1. rewrite app_nil_r in U1. vm_compute in U1. discriminate.
Qed.

(** Two requests in one piece: the second is not handed on, whatever comes, before more bytes arrive.  A
    request that arrives before the handler is installed is thrown away. *)
Theorem C73_refuted :
  (exists s es, server_run (map small) listening [get1 ++ get2] = Ok (s, es) /\ requests es = [req "/1"] /\ s_buf s = get2) /\
  (exists s, server_receive (map small) server0 get1 = Ok (s, []) /\ server_install (map small) s = Ok listening).
Proof. split; [eexists _, _|eexists]; (split; [vm_compute; reflexivity|]); [split; reflexivity|vm_compute; reflexivity]. Qed.
Print Assumptions C73_refuted.

(** ** Answers. *)
Lemma receive_counts lower s d s' es : server_receive lower s d = Ok (s', es) ->
  writes es = [] /\ s_answered s' = s_answered s /\ s_queries s' = s_queries s + zlen (requests es) /\ (s_version s <> None \/ requests es <> [] -> s_version s' <> None).
Proof.
  unfold server_receive. destruct (s_cb s); cbn [negb]; [|intros E; injection E as <- <-; cbn; repeat split; lia || (intros [H|H]; congruence)].
  destruct (parse_request lower (s_buf s ++ d)) as [[[q|] buf]| | |]; cbn [bindr]; try discriminate; intros E; injection E as <- <-.
  - cbn [s_answered s_queries s_version]. split; [|split; [reflexivity|split; [|discriminate]]]; destruct (s_version s) as [v|]; try destruct (bytes_eq v (q_version q)); reflexivity.
  - cbn. repeat split; lia || (intros [H|H]; congruence).
Qed.
Lemma respond_counts lower date s st h b s' es : respond lower date s st h b = Ok (s', es) -> s_queries s > 0 -> s_version s <> None ->
  s_queries s' = s_queries s /\ requests es = [] /\ s_version s' = s_version s /\ s_answered s' = s_answered s + zlen (writes es) /\
  (s_queries s = s_answered s + 1 -> llen (writes es) = 1%nat) /\ (s_queries s <> s_answered s + 1 -> writes es = []).
Proof.
  unfold respond. intros E Hq Hv. destruct (s_version s) as [v|] eqn:Ev; [|congruence]. destruct (s_queries s =? s_answered s + 1) eqn:Ec.
  - destruct (build_response lower date v st h b); cbn [bindr] in E; try discriminate. injection E as <- <-. cbn [s_queries s_version s_answered]. destruct (s_close s); cbn; repeat split; try lia; congruence.
  - injection E as <- <-. cbn. repeat split; try assumption; lia.
Qed.

(** There are never more responses than requests: in every session of a connection the number of responses
    written is that of the requests answered, at most that of the requests handed on. *)
Theorem C73_answers : forall lower xs s es, server_session lower listening xs = Ok (s, es) ->
  zlen (writes es) = s_answered s /\ zlen (requests es) = s_queries s /\ s_answered s <= s_queries s.
Proof.
  intros lower xs. assert (G : forall s0, 0 <= s_answered s0 <= s_queries s0 -> (s_queries s0 > 0 -> s_version s0 <> None) -> forall s es, server_session lower s0 xs = Ok (s, es) ->
    s_answered s0 + zlen (writes es) = s_answered s /\ s_queries s0 + zlen (requests es) = s_queries s /\ s_answered s <= s_queries s).
  { induction xs as [|x xs IH]; intros s0 H0 Hv s es E; cbn [server_session] in E.
    { injection E as <- <-. cbn. lia. }
    destruct x as [d|date st h b].
    - destruct (server_receive lower s0 d) as [[s1 e1]| | |] eqn:E1; cbn [bindr] in E; try discriminate. destruct (receive_counts _ _ _ _ _ E1) as (A1 & A2 & A3 & A4).
      destruct (server_session lower s1 xs) as [[s2 e2]| | |] eqn:E2; cbn [bindr] in E; try discriminate. injection E as <- <-.
      pose proof (zlen_nn (requests e1)). destruct (IH s1 ltac:(lia)) with (s := s2) (es := e2) as (B1 & B2 & B3); [|assumption|].
      { intros Hp. apply A4. destruct (requests e1) as [|q l] eqn:R; [left; apply Hv; rewrite zlen_nil in A3; lia|right; discriminate]. }
      unfold writes, requests in *. rewrite !flat_map_app, !zlen_app. rewrite A1, zlen_nil. lia.
    - destruct (respond lower date s0 st h b) as [[s1 e1]| | |] eqn:E1; cbn [bindr] in E; try discriminate.
      destruct (server_session lower s1 xs) as [[s2 e2]| | |] eqn:E2; cbn [bindr] in E; try discriminate. injection E as <- <-.
      destruct (Z_gt_dec (s_queries s0) 0) as [Hp|Hp].
      + destruct (respond_counts _ _ _ _ _ _ _ _ E1 Hp (Hv Hp)) as (A1 & A2 & A3 & A4 & A5 & A6). pose proof (zlen_nn (writes e1)).
        assert (zlen (writes e1) <= 1 /\ (s_queries s0 <> s_answered s0 + 1 -> zlen (writes e1) = 0)) as [L1 L2].
        { destruct (Z.eq_dec (s_queries s0) (s_answered s0 + 1)) as [C|C]; [specialize (A5 C); unfold zlen; lia|rewrite (A6 C), zlen_nil; lia]. }
        destruct (IH s1 ltac:(lia)) with (s := s2) (es := e2) as (B1 & B2 & B3); [rewrite A3, A1; auto|assumption|].
        unfold writes, requests in *. rewrite !flat_map_app, !zlen_app. rewrite A2, zlen_nil. lia.
      + unfold respond in E1. destruct (s_queries s0 =? s_answered s0 + 1) eqn:Ec; [lia|]. injection E1 as <- <-. exact (IH s0 H0 Hv _ _ E2). }
  intros s es E. destruct (G listening ltac:(cbn; lia) ltac:(cbn; lia) s es E) as (A & B & C). cbn in A, B. lia.
Qed.
Print Assumptions C73_answers.

(** While one request is waiting, its answer is sent. *)
Theorem C73_answered : forall lower xs s es date st h b, server_session lower listening xs = Ok (s, es) -> zlen (requests es) = zlen (writes es) + 1 ->
  forall s' es', respond lower date s st h b = Ok (s', es') -> exists v w, s_version s = Some v /\ build_response lower date v st h b = Ok w /\ writes es' = [w].
Proof.
  intros lower xs s es date st h b E Hc s' es' Er. destruct (C73_answers lower xs s es E) as (A & B & C). unfold respond in Er. destruct (s_queries s =? s_answered s + 1) eqn:Ec; [|lia].
  destruct (s_version s) as [v|] eqn:Ev.
  - destruct (build_response lower date v st h b) as [w| | |] eqn:Eb; cbn [bindr] in Er; try discriminate. exists v, w. injection Er as _ <-. split; [reflexivity|]. split; [exact Eb|]. destruct (s_close s); reflexivity.
  - exfalso. assert (G : forall xs s0 s es, server_session lower s0 xs = Ok (s, es) -> s_version s = None -> s_version s0 = None /\ requests es = []).
    { clear. induction xs as [|x xs IH]; intros s0 s es E Ev; cbn [server_session] in E; [injection E as <- <-; auto|].
      destruct (match x with Arrive d => server_receive lower s0 d | Answer date st h b => respond lower date s0 st h b end) as [[s1 e1]| | |] eqn:E1; cbn [bindr] in E; try discriminate.
      destruct (server_session lower s1 xs) as [[s2 e2]| | |] eqn:E2; cbn [bindr] in E; try discriminate. injection E as <- <-. destruct (IH _ _ _ E2 Ev) as [V1 R2]. destruct x as [d|date st h b].
      - destruct (receive_counts _ _ _ _ _ E1) as (_ & _ & _ & A4). unfold requests in *. rewrite flat_map_app, R2, app_nil_r. destruct (s_version s0); [exfalso; apply A4; [left; discriminate|assumption]|]. split; [reflexivity|].
        destruct (flat_map _ e1) eqn:R1; [reflexivity|]. exfalso. apply A4; [right; discriminate|assumption].
      - unfold respond in E1. unfold requests in *. rewrite flat_map_app, R2, app_nil_r. destruct (s_queries s0 =? s_answered s0 + 1).
        + destruct (s_version s0) as [v|] eqn:V0.
          * destruct (build_response _ _ _ _ _ _); cbn [bindr] in E1; try discriminate. injection E1 as <- <-. cbn in V1. congruence.
          * cbn [bindr] in E1. injection E1 as <- <-. split; [reflexivity|]. destruct (s_close s0); reflexivity.
        + injection E1 as <- <-. split; [assumption|reflexivity]. }
    destruct (G _ _ _ _ E Ev) as [_ R]. rewrite R, zlen_nil in Hc. pose proof (zlen_nn (writes es)). lia.
Qed.
Print Assumptions C73_answered.

(** A handler that lets a second request come in before it answers the first gets no response through any
    more: from any state with two requests waiting nothing is ever written again. *)
Theorem C73_stuck_refuted :
  (forall lower xs s s' es, s_queries s >= s_answered s + 2 -> server_session lower s xs = Ok (s', es) -> writes es = []) /\
  (exists s es, server_session (map small) listening [Arrive get1; Arrive get2] = Ok (s, es) /\ requests es = [req "/1"; req "/2"] /\ s_queries s >= s_answered s + 2).
Proof.
  split; [|eexists _, _; split; [vm_compute; reflexivity|split; [reflexivity|cbn; lia]]].
  intros lower xs. induction xs as [|x xs IH]; intros s s' es Hq E; cbn [server_session] in E; [injection E as _ <-; reflexivity|]. destruct x as [d|date st h b].
  - destruct (server_receive lower s d) as [[s1 e1]| | |] eqn:E1; cbn [bindr] in E; try discriminate. destruct (receive_counts _ _ _ _ _ E1) as (A1 & A2 & A3 & _). pose proof (zlen_nn (requests e1)).
    destruct (server_session lower s1 xs) as [[s2 e2]| | |] eqn:E2; cbn [bindr] in E; try discriminate. injection E as _ <-. unfold writes in *. rewrite flat_map_app, A1. apply (IH s1 s2 e2); [lia|assumption].
  - unfold respond in E. destruct (s_queries s =? s_answered s + 1) eqn:Ec; [lia|]. cbn [bindr] in E. destruct (server_session lower s xs) as [[s2 e2]| | |] eqn:E2; cbn [bindr] in E; try discriminate. injection E as _ <-. exact (IH s s2 e2 Hq E2).
Qed.
Print Assumptions C73_stuck_refuted.

(** * C74: building messages. *)

(** What is built is read back: method, path, version, body and every header. *)
Theorem C74_request : forall lower host meth path version h body, lower_ok lower -> word meth -> word path -> known_version version ->
  field_value host -> good_headers h -> ~ In (asc "content-length") (names h) -> bfits body ->
  exists w added, (bfits w -> build_request lower host meth path version h body = Ok (w, h ++ added)) /\
    (forall rest, bfits (w ++ rest) -> exists r, parse_request lower (w ++ rest) = Ok (Some r, rest) /\
       q_method r = meth /\ q_path r = path /\ q_version r = version /\ q_body r = body /\
       (forall k v, In (k, v) h -> dget (q_headers r) (map small k) = Some v) /\
       (~ In (asc "host") (names h) -> dget (q_headers r) (asc "host") = Some host)).
Proof.
  intros lower host meth path version h body Hl Hm Hp Hv Hh G Nc Fb. destruct (request_built lower Hl host meth path version h body G Nc Hh Fb) as (A & GA & Ic & Ih & Hb).
  set (start := meth ++ [32] ++ path ++ asc " HTTP/" ++ version) in *. set (w := joined [13; 10] (start :: map field_line (fields_of (h ++ A)) ++ [[13; 10]]) ++ body) in *.
  exists w, A. split; [apply Hb; reflexivity|]. intros rest F.
  assert (V : forall k v, In (k, v) (h ++ A) -> value_of (fields_of (h ++ A)) (map small k) = Some v) by (intros k v Hi; apply value_in; [apply GA|assumption]).
  destruct (request_ok lower Hl (HRequest meth path version (fields_of (h ++ A)) body) w rest) as (r & E & S1 & S2 & S3 & S4 & S5); [|assumption|].
  { split; [assumption|]. split; [assumption|]. split; [assumption|]. apply (written_wire start (h ++ A) body (proj1 GA)); [|assumption]. apply (V (asc "Content-Length")). apply in_or_app. right. exact Ic. }
  exists r. split; [exact E|]. repeat split; try assumption.
  - intros k v Hi. rewrite S5. apply V. apply in_or_app. auto.
  - intros Nh. rewrite S5. apply (V (asc "Host")). apply in_or_app. auto.
Qed.
Print Assumptions C74_request.

Theorem C74_response : forall lower date version status h body, lower_ok lower -> known_version version -> 0 <= status < 2 ^ 63 ->
  field_value date -> good_headers h -> bfits (M_Uri.encode body) ->
  exists w, (bfits w -> build_response lower date version status h body = Ok w) /\
    (forall rest, bfits (w ++ rest) -> exists r, parse_response lower (w ++ rest) = Ok (Some r, rest) /\
       r_version r = version /\ r_status r = status /\ r_body r = M_Uri.encode body /\
       (forall k v, In (k, v) h -> map small k <> asc "content-length" -> dget (r_headers r) (map small k) = Some v) /\
       (~ In (asc "date") (names h) -> dget (r_headers r) (asc "date") = Some date)).
Proof.
  intros lower date version status h body Hl Hv Hs Hd G Fb. destruct (response_built lower Hl date version status h body G Hd Fb) as (h' & GA & Ih & Id & Hb).
  set (A := [(asc "Content-Length", str_nat (zlen (M_Uri.encode body)))]) in *.
  set (start := asc "HTTP/" ++ version ++ [32] ++ str_nat status ++ reason_of status) in *. set (w := joined [13; 10] (start :: map field_line (fields_of (h' ++ A)) ++ [[13; 10]]) ++ M_Uri.encode body) in *.
  exists w. split; [apply Hb; reflexivity|]. intros rest F.
  assert (V : forall k v, In (k, v) (h' ++ A) -> value_of (fields_of (h' ++ A)) (map small k) = Some v) by (intros k v Hi; apply value_in; [apply GA|assumption]).
  destruct (response_ok lower Hl (HResponse version status (fields_of (h' ++ A)) (M_Uri.encode body)) w rest) as (r & E & S1 & S2 & S4 & S5); [|assumption|].
  { split; [assumption|]. split; [apply Hs|]. exists (str_nat status), (reason_of status). split; [apply str_nat_ok; assumption|]. split; [apply reason_ok|].
    apply (written_wire start (h' ++ A) (M_Uri.encode body) (proj1 GA)); [|assumption]. apply (V (asc "Content-Length")). apply in_or_app. right. left. reflexivity. }
  exists r. split; [exact E|]. repeat split; try assumption.
  - intros k v Hi Hc. rewrite S5. apply V. apply in_or_app. auto.
  - intros Nh. rewrite S5. apply (V (asc "Date")). apply in_or_app. auto.
Qed.
Print Assumptions C74_response.

Example C74_case : let h := [(asc "X-Id", asc "a b"); (asc "accept", asc "text/plain")] in
  good_headers h /\ ~ In (asc "content-length") (names h) /\
  build_request (map small) (asc "h") (asc "PUT") (asc "/p") (asc "1.1") h (asc "abc") =
  Ok (crlf ["PUT /p HTTP/1.1"; "X-Id: a b"; "accept: text/plain"; "Host: h"; "User-Agent: Acton HTTP Client"; "Connection: keep-alive"; "Content-Length: 3"; ""]%string ++ asc "abc",
      h ++ [(asc "Host", asc "h"); (asc "User-Agent", asc "Acton HTTP Client"); (asc "Connection", asc "keep-alive"); (asc "Content-Length", asc "3")]).
Proof.
  cbv zeta. split; [|split; [|vm_compute; reflexivity]].
  - split; [fields|]. repeat constructor; cbn; intuition discriminate.
  - cbn. intuition discriminate.
Qed.

(** The headers of the first request are left in the caller's dict: used again for another body, the old
    length is sent.  A line break in a value makes another header. *)
Theorem C74_refuted :
  (exists w h w2 h2, build_request (map small) (asc "h") (asc "POST") (asc "/") (asc "1.1") [] (asc "abc") = Ok (w, h) /\
     build_request (map small) (asc "h") (asc "POST") (asc "/") (asc "1.1") h (asc "abcdefg") = Ok (w2, h2) /\
     exists r, parse_request (map small) w2 = Ok (Some r, asc "defg") /\ q_body r = asc "abc") /\
  (exists w h r, build_request (map small) (asc "h") (asc "GET") (asc "/") (asc "1.1") [(asc "A", asc "b" ++ CRLF ++ asc "X: y")] [] = Ok (w, h) /\
     dget h (asc "X") = None /\ parse_request (map small) w = Ok (Some r, []) /\ dget (q_headers r) (asc "x") = Some (asc "y")).
Proof.
  split.
  - eexists _, _, _, _. split; [vm_compute; reflexivity|]. split; [vm_compute; reflexivity|]. eexists. split; [vm_compute; reflexivity|reflexivity].
  - eexists _, _, _. split; [vm_compute; reflexivity|]. split; [vm_compute; reflexivity|]. split; [vm_compute; reflexivity|reflexivity].
Qed.
Print Assumptions C74_refuted.

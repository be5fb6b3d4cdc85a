(** What is said about the HTTP parsers, the client and the server: messages as they are on the wire
    (S_Http.v) against what the program makes of them (the records of M_Http.v). *)
From Coq Require Import String Ascii.
From Verif Require Import Base M_Http S_Http.
Local Notation llen := List.length.

(** The message that was written and the one the program sees. *)
Definition same_request (q : hrequest) (r : request) : Prop :=
  q_method r = hq_method q /\ q_path r = hq_path q /\ q_version r = hq_version q /\ q_body r = hq_body q /\ forall n, dget (q_headers r) n = value_of (hq_fields q) n.
Definition same_response (p : hresponse) (r : response) : Prop :=
  r_version r = hr_version p /\ r_status r = hr_status p /\ r_body r = hr_body p /\ forall n, dget (r_headers r) n = value_of (hr_fields p) n.

(** The bytes of the messages, and a beginning of the next one. *)
Definition stream {A} (ms : list (A * list Z)) : list Z := concat (map snd ms).
Definition unfinished {A} (ms : list (A * list Z)) (p : list Z) : Prop :=
  match ms with [] => p = [] | m :: _ => exists t, t <> [] /\ snd m = p ++ t end.

(** A response after which the connection stays; what was asked for and what was received in a history of
    the client; the callbacks made. *)
Definition keeps_open (fs : list field) : Prop := value_of fs (asc "connection") <> Some (asc "close").
Definition asked (xs : list client_input) : list nat := flat_map (fun x => match x with Ask k => [k] | Data _ => [] end) xs.
Definition received (xs : list client_input) : list Z := flat_map (fun x => match x with Ask _ => [] | Data d => d end) xs.
Definition delivers (ds : list (nat * response)) : list client_event := map (fun d => Deliver (fst d) (snd d)) ds.
Definition good_response (m : hresponse * list Z) : Prop := response_on_wire (fst m) (snd m) /\ keeps_open (hr_fields (fst m)).

(** Requests handed to the handler. *)
Definition good_request (m : hrequest * list Z) : Prop := request_on_wire (fst m) (snd m).
Definition requests (es : list server_event) : list request := flat_map (fun e => match e with Requested q => [q] | _ => [] end) es.
Section R.
Context (lower : list Z -> list Z).
Fixpoint server_run (s : server) (ds : list (list Z)) : res (server * list server_event) :=
  match ds with
  | [] => Ok (s, [])
  | d :: ds => do (s1, e1) <- server_receive lower s d; do (s2, e2) <- server_run s1 ds; Ok (s2, e1 ++ e2)
  end.
(** Bytes arrive, or the handler answers ([date]: the clock). *)
Inductive server_input := Arrive (d : list Z) | Answer (date : list Z) (status : Z) (headers : dict) (body : list Z).
Fixpoint server_session (s : server) (xs : list server_input) : res (server * list server_event) :=
  match xs with
  | [] => Ok (s, [])
  | x :: xs =>
      do (s1, e1) <- (match x with Arrive d => server_receive lower s d | Answer date st h b => respond lower date s st h b end);
      do (s2, e2) <- server_session s1 xs; Ok (s2, e1 ++ e2)
  end.
End R.
Definition writes (es : list server_event) : list (list Z) := flat_map (fun e => match e with Write b => [b] | _ => [] end) es.
(** The server of a new connection whose handler is installed. *)
Definition listening : server := Server true None [] true 0 0.

(** A result, or ValueError. *)
Definition settled {A} (r : res A) : Prop := (exists a, r = Ok a) \/ r = Exn ValueError.
(** Nothing, the bytes kept or thrown away; ValueError; or a message and less bytes than before. *)
Definition parsed {A} (i : list Z) (r : res (option A * list Z)) : Prop :=
  r = Ok (None, i) \/ r = Ok (None, []) \/ r = Exn ValueError \/ exists m rest, r = Ok (Some m, rest) /\ (llen rest < llen i)%nat.

(** Header dicts: proper names and values, no name twice (in whatever case). *)
Definition names (h : dict) : list (list Z) := map (fun kv => map small (fst kv)) h.
Definition good_entry (kv : list Z * list Z) : Prop := field_name (fst kv) /\ field_value (snd kv).
Definition good_headers (h : dict) : Prop := Forall good_entry h /\ NoDup (names h).

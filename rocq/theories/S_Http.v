(** HTTP/1.x messages as they are written on a connection (RFC 9112), restricted to what is said at each
    definition.  Bytes and characters are numbers. *)
From Coq Require Import String Ascii.
From Verif Require Import Base S_Bigint.

(** The characters of a literal. *)
Definition asc (s : string) : list Z := map (fun a => Z.of_nat (nat_of_ascii a)) (list_ascii_of_string s).
Definition CRLF : list Z := [13; 10].

(** ** Fields: a name, a colon, blanks, a value, blanks.  Of printable ASCII only; of the blanks only spaces,
    not tabs. *)
Definition field_name (t : list Z) : Prop := t <> [] /\ Forall (fun c => 33 <= c <= 126 /\ c <> 58) t.
Definition field_value (t : list Z) : Prop := Forall (fun c => 32 <= c <= 126) t /\ hd 0 t <> 32 /\ last t 0 <> 32.
Record field := Field { f_name : list Z; f_before : nat; f_value : list Z; f_after : nat }.
Definition good_field (f : field) : Prop := field_name (f_name f) /\ field_value (f_value f).
Definition field_line (f : field) : list Z :=
  f_name f ++ [58] ++ repeat 32 (f_before f) ++ f_value f ++ repeat 32 (f_after f).

(** Names are the same whatever the case of their letters; here they are looked up in small letters.  Of
    several fields with the same name the last one counts. *)
Definition small (c : Z) : Z := if (65 <=? c) && (c <=? 90) then c + 32 else c.
Fixpoint value_of (fs : list field) (n : list Z) : option (list Z) :=
  match fs with
  | [] => None
  | f :: r => match value_of r n with
              | Some v => Some v
              | None => if list_eq_dec Z.eq_dec (map small (f_name f)) n then Some (f_value f) else None
              end
  end.

(** ** Bodies. *)

(** Chunks: size in hexadecimal, CRLF, that many bytes, CRLF; a chunk of size 0 is the last.  No chunk
    extensions, no trailers, and no size that begins with "0b". *)
Inductive chunked : list Z -> list Z -> Prop :=
| chunked_last z : numeral 16 z 0 -> ~ has_prefix z -> chunked [] (z ++ CRLF ++ CRLF)
| chunked_more z d body w : numeral 16 z (zlen d) -> ~ has_prefix z -> d <> [] -> chunked body w ->
    chunked (d ++ body) (z ++ CRLF ++ d ++ CRLF ++ w).

(** The fields say how the body is written: with Content-Length, as it is and with this many bytes; else, with
    Transfer-Encoding: chunked, in chunks; else there is no body.  Other codings may stand before chunked,
    with commas and no blanks between; the body is then what they make of the content. *)
Definition ends_chunked (t : list Z) : Prop := t = asc "chunked" \/ exists a, t = a ++ [44] ++ asc "chunked".
Definition framed (fs : list field) (body w : list Z) : Prop :=
  match value_of fs (asc "content-length"), value_of fs (asc "transfer-encoding") with
  | Some t, _ => numeral 10 t (zlen body) /\ w = body
  | None, Some t => ends_chunked t /\ chunked body w
  | None, None => body = [] /\ w = []
  end.

Definition on_wire (start : list Z) (fs : list field) (body w : list Z) : Prop :=
  Forall good_field fs /\
  exists b, framed fs body b /\
  w = start ++ CRLF ++ concat (map (fun f => field_line f ++ CRLF) fs) ++ CRLF ++ b.

(** ** Requests and responses. *)
Definition word (t : list Z) : Prop := Forall (fun c => 33 <= c <= 126) t.
Definition known_version (v : list Z) : Prop := v = asc "1.0" \/ v = asc "1.1".

Record hrequest := HRequest { hq_method : list Z; hq_path : list Z; hq_version : list Z; hq_fields : list field; hq_body : list Z }.
Definition request_on_wire (q : hrequest) (w : list Z) : Prop :=
  word (hq_method q) /\ word (hq_path q) /\ known_version (hq_version q) /\
  on_wire (hq_method q ++ [32] ++ hq_path q ++ asc " HTTP/" ++ hq_version q) (hq_fields q) (hq_body q) w.

Record hresponse := HResponse { hr_version : list Z; hr_status : Z; hr_fields : list field; hr_body : list Z }.
(** The status is a decimal number; a reason may follow. *)
Definition response_on_wire (r : hresponse) (w : list Z) : Prop :=
  known_version (hr_version r) /\ hr_status r < 2 ^ 63 /\
  exists d reason, numeral 10 d (hr_status r) /\
    (reason = [] \/ exists t, reason = 32 :: t /\ Forall (fun c => 32 <= c <= 126) t) /\
    on_wire (asc "HTTP/" ++ hr_version r ++ [32] ++ d ++ reason) (hr_fields r) (hr_body r) w.

(** What is assumed of the conversion to small letters: it is right on ASCII. *)
Definition lower_ok (lower : list Z -> list Z) : Prop := forall t, Forall (fun c => 0 <= c < 128) t -> lower t = map small t.

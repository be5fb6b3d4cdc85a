(** Percent encoding and the parts of a URI.  Reading this file needs no other.
    Texts are lists of Unicode code points. *)
From Coq Require Import List ZArith.
Import ListNotations.
Open Scope Z_scope.

Definition scalar (c : Z) : Prop := 0 <= c < 55296 \/ 57344 <= c < 1114112.
Definition is_text (t : list Z) : Prop := Forall scalar t.

(** RFC 3629. *)
Definition utf8 (c : Z) : list Z :=
  if c <? 128 then [c]
  else if c <? 2048 then [192 + c / 64; 128 + c mod 64]
  else if c <? 65536 then [224 + c / 4096; 128 + c / 64 mod 64; 128 + c mod 64]
  else [240 + c / 262144; 128 + c / 4096 mod 64; 128 + c / 64 mod 64; 128 + c mod 64].
Definition bytes_of (t : list Z) : list Z := flat_map utf8 t.

(** RFC 3986: unreserved characters, hexadecimal digits. *)
Definition letter (c : Z) : Prop := 65 <= c <= 90 \/ 97 <= c <= 122.
Definition number (c : Z) : Prop := 48 <= c <= 57.
Definition unreserved (c : Z) : Prop := letter c \/ number c \/ c = 45 \/ c = 46 \/ c = 95 \/ c = 126.
Definition hex (c v : Z) : Prop := (48 <= c <= 57 /\ v = c - 48) \/ (65 <= c <= 70 /\ v = c - 55) \/ (97 <= c <= 102 /\ v = c - 87).
Definition upper_hex (c v : Z) : Prop := (48 <= c <= 57 /\ v = c - 48) \/ (65 <= c <= 70 /\ v = c - 55).

(** [escaped safe bs t]: [t] writes the bytes [bs], escaping exactly those that are not safe. *)
Inductive escaped (safe : Z -> Prop) : list Z -> list Z -> Prop :=
| escaped_nil : escaped safe [] []
| escaped_keep b bs t : b < 128 -> safe b -> escaped safe bs t -> escaped safe (b :: bs) (b :: t)
| escaped_byte b bs t h l x y : ~ (b < 128 /\ safe b) -> upper_hex h x -> upper_hex l y -> b = 16 * x + y ->
    escaped safe bs t -> escaped safe (b :: bs) (37 :: h :: l :: t).

(** [writes t bs]: [t] is a well-formed escaped text for the bytes [bs]. *)
Inductive writes : list Z -> list Z -> Prop :=
| writes_nil : writes [] []
| writes_char c t bs : c <> 37 -> writes t bs -> writes (c :: t) (utf8 c ++ bs)
| writes_escape h l x y t bs : hex h x -> hex l y -> writes t bs -> writes (37 :: h :: l :: t) (16 * x + y :: bs).

(** The parts of a URI. *)
Record parts := Parts { scheme : option (list Z); authority : option (list Z); host : option (list Z); port : option Z;
                        path : option (list Z); query : option (list Z); fragment : option (list Z) }.

Definition opt (o : option (list Z)) : list Z := match o with None => [] | Some t => t end.
Definition lead (p : list Z) (o : option (list Z)) : list Z := match o with None => [] | Some t => p ++ t end.
Definition trail (p : list Z) (o : option (list Z)) : list Z := match o with None => [] | Some t => t ++ p end.

(** scheme "://" authority path "?" query "#" fragment. *)
Definition assembled (u : parts) : list Z :=
  trail [58; 47; 47] (scheme u) ++ opt (authority u) ++ opt (path u) ++ lead [63] (query u) ++ lead [35] (fragment u).

Definition none_of (cs : list Z) (t : list Z) : Prop := Forall (fun c => ~ In c cs) t.
Definition good_scheme (t : list Z) : Prop :=
  exists c t', t = c :: t' /\ letter c /\ Forall (fun c => letter c \/ number c \/ c = 43 \/ c = 45 \/ c = 46) t'.

(** Each part is free of the delimiters that end it; without a scheme there is no colon. *)
Definition separated (int_of : list Z -> option Z) (u : parts) : Prop :=
  match scheme u with Some s => good_scheme s | None => none_of [58] (assembled u) end /\
  match authority u with
  | None => host u = None /\ port u = None
  | Some a => a <> [] /\ none_of [47; 63; 35] a /\
      match port u with
      | None => host u = Some a /\ none_of [58] a
      | Some p => 0 <= p <= 65535 /\ exists h d, host u = Some h /\ none_of [58] h /\ a = h ++ [58] ++ d /\ int_of d = Some p
      end
  end /\
  match path u with
  | None => query u = None /\ fragment u = None
  | Some p => none_of [63; 35] p /\ exists p', p = 47 :: p'
  end /\
  match query u with None => True | Some q => none_of [35] q end.

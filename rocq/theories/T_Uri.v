(** C46, C68: percent encoding, and the parts of a URI. *)
From Verif Require Import Base P_Base S_Uri M_Uri P_Uri P_Uri2.
From Coq Require Import Lia ZifyBool.
Open Scope Z_scope.

(** C46: quoting every text succeeds; the result is that text's UTF-8 with exactly the bytes that
    are neither unreserved nor in the safe set escaped by two upper-case digits. *)
Theorem C46_quote : forall t safe, is_text t ->
  exists q, quote t safe = Ok q /\ escaped (fun c => unreserved c \/ In c safe) (bytes_of t) q.
Proof. intros t safe T. unfold quote. apply quote_ok. apply encode_bytes. auto. Qed.
Print Assumptions C46_quote.

(** So only unreserved characters, safe characters and escapes appear in it. *)
Theorem C46_alphabet : forall t safe q, is_text t -> quote t safe = Ok q ->
  Forall (fun c => unreserved c \/ In c safe \/ c = 37) q.
Proof.
  intros t safe q T E. destruct (C46_quote t safe T) as (q' & E' & X). rewrite E in E'. inversion E'; subst. clear - X. set (bs := bytes_of t) in X. clearbody bs. clear t.
  induction X as [|b bs t B S X IH|b bs t h l x y N H L E X IH]; [constructor| |].
  - constructor; auto. tauto.
  - constructor; auto. constructor; [|constructor; auto]; left; unfold upper_hex, unreserved, letter, number in *; lia.
Qed.
Print Assumptions C46_alphabet.

(** Unquoting undoes quoting, for every text without NUL and every safe set without '%'.  The
    argument [upper] is the case conversion of str.upper(); that it maps a character to an
    upper-case hexadecimal digit exactly if the character is that digit is assumed of it. *)
Theorem C46_roundtrip_partial : forall upper, (forall c v, upper_hex (upper c) v <-> hex c v) ->
  forall t safe q, is_text t -> ~ In 0 t -> ~ In 37 safe -> quote t safe = Ok q -> unquote upper q = Ok t.
Proof.
  intros upper U t safe q T N S E. destruct (C46_quote t safe T) as (q' & E' & X). rewrite E in E'. inversion E'; subst q'. clear E'.
  assert (B : Forall (fun b => 0 <= b < 256) (bytes_of t)) by (apply encode_bytes; auto).
  apply escaped_writes in X; [| |eapply Forall_impl; [|exact B]; cbn; intros; lia].
  2:{ intros [C|C]; auto. unfold unreserved, letter, number in C. lia. }
  unfold unquote. destruct (unquote_loop_ok upper U (Datatypes.S (length q)) q []) as [(bs & -> & W)|(_ & W)]; [lia| |].
  - cbn [bindr app]. rewrite (writes_fun _ _ W _ X). apply decode_text; auto.
  - exfalso. eapply W; eauto.
Qed.
Print Assumptions C46_roundtrip_partial.

(** Quoting loses nothing, NUL or not. *)
Theorem C46_injective : forall t t' safe q, is_text t -> is_text t' -> ~ In 37 safe ->
  quote t safe = Ok q -> quote t' safe = Ok q -> t = t'.
Proof.
  assert (W : forall t safe q, is_text t -> ~ In 37 safe -> quote t safe = Ok q -> writes q (bytes_of t)).
  { intros t safe q T S E. destruct (C46_quote t safe T) as (q' & E' & X). rewrite E in E'. inversion E'; subst q'.
    eapply escaped_writes; [exact X| |]. intros [C|C]; auto. unfold unreserved, letter, number in C. lia.
    eapply Forall_impl; [|apply encode_bytes; exact T]. cbn. intros; lia. }
  intros t t' safe q T T' S E E'. apply bytes_inj; auto. eapply writes_fun; eauto.
Qed.
Print Assumptions C46_injective.

(** Unquoting any text ends: it gives the text whose UTF-8 the escapes spell, or ValueError if an
    escape is malformed or the bytes are not UTF-8.  [writes t bs] with a NUL byte is the case left out. *)
Theorem C46_unquote_partial : forall upper, (forall c v, upper_hex (upper c) v <-> hex c v) -> forall t, is_text t ->
  (forall bs, writes t bs -> ~ In 0 bs ->
     (exists t', unquote upper t = Ok t' /\ is_text t' /\ bytes_of t' = bs) \/
     (unquote upper t = Exn ValueError /\ forall t', is_text t' -> bytes_of t' <> bs)) /\
  ((forall bs, ~ writes t bs) -> unquote upper t = Exn ValueError).
Proof.
  intros upper U t T. unfold unquote. destruct (unquote_loop_ok upper U (Datatypes.S (length t)) t []) as [(bs & -> & W)|(-> & W)]; [lia| |].
  - cbn [bindr app]. split.
    + intros bs' W' N. rewrite (writes_fun _ _ W' _ W) in *. destruct (decode_inv (Datatypes.S (length bs)) bs) as [(t' & E & T' & B)|E]; auto.
      * eapply writes_bytes; eauto.
      * left. eauto.
      * right. split; auto. intros t' T' B. rewrite <- B in E. rewrite decode_text in E; auto; try discriminate.
        intros C. apply N. rewrite <- B. unfold bytes_of. apply in_flat_map. exists 0. split; auto. cbn. auto.
    + intros C. exfalso. eapply C; eauto.
  - split; auto. intros bs' W'. exfalso. eapply W; eauto.
Qed.
Print Assumptions C46_unquote_partial.

(** The full claim is false: a NUL ends the decoded text, so unquote(quote("a\0b")) is "a". *)
Definition ascii_upper (c : Z) : Z := if (97 <=? c) && (c <=? 122) then c - 32 else c.
Lemma ascii_upper_ok : forall c v, upper_hex (ascii_upper c) v <-> hex c v.
Proof. intros c v. unfold ascii_upper, upper_hex, hex. destruct (Z.leb_spec 97 c), (Z.leb_spec c 122); cbn [andb]; lia. Qed.
Theorem C46_nul_refuted : exists t q, is_text t /\ quote t [] = Ok q /\ unquote ascii_upper q <> Ok t.
Proof.
  exists [97; 0; 98], [97; 37; 48; 48; 98]. split. repeat constructor; unfold scalar; lia. split. reflexivity.
  vm_compute. congruence.
Qed.
Print Assumptions C46_nul_refuted.

(** '%' must not be in the safe set: "%41" and "A" then unquote alike. *)
Theorem C46_percent_refuted : exists t q, is_text t /\ ~ In 0 t /\ quote t [37] = Ok q /\ unquote ascii_upper q <> Ok t.
Proof.
  exists [37; 52; 49], [37; 52; 49]. split. repeat constructor; unfold scalar; lia. split. cbn. lia. split. reflexivity. vm_compute. congruence.
Qed.
Print Assumptions C46_percent_refuted.

(** "/é €😀" with "/" safe. *)
Example C46_case : let t := [47; 233; 32; 8364; 128512] in is_text t /\ ~ In 0 t /\ ~ In 37 [47] /\
  exists q, quote t [47] = Ok q /\ q = [47; 37;67;51; 37;65;57; 37;50;48; 37;69;50; 37;56;50; 37;65;67; 37;70;48; 37;57;70; 37;57;56; 37;56;48] /\
  unquote ascii_upper q = Ok t.
Proof. cbv zeta. split. repeat constructor; unfold scalar; lia. split. cbn. lia. split. cbn. lia. eexists. split. reflexivity. split; reflexivity. Qed.
(** "%zz" and an overlong "%C0%80" are errors. *)
Example C46_case_errors : unquote ascii_upper [37; 122; 122] = Exn ValueError /\ unquote ascii_upper [37; 67; 48; 37; 56; 48] = Exn ValueError.
Proof. split; reflexivity. Qed.

Section C68.
(** [isalpha] is str.isalpha() of one character, assumed right on ASCII; [int_of] is int(), None
    for ValueError, and nothing is assumed of it. *)
Context (isalpha : Z -> bool) (int_of : list Z -> option Z) (isalpha_ok : forall c, 0 <= c < 128 -> (isalpha c = true <-> letter c)).

(** C68: what a URI parses into are its parts: each free of the delimiters that end it, and put
    together again they are the URI, except that an empty path before a query or fragment
    becomes "/". *)
Theorem C68_parse : forall s u, parse isalpha int_of s = Ok u -> separated int_of u /\
  (s = assembled u \/
   (path u = Some [47] /\ (query u <> None \/ fragment u <> None) /\
    s = trail [58; 47; 47] (scheme u) ++ opt (authority u) ++ lead [63] (query u) ++ lead [35] (fragment u))).
Proof. intros s u. apply parse_inv. auto. Qed.

(** Every URI put together from separated parts parses into them. *)
Theorem C68_unique : forall u, separated int_of u -> parse isalpha int_of (assembled u) = Ok u.
Proof. intros u. apply parse_assembled. auto. Qed.

(** Printing puts the parts together, so parsing what was printed gives the same parts. *)
Theorem C68_print : forall s u, parse isalpha int_of s = Ok u ->
  print u = assembled u /\ parse isalpha int_of (print u) = Ok u.
Proof.
  intros s u E. rewrite print_eq. split; auto. apply C68_unique. apply C68_parse in E as [S _]. auto.
Qed.

(** Two different ways to read a URI: there are none. *)
Theorem C68_injective : forall u v, separated int_of u -> separated int_of v -> assembled u = assembled v -> u = v.
Proof. intros u v U V E. apply C68_unique in U. apply C68_unique in V. rewrite E in U. congruence. Qed.

(** The only error is ValueError, and only for what is not put together from separated parts. *)
Theorem C68_total : forall s, (exists u, parse isalpha int_of s = Ok u) \/
  (parse isalpha int_of s = Exn ValueError /\ forall u, separated int_of u -> assembled u <> s).
Proof.
  intros s. assert (X : (exists u, parse isalpha int_of s = Ok u) \/ parse isalpha int_of s = Exn ValueError).
  { unfold parse. assert (P : (exists x, parse_schema isalpha s = Ok x) \/ parse_schema isalpha s = Exn ValueError).
    { unfold parse_schema. destruct (_ =? _); eauto. destruct (slashes (from s (find 58 s 0 + 1))) as [(r & ->)|Y]; [|rewrite Y; auto].
      destruct (is_valid_scheme _ _); eauto. }
    destruct P as [([sc r] & ->)| ->]; cbn [bindr]; auto.
    assert (P : (exists x, parse_authority int_of r = Ok x) \/ parse_authority int_of r = Exn ValueError).
    { unfold parse_authority. destruct r; eauto. match goal with |- context [if ?b then (?x, ?y) else ?z] => destruct (if b then (x, y) else z) as [a r'] end. destruct a; eauto. destruct (_ =? _); eauto.
      destruct (int_of _); auto. destruct (_ || _); eauto. }
    destruct P as [([[[a h] p] r'] & ->)| ->]; cbn [bindr]; auto. destruct (parse_path r') as [pa r'']. destruct (parse_query r''). eauto. }
  destruct X as [X|X]; auto. right. split; auto. intros u S E. apply C68_unique in S. congruence.
Qed.
End C68.
Print Assumptions C68_total.
Print Assumptions C68_parse.
Print Assumptions C68_unique.
Print Assumptions C68_print.
Print Assumptions C68_injective.

(** int() on decimal digits, the one the examples need. *)
Definition ascii_alpha (c : Z) : bool := ((65 <=? c) && (c <=? 90)) || ((97 <=? c) && (c <=? 122)).
Lemma ascii_alpha_ok : forall c, 0 <= c < 128 -> (ascii_alpha c = true <-> letter c).
Proof. intros c _. unfold ascii_alpha, letter. lia. Qed.
Fixpoint digits (t : list Z) (v : Z) : option Z :=
  match t with [] => Some v | c :: t => if (48 <=? c) && (c <=? 57) then digits t (10 * v + c - 48) else None end.
Definition decimal (t : list Z) : option Z := match t with [] => None | _ => digits t 0 end.

(** Only part of RFC 3986 is read.  "http://[::1]/" (an IPv6 host), "http://u:p@h/" (a user),
    "http://h:/" (an empty port), "mailto:x" and "/t?at=12:30" (no "://" after the first colon) are
    ValueErrors. *)
Theorem C68_rfc_refuted :
  Forall (fun s => parse ascii_alpha decimal s = Exn ValueError)
    [[104;116;116;112;58;47;47;91;58;58;49;93;47]; [104;116;116;112;58;47;47;117;58;112;64;104;47]; [104;116;116;112;58;47;47;104;58;47];
     [109;97;105;108;116;111;58;120]; [47;116;63;97;116;61;49;50;58;51;48]].
Proof. repeat constructor. Qed.
Print Assumptions C68_rfc_refuted.

(** So parsing and printing may add a "/": "s://h?q". *)
Theorem C68_identity_refuted : exists s u, parse ascii_alpha decimal s = Ok u /\ print u <> s.
Proof. eexists [115;58;47;47;104;63;113], _. split. vm_compute. reflexivity. vm_compute. discriminate. Qed.
Print Assumptions C68_identity_refuted.

(** "ab+c://h:80/p/q?x=1?#f#g" *)
Example C68_case : let s := [97;98;43;99;58;47;47;104;58;56;48;47;112;47;113;63;120;61;49;63;35;102;35;103] in
  let u := Parts (Some [97;98;43;99]) (Some [104;58;56;48]) (Some [104]) (Some 80) (Some [47;112;47;113]) (Some [120;61;49;63]) (Some [102;35;103]) in
  parse ascii_alpha decimal s = Ok u /\ separated decimal u /\ assembled u = s.
Proof.
  cbv zeta. assert (P : parse ascii_alpha decimal [97;98;43;99;58;47;47;104;58;56;48;47;112;47;113;63;120;61;49;63;35;102;35;103] =
    Ok (Parts (Some [97;98;43;99]) (Some [104;58;56;48]) (Some [104]) (Some 80) (Some [47;112;47;113]) (Some [120;61;49;63]) (Some [102;35;103]))) by reflexivity.
  split; auto. split; [|reflexivity]. exact (proj1 (C68_parse ascii_alpha decimal ascii_alpha_ok _ _ P)).
Qed.

(** C69, C70: bytes.  A bytes value is the list of its bytes; all statements compare with plain operations
    on that list (S_Str.v, S_Bytes.v, S_Slice.v). *)
From Verif Require Import Base M_Slice S_Slice M_Str S_Str M_Bytes S_Bytes P_Base P_Bmh P_Str P_Str2 P_Str3 P_Str4 P_Bytes P_Bytes2 P_Bytes3.
From Coq Require Import ZifyBool ZifyNat.

(** ** C69: searching, splitting, joining, replacing, stripping. *)

(** Missing for the full property: negative bounds (C69_negative_refuted). *)
Theorem C69_find_partial : forall s p st en, pos_bound st -> pos_bound en ->
  (exists r, bytes_find s p st en = Ok r /\ bfind_spec first_occ s p st en r) /\
  (exists r, bytes_rfind s p st en = Ok r /\ bfind_spec last_occ s p st en r).
Proof. intros s p st en H1 H2. split; [exact (bfind_ok s p st en H1 H2)|exact (brfind_ok s p st en H1 H2)]. Qed.
Print Assumptions C69_find_partial.

(** index and rindex raise ValueError exactly when there is no occurrence. *)
Theorem C69_index_partial : forall s p st en, pos_bound st -> pos_bound en ->
  (exists r, bfind_spec first_occ s p st en r /\ bytes_index s p st en = (if r =? -1 then Exn ValueError else Ok r)) /\
  (exists r, bfind_spec last_occ s p st en r /\ bytes_rindex s p st en = (if r =? -1 then Exn ValueError else Ok r)).
Proof.
  intros s p st en H1 H2. pose proof (py_start_nn (zlen s) st (zlen_nn s) H1) as Hn. split.
  - destruct (bfind_ok s p st en H1 H2) as (r & Hr & Hs). exists r. split; [exact Hs|]. unfold bytes_index. rewrite Hr. cbn [bindr].
    destruct Hs as [(_ & m & ((a & b & _ & Hm) & _) & E)|(-> & _)]; [|reflexivity].
    pose proof (zlen_nn a). destruct (r <? 0) eqn:E1; [lia|]. destruct (r =? -1) eqn:E2; [lia|]. reflexivity.
  - destruct (brfind_ok s p st en H1 H2) as (r & Hr & Hs). exists r. split; [exact Hs|]. unfold bytes_rindex. rewrite Hr. cbn [bindr].
    destruct Hs as [(_ & m & ((a & b & _ & Hm) & _) & E)|(-> & _)]; [|reflexivity].
    pose proof (zlen_nn a). destruct (r <? 0) eqn:E1; [lia|]. destruct (r =? -1) eqn:E2; [lia|]. reflexivity.
Qed.
Print Assumptions C69_index_partial.

(** count is the number of cuts made by splitting from the left at every occurrence; an empty pattern occurs
    before every byte and at the end. *)
Theorem C69_count_partial : forall s p st en, pos_bound st -> pos_bound en ->
  let a := py_start (zlen s) st in let b := py_end (zlen s) en in
  (p <> [] -> exists l, (if b <? a then l = [[]] else splits p None (window s a b) l) /\ bytes_count s p st en = Ok (zlen l - 1)) /\
  bytes_count s [] st en = Ok (if b <? a then 0 else b - a + 1).
Proof. intros s p st en H1 H2 a b. split; [intros Hp; exact (bcount_ok s p st en Hp H1 H2)|exact (bcount_empty s st en H1 H2)]. Qed.
Print Assumptions C69_count_partial.

Theorem C69_partition : forall s p,
  ((absent s p /\ bytes_partition s p = Ok (s, [], [])) \/
   exists A B, s = A ++ p ++ B /\ first_occ s p (zlen A) /\ bytes_partition s p = Ok (A, p, B)) /\
  ((absent s p /\ bytes_rpartition s p = Ok ([], [], s)) \/
   exists A B, s = A ++ p ++ B /\ last_occ s p (zlen A) /\ bytes_rpartition s p = Ok (A, p, B)).
Proof. intros s p. split; [exact (bpartition_ok s p)|exact (brpartition_ok s p)]. Qed.
Print Assumptions C69_partition.

(** Missing for the full property: a limit of 0 (C69_split_refuted). *)
Theorem C69_split_partial : forall s p m, bfits s -> m <> Some 0 ->
  (p <> [] -> exists l, splits p (limit m) s l /\ bytes_split s p m = Ok l) /\
  bytes_split s [] m = Exn ValueError.
Proof. intros s p m F Hm. split; [intros Hp; exact (bsplit_ok s p m Hp F Hm)|reflexivity]. Qed.
Print Assumptions C69_split_partial.

(** Joining what split gave restores the bytes; join puts the separator between the pieces. *)
Theorem C69_join : forall p l, bfits (joined p l) -> bytes_join p l = Ok (joined p l).
Proof. exact bjoin_ok. Qed.
Print Assumptions C69_join.

Theorem C69_split_join_partial : forall s p m, bfits s -> p <> [] -> m <> Some 0 ->
  (do l <- bytes_split s p m; bytes_join p l) = Ok s.
Proof.
  intros s p m F Hp Hm. destruct (bsplit_ok s p m Hp F Hm) as (l & Hl & ->). cbn [bindr]. destruct (splits_joined _ _ _ _ Hl) as [E _].
  rewrite bjoin_ok; rewrite E; [reflexivity|assumption].
Qed.
Print Assumptions C69_split_join_partial.

(** replace: cut at the first [cnt] occurrences and put the new bytes between the pieces.  Missing for the
    full property: a negative count (C69_replace_refuted) and an empty pattern. *)
Theorem C69_replace_partial : forall s p ns cnt, p <> [] -> bfits s -> (match cnt with None => True | Some c => 0 <= c end) ->
  (forall l, splits p (limit cnt) s l -> bfits (joined ns l)) ->
  exists l, splits p (limit cnt) s l /\ bytes_replace s p ns cnt = Ok (joined ns l).
Proof. exact breplace_ok. Qed.
Print Assumptions C69_replace_partial.

(** Stripping removes exactly the longest ends made of the given bytes. *)
Theorem C69_strip : forall s o,
  (exists D K, s = D ++ K /\ all_from (set_of o) D /\ first_not (set_of o) K /\ bytes_lstrip s o = Ok K) /\
  (exists K D, s = K ++ D /\ all_from (set_of o) D /\ last_not (set_of o) K /\ bytes_rstrip s o = Ok K) /\
  (exists D K E, s = D ++ K ++ E /\ all_from (set_of o) D /\ all_from (set_of o) E /\
     first_not (set_of o) K /\ last_not (set_of o) K /\ bytes_strip s o = Ok K).
Proof. intros s o. split; [exact (blstrip_ok s o)|]. split; [exact (brstrip_ok s o)|exact (bstrip_ok s o)]. Qed.
Print Assumptions C69_strip.

(** startswith: the window begins with the pattern. *)
Theorem C69_startswith_partial : forall s p st en, pos_bound st -> pos_bound en ->
  let a := py_start (zlen s) st in let b := py_end (zlen s) en in
  exists r, bytes_startswith s p st en = Ok r /\
    (r = true <-> a <= zlen s /\ (p = [] \/ a <= b) /\ exists B, window s a b = p ++ B).
Proof. exact bstartswith_ok. Qed.
Print Assumptions C69_startswith_partial.

(** endswith.  Missing for the full property: a pattern with NUL, a pattern longer than the bytes before the
    end, and the start (C69_endswith_refuted). *)
Theorem C69_endswith_partial : forall s p, ~ In 0 p -> zlen p <= zlen s ->
  exists r, bytes_endswith s p None None = Ok r /\ (r = true <-> exists A, s = A ++ p).
Proof.
  intros s p H0 Hp. assert (Hb : py_end (zlen s) None = zlen s) by (unfold py_end, py_from; lia).
  destruct (bendswith_ok s p None None I I H0 ltac:(rewrite Hb; exact Hp)) as (r & Hr & Hs). exists r. split; [exact Hr|].
  rewrite Hs, Hb, window_all. unfold py_start, py_from. pose proof (zlen_nn s). split; [tauto|intros H1; split; [lia|exact H1]].
Qed.
Print Assumptions C69_endswith_partial.

Theorem C69_remove : forall s p,
  ((exists B, s = p ++ B /\ bytes_removeprefix s p = Ok B) \/ ((forall B, s <> p ++ B) /\ bytes_removeprefix s p = Ok s)) /\
  ((exists A, s = A ++ p /\ bytes_removesuffix s p = Ok A) \/ ((forall A, s <> A ++ p) /\ bytes_removesuffix s p = Ok s)).
Proof. intros s p. split; [exact (bremoveprefix_ok s p)|exact (bremovesuffix_ok s p)]. Qed.
Print Assumptions C69_remove.

(** Lines end with LF, CR or CR LF; with the line ends kept, the lines joined are the bytes. *)
Theorem C69_lines : forall s keep,
  (exists r, blines s r /\ bytes_splitlines s keep = Ok (map (bline_of keep) r)) /\
  (exists l, bytes_splitlines s true = Ok l /\ concat l = s).
Proof.
  intros s keep. split; [exact (bsplitlines_ok s keep)|]. destruct (bsplitlines_ok s true) as (r & Hr & E). exists (map (bline_of true) r).
  split; [exact E|exact (blines_concat s r Hr)].
Qed.
Print Assumptions C69_lines.

(** split() without a separator gives the words of bytes that do not end with white space.  Missing for the
    full property: bytes that do, and a limit (C69_words_refuted). *)
Theorem C69_words_partial : forall s c, bfits (s ++ [c]) -> is_white c = false ->
  exists l, words is_white None (s ++ [c]) l /\ bytes_split_space (s ++ [c]) None = Ok l.
Proof. exact bsplit_space_ok. Qed.
Print Assumptions C69_words_partial.

(** b"a,\x00,,bc" and b",". *)
Example C69_case : let s := [97; 44; 0; 44; 44; 98; 99] in
  bytes_find s [44] (Some 2) None = Ok 3 /\ bytes_rfind s [44] None (Some 4) = Ok 3 /\ bytes_index s [44; 0; 44] None None = Ok 1 /\
  bytes_index s [100] None None = Exn ValueError /\ bytes_count s [44] None None = Ok 3 /\ bytes_count s [] (Some 2) None = Ok 6 /\
  bytes_partition s [44] = Ok ([97], [44], [0; 44; 44; 98; 99]) /\ bytes_rpartition s [44] = Ok ([97; 44; 0; 44], [44], [98; 99]) /\
  bytes_split s [44] None = Ok [[97]; [0]; []; [98; 99]] /\ bytes_split s [44] (Some 2) = Ok [[97]; [0]; [44; 98; 99]] /\
  bytes_replace s [44] [32; 32] (Some 2) = Ok [97; 32; 32; 0; 32; 32; 44; 98; 99] /\
  bytes_strip [32; 10; 97; 32; 98; 9] None = Ok [97; 32; 98] /\ bytes_startswith s [44; 0] (Some 1) None = Ok true /\
  bytes_startswith s [44; 0] (Some 1) (Some 2) = Ok false /\ bytes_endswith s [98; 99] None None = Ok true /\
  bytes_removesuffix s [98; 99] = Ok [97; 44; 0; 44; 44] /\
  bytes_splitlines [97; 13; 10; 10; 98; 13; 99] false = Ok [[97]; []; [98]; [99]] /\
  bytes_split_space [32; 97; 98; 10; 99] None = Ok [[97; 98]; [99]] /\ bfits s /\ pos_bound (Some 2).
Proof. repeat split; try reflexivity; cbn; lia. Qed.

(** b"abc".find(b"c", -1) is -1. *)
Theorem C69_negative_refuted : exists s p st en r, bytes_find s p st en = Ok r /\ ~ bfind_spec first_occ s p st en r.
Proof.
  exists [97; 98; 99], [99], (Some (-1)), None, (-1). split; [reflexivity|].
  intros [(_ & m & ((a & b & _ & Hm) & _) & E)|(_ & [H|H])].
  - change (py_start (zlen [97; 98; 99]) (Some (-1))) with 2 in E. pose proof (zlen_nn a). lia.
  - change (py_end (zlen [97; 98; 99]) None) with 3 in H. change (py_start (zlen [97; 98; 99]) (Some (-1))) with 2 in H. lia.
  - apply (H 0). exists [], []. split; reflexivity.
Qed.
Print Assumptions C69_negative_refuted.

(** With a limit of 0 a variable that was never set is read, whatever is split. *)
Theorem C69_split_refuted : forall s p, s <> [] -> p <> [] -> bytes_split s p (Some 0) = UB.
Proof.
  intros s p Hs Hp. unfold bytes_split. pose proof (ne_len s Hs). pose proof (ne_len p Hp). destruct (zlen p =? 0) eqn:E; [lia|].
  destruct (zlen s =? 0) eqn:E2; [lia|]. change (max_splits (Some 0)) with 0. cbn [bsplit_loop]. rewrite andb_false_r. reflexivity.
Qed.
Print Assumptions C69_split_refuted.

(** A negative count: the result has bytes that were never written (or a negative length). *)
Theorem C69_replace_refuted : bytes_replace [97; 98; 97] [97] [99; 99] (Some (-1)) = UB.
Proof. reflexivity. Qed.
Print Assumptions C69_replace_refuted.

(** endswith: a pattern longer than the bytes is compared with what lies before them in memory; a pattern
    with NUL is never found; the start is ignored (b"abc".endswith(b"abc", 2) is True). *)
Theorem C69_endswith_refuted : bytes_endswith [97] [98; 97] None None = UB /\
  bytes_endswith [97; 0] [0] None None = Ok false /\ bytes_endswith [97; 98; 99] [97; 98; 99] (Some 2) None = Ok true.
Proof. repeat split; reflexivity. Qed.
Print Assumptions C69_endswith_refuted.

(** split(): b"ab " gives [b"ab", b"ab "]; b" " reads a variable that was never set; b"a b".split(None, 1)
    gives an empty second word. *)
Theorem C69_words_refuted : bytes_split_space [97; 98; 32] None = Ok [[97; 98]; [97; 98; 32]] /\
  bytes_split_space [32] None = UB /\ bytes_split_space [97; 32; 98] (Some 1) = Ok [[97]; []].
Proof. repeat split; reflexivity. Qed.
Print Assumptions C69_words_refuted.

(** ** C70: elements, slices, order, padding, classes, hexadecimal. *)

Theorem C70_getitem : forall s i, bytes_getitem s i =
  (if (- zlen s <=? i) && (i <? zlen s) then Ok (nth (Z.to_nat (if i <? 0 then i + zlen s else i)) s 0) else Exn IndexError).
Proof. exact bgetitem_ok. Qed.
Print Assumptions C70_getitem.

(** Missing for the full property: negative steps with a bound before the first element (as for lists,
    C02). *)
Theorem C70_slice_partial : forall s sl, bfits s -> slice_ok (length s) sl -> bytes_getslice s sl = py_slice s sl.
Proof. exact bgetslice_ok. Qed.
Print Assumptions C70_slice_partial.

(** The comparisons are equality and the lexicographic order, which is a total order. *)
Theorem C70_order : forall a b,
  (bytes_eq a b = true <-> a = b) /\ (bytes_lt a b = true <-> lex_lt a b) /\ (bytes_le a b = true <-> lex_lt a b \/ a = b) /\
  (bytes_gt a b = true <-> lex_lt b a) /\ (bytes_ge a b = true <-> lex_lt b a \/ a = b).
Proof.
  intros a b. split; [apply beq_ok|]. split; [apply blt_ok|].
  assert (Hn : forall x y, negb (bytes_lt y x) = true <-> lex_lt x y \/ x = y).
  { intros x y. rewrite negb_true_iff. destruct (bytes_lt y x) eqn:E.
    - split; [discriminate|]. apply blt_ok in E. intros [H|H]; exfalso; [exact (lex_asym _ _ E H)|subst; exact (lex_irrefl _ E)].
    - split; [|reflexivity]. intros _. destruct (lex_total x y) as [H|[H|H]]; [auto|auto|]. apply blt_ok in H. congruence. }
  split; [apply Hn|]. split; [apply blt_ok|]. unfold bytes_ge. rewrite (Hn b a). split; (intros [H|H]; [auto|right; congruence]).
Qed.
Print Assumptions C70_order.

Theorem C70_concat : forall a b n, (bfits (a ++ b) -> bytes_add a b = Ok (a ++ b)) /\
  (bfits (concat (repeat a (Z.to_nat n))) -> bytes_mul a n = Ok (concat (repeat a (Z.to_nat n)))).
Proof.
  intros a b n. split; intros F; unfold bfits in F.
  - unfold bytes_add, new_bytes. destruct (_ <? _) eqn:E; [reflexivity|lia].
  - unfold bytes_mul, new_bytes. destruct (n <=? 0) eqn:E0; [replace (Z.to_nat n) with O by lia; reflexivity|]. destruct (_ <? _) eqn:E; [reflexivity|lia].
Qed.
Print Assumptions C70_concat.

(** Padding to a width adds the fill byte on the right, on the left, or on both sides (the extra one on the
    right); zfill puts zeros after a sign; a fill that is not one byte is refused.  Missing for the full
    property: widths outside 32 bits (C70_width_refuted). *)
Theorem C70_pad_partial : forall s w o c, is_int w -> bfill o = [c] ->
  bytes_ljust s w o = Ok (s ++ repeat c (Z.to_nat (w - zlen s))) /\
  bytes_rjust s w o = Ok (repeat c (Z.to_nat (w - zlen s)) ++ s) /\
  bytes_center s w o = Ok (repeat c (Z.to_nat ((w - zlen s) / 2)) ++ s ++ repeat c (Z.to_nat (w - zlen s - (w - zlen s) / 2))).
Proof. intros s w o c Hw Ho. split; [exact (bljust_ok s w o c Hw Ho)|]. split; [exact (brjust_ok s w o c Hw Ho)|exact (bcenter_ok s w o c Hw Ho)]. Qed.
Print Assumptions C70_pad_partial.

Theorem C70_fill_refused : forall s w o, zlen (bfill o) <> 1 ->
  bytes_ljust s w o = Exn ValueError /\ bytes_rjust s w o = Exn ValueError /\ bytes_center s w o = Exn ValueError.
Proof.
  intros s w o H. unfold bytes_ljust, bytes_rjust, bytes_center. destruct (bfill o) as [|c [|d l]]; [auto|cbn in H; lia|auto].
Qed.
Print Assumptions C70_fill_refused.

Theorem C70_zfill_partial : forall s w, is_int w -> exists sign rest, s = sign ++ rest /\
  (if (hd 0 s =? 43) || (hd 0 s =? 45) then zlen sign = 1 else sign = []) /\
  bytes_zfill s w = Ok (sign ++ repeat 48 (Z.to_nat (w - zlen s)) ++ rest).
Proof. exact bzfill_ok. Qed.
Print Assumptions C70_zfill_partial.

(** Missing for the full property: ints outside 32 bits (C70_values_refuted). *)
Theorem C70_values_partial : forall l n s, Forall is_int l ->
  bytes_init l = (if forallb (fun x => (0 <=? x) && (x <=? 255)) l then Ok l else Exn ValueError) /\
  (byte n -> (bytes_contains s n = true <-> In n s)).
Proof.
  intros l n s H. split; [exact (binit_ok l H)|]. intros Hn. unfold bytes_contains. rewrite wrapU_id by (unfold inU; unfold byte in Hn; lia). rewrite existsb_exists.
  split; [intros (x & Hx & E); assert (x = n) by lia; congruence|intros Hx; exists n; split; [assumption|lia]].
Qed.
Print Assumptions C70_values_partial.

(** Missing for the full property: isupper (C70_upper_refuted), istitle (C70_title_refuted). *)
Theorem C70_classes_partial : forall s,
  (bytes_isalpha s = true <-> s <> [] /\ Forall (fun c => upper_letter c \/ lower_letter c) s) /\
  (bytes_isdigit s = true <-> s <> [] /\ Forall decimal_digit s) /\
  (bytes_isalnum s = true <-> s <> [] /\ Forall (fun c => upper_letter c \/ lower_letter c \/ decimal_digit c) s) /\
  (bytes_isspace s = true <-> s <> [] /\ Forall (fun c => is_white c = true) s) /\
  (bytes_isascii s = true <-> Forall (fun c => c < 128) s) /\
  (bytes_islower s = true <-> Forall (fun c => ~ upper_letter c) s /\ Exists lower_letter s).
Proof.
  intros s. unfold upper_letter, lower_letter, decimal_digit. split; [apply class_ok; intros c; lia|]. split; [apply class_ok; intros c; lia|]. split; [apply class_ok; intros c; lia|].
  split; [apply class_ok; intros c; rewrite bspace_white; tauto|].
  split; [unfold bytes_isascii; rewrite forallb_forall, Forall_forall; split; intros H c Hc; specialize (H c Hc); lia|].
  unfold bytes_islower. rewrite islower_loop_ok. split; [intros [H [?|?]]; [discriminate|auto]|tauto].
Qed.
Print Assumptions C70_classes_partial.

Theorem C70_capitalize : forall c s, exists c' s', bytes_capitalize (c :: s) = c' :: s' /\ capital_of c c' /\ Forall2 small_of s s'.
Proof.
  intros c s. exists (toupper c), (map tolower s). split; [reflexivity|]. split; [apply toupper_ok|]. induction s as [|d s IH]; constructor; [apply tolower_ok|exact IH].
Qed.
Print Assumptions C70_capitalize.

(** from_hex reads what is written with two digits per byte and rejects everything else. *)
Theorem C70_from_hex : forall t,
  ((exists s, hex_of s t /\ bytes_from_hex t = Ok s) \/ ((forall s, ~ hex_of s t) /\ bytes_from_hex t = Exn ValueError)).
Proof. exact from_hex_ok. Qed.
Print Assumptions C70_from_hex.

(** The digits hex computes are those of the bytes, so from_hex would read them back; but see
    C70_hex_refuted. *)
Theorem C70_hex_partial : forall s, bytes_of s -> hex_of s (hex_buffer s) /\ bytes_from_hex (hex_buffer s) = Ok s.
Proof.
  intros s H. pose proof (hex_buffer_ok s H) as Hh. split; [exact Hh|]. unfold bytes_from_hex. rewrite (hex_of_even _ _ Hh). exact (hex_pairs_ok _ _ Hh).
Qed.
Print Assumptions C70_hex_partial.

(** expandtabs of ASCII bytes. *)
Theorem C70_expandtabs_partial : forall s t, Forall (fun c => 0 <= c < 128) s -> is_int t ->
  bytes_expandtabs s t = Ok (bexpanded (if t <=? 0 then 1 else t) 0 s).
Proof. exact bexpandtabs_ok. Qed.
Print Assumptions C70_expandtabs_partial.

Example C70_case : let s := [45; 255; 0; 97] in
  bytes_getitem s (-3) = Ok 255 /\ bytes_getitem s 4 = Exn IndexError /\
  bytes_getslice s (mkSlice None None (Some (-2))) = Ok [97; 255] /\ bfits s /\ slice_ok 4 (mkSlice None None (Some (-2))) /\
  bytes_lt s [45; 255; 1] = true /\ bytes_lt [45] s = true /\ bytes_le [200] [100] = false /\
  bytes_zfill s 6 = Ok [45; 48; 48; 255; 0; 97] /\ bytes_center s 7 (Some [42]) = Ok [42; 45; 255; 0; 97; 42; 42] /\
  bytes_init [1; 255] = Ok [1; 255] /\ bytes_init [256] = Exn ValueError /\ bytes_islower [97; 32] = true /\
  bytes_capitalize [97; 66] = [65; 98] /\ bytes_from_hex [70; 102; 48; 97] = Ok [255; 10] /\ bytes_from_hex [70; 103] = Exn ValueError /\
  bytes_expandtabs [97; 9; 98; 10; 9] 4 = Ok [97; 32; 32; 32; 98; 10; 32; 32; 32; 32] /\ bytes_of s.
Proof. repeat split; try reflexivity; try (cbn; lia); try (right; repeat split; cbn; lia). repeat constructor; cbn; unfold byte; lia. Qed.

(** hex runs over the end of its buffer for all bytes but the empty ones. *)
Theorem C70_hex_refuted : forall s, bytes_of s -> s <> [] -> bytes_hex s = UB.
Proof.
  intros s H Hs. unfold bytes_hex. destruct s as [|c s]; [congruence|]. set (s' := c :: s) in *. apply (read_past (hex_buffer s') _ []); [|lia].
  pose proof (hex_buffer_ok s' H) as Hh. clear H Hs. clearbody s'. induction Hh as [|h l ch cl t u H1 H2 H3 IH]; [constructor|].
  constructor; [exact (hexdigit_nz _ _ H1)|]. constructor; [exact (hexdigit_nz _ _ H2)|exact IH].
Qed.
Print Assumptions C70_hex_refuted.

(** lower and upper do not depend on the bytes given, only on what the new buffer held; isupper is never
    true. *)
Theorem C70_upper_refuted : (forall junk s t, length s = length t -> bytes_lower junk s = bytes_lower junk t /\ bytes_upper junk s = bytes_upper junk t) /\
  (forall s, bytes_isupper s = false).
Proof.
  split; [intros junk s t H; unfold bytes_lower, bytes_upper; rewrite H; auto|exact isupper_never].
Qed.
Print Assumptions C70_upper_refuted.

(** istitle holds of bytes without any letter. *)
Theorem C70_title_refuted : bytes_istitle [49; 50] = true.
Proof. reflexivity. Qed.
Print Assumptions C70_title_refuted.

(** 353 in b"a"; bytes([2^32 + 97]) is b"a". *)
Theorem C70_values_refuted : bytes_contains [97] 353 = true /\ bytes_init [2 ^ 32 + 97] = Ok [97].
Proof. split; reflexivity. Qed.
Print Assumptions C70_values_refuted.

(** expandtabs of b"\xe9\xe9\xe9\xe9" reads past the buffer. *)
Theorem C70_expandtabs_refuted : bytes_expandtabs [233; 233; 233; 233] 8 = UB.
Proof. reflexivity. Qed.
Print Assumptions C70_expandtabs_refuted.

(** A width of 2^32 + 2 is taken for 2. *)
Theorem C70_width_refuted : bytes_ljust [97] (2 ^ 32 + 2) None = Ok [97; 32].
Proof. reflexivity. Qed.
Print Assumptions C70_width_refuted.

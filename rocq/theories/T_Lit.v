(** Properties of string, bytes and raw literals (C91). *)
From Coq Require Import List ZArith Bool Lia.
From Verif Require Import S_Lit M_Lit P_Lit2.
Import ListNotations.
Open Scope Z_scope.

(** A string literal stands for the characters it is written to stand for, and the rest of the source
    is untouched.  Partial: not with NUL characters, and without the forms of the refutations below. *)
Theorem C91_string_partial : forall q s v rest,
  q = 34 \/ q = 39 -> means true q s v -> ~ In 0 v -> str_literal q (s ++ q :: rest) = Some (Chars v, rest).
Proof. exact str_ok. Qed.
Print Assumptions C91_string_partial.
(** Between double quotes: a hexadecimal escape and a digit, an escaped backslash, two braces, a letter
    with an accent, a universal escape, an escaped quote and an octal escape. *)
Example string_case :
  let s := [92; 120; 52; 49; 98; 92; 92; 123; 123; 233; 92; 117; 50; 48; 97; 99; 92; 34; 92; 49; 50] in
  let v := [65; 98; 92; 123; 233; 8364; 34; 10] in
  means true 34 s v /\ ~ In 0 v /\ str_literal 34 (s ++ [34; 59]) = Some (Chars v, [59]).
Proof.
  cbv zeta. split; [|split; [cbn; lia|vm_compute; reflexivity]].
  apply (means_hex _ _ 52 49); [reflexivity|reflexivity|reflexivity|].
  apply means_char; try (intros; discriminate); [unfold scalar; lia|].
  apply (means_simple _ _ 92 92); [reflexivity|intros; split; reflexivity|].
  apply (means_brace _ _ 123); [lia|].
  apply means_char; try (intros; discriminate); [unfold scalar; lia|].
  apply (means_u4 _ _ [50; 48; 97; 99]); [reflexivity|reflexivity|intros; unfold ucn; vm_compute; intuition discriminate|].
  apply (means_simple _ _ 34 34); [reflexivity|intros; discriminate|].
  apply (means_oct _ _ [49; 50] []); [reflexivity|cbn; lia|reflexivity|reflexivity|split; reflexivity|]. constructor.
Qed.

(** A bytes literal stands for the bytes it is written to stand for, NUL bytes included.  Partial: the
    forms of the refutations below are left out. *)
Theorem C91_bytes_partial : forall q s v rest,
  q = 34 \/ q = 39 -> bmeans true q s v -> bytes_literal q (s ++ q :: rest) = Some (Bytes v, rest).
Proof. exact bytes_ok. Qed.
Print Assumptions C91_bytes_partial.
(** The letter a, NUL as an octal escape, ff as a hexadecimal escape and the letter b. *)
Example bytes_case :
  let s := [97; 92; 48; 92; 120; 102; 102; 98] in let v := [97; 0; 255; 98] in
  bmeans true 39 s v /\ bytes_literal 39 (s ++ [39]) = Some (Bytes v, []).
Proof.
  cbv zeta. split; [|vm_compute; reflexivity].
  apply bmeans_char; try (intros; discriminate); [lia|].
  apply (bmeans_oct _ _ [48]); [reflexivity|cbn; lia|reflexivity|reflexivity|split; reflexivity|].
  apply (bmeans_hex _ _ 102 102); [reflexivity|reflexivity|].
  apply bmeans_char; try (intros; discriminate); [lia|]. constructor.
Qed.

(** A raw string stands for the characters between its quotes.  Partial: an escaped backslash is left
    out, and NUL. *)
Theorem C91_raw_partial : forall q s v rest,
  q = 34 \/ q = 39 -> rmeans true q s v -> ~ In 0 v -> raw_literal q (s ++ q :: rest) = Some (Chars v, rest).
Proof. exact raw_ok. Qed.
Print Assumptions C91_raw_partial.
Lemma raw_same : forall b q s v, rmeans b q s v -> s = v.
Proof. intros b q s v H. induction H; congruence. Qed.
(** A hexadecimal escape and an escaped quote stand for themselves. *)
Example raw_case :
  let s := [92; 120; 52; 92; 34; 123] in rmeans true 34 s s /\ ~ In 0 s /\ raw_literal 34 (s ++ [34]) = Some (Chars s, []).
Proof.
  cbv zeta. split; [|split; [cbn; lia|vm_compute; reflexivity]].
  apply rmeans_pair; [unfold scalar; lia|lia|]. apply rmeans_char; try (intros; discriminate); [unfold scalar; lia|].
  apply rmeans_pair; [unfold scalar; lia|lia|]. apply rmeans_char; try (intros; discriminate); [unfold scalar; lia|]. constructor.
Qed.

(** ** What goes wrong. *)
Ltac mc := apply means_char; try (intros; discriminate); [unfold scalar; lia|].
(** Three characters, the second of which is an escaped NUL, become one. *)
Theorem C91_nul_refuted : exists s v, means true 34 s v /\ str_literal 34 (s ++ [34]) = Some (Chars [97], []) /\ v = [97; 0; 98].
Proof.
  exists [97; 92; 48; 98], [97; 0; 98]. split; [|split; [vm_compute; reflexivity|reflexivity]].
  mc. apply (means_oct _ _ [48]); [reflexivity|cbn; lia|reflexivity|reflexivity|split; reflexivity|]. mc. constructor.
Qed.
Print Assumptions C91_nul_refuted.
(** The hexadecimal escape e9 is one character, but evaluating it raises an exception. *)
Theorem C91_high_refuted : exists s v, means false 34 s v /\ v = [233] /\ str_literal 34 (s ++ [34]) = Some (ValueError, []).
Proof.
  exists [92; 120; 101; 57], [233]. split; [|split; [reflexivity|vm_compute; reflexivity]].
  apply (means_hex _ _ 101 57); [reflexivity|reflexivity|discriminate|constructor].
Qed.
Print Assumptions C91_high_refuted.
(** An octal escape takes digits from the next line. *)
Theorem C91_joined_line_refuted : exists s v, means false 34 s v /\ v = [1; 50] /\ str_literal 34 (s ++ [34]) = Some (Chars [10], []).
Proof.
  exists [92; 49; 92; 10; 50], [1; 50]. split; [|split; [reflexivity|vm_compute; reflexivity]].
  apply (means_oct _ _ [49]); [reflexivity|cbn; lia|reflexivity|reflexivity|discriminate|]. apply means_line. mc. constructor.
Qed.
Print Assumptions C91_joined_line_refuted.
(** An escaped backslash, a hexadecimal escape and a digit are not accepted by the C compiler; nor is
    the letter A as a universal escape. *)
Theorem C91_rejected_refuted :
  (exists s v, means false 34 s v /\ v = [92; 65; 98] /\ str_literal 34 (s ++ [34]) = None) /\
  (exists s v, means false 34 s v /\ v = [65] /\ str_literal 34 (s ++ [34]) = None).
Proof.
  split.
  - exists [92; 92; 92; 120; 52; 49; 98], [92; 65; 98]. split; [|split; [reflexivity|vm_compute; reflexivity]].
    apply (means_simple _ _ 92 92); [reflexivity|discriminate|]. apply (means_hex _ _ 52 49); [reflexivity|reflexivity|discriminate|]. mc. constructor.
  - exists [92; 117; 48; 48; 52; 49], [65]. split; [|split; [reflexivity|vm_compute; reflexivity]].
    apply (means_u4 _ _ [48; 48; 52; 49] []); [reflexivity|reflexivity|discriminate|constructor].
Qed.
Print Assumptions C91_rejected_refuted.
(** The digit after an octal escape of three digits is a byte of its own, but is lost. *)
Theorem C91_bytes_refuted : exists s v, bmeans false 34 s v /\ v = [83; 52] /\ bytes_literal 34 (s ++ [34]) = Some (Bytes [83], []).
Proof.
  exists [92; 49; 50; 51; 52], [83; 52]. split; [|split; [reflexivity|vm_compute; reflexivity]].
  apply (bmeans_oct _ _ [49; 50; 51] [52]); [reflexivity|cbn; lia|reflexivity|intros; cbn in *; lia|discriminate|].
  apply bmeans_char; try (intros; discriminate); [lia|]. constructor.
Qed.
Print Assumptions C91_bytes_refuted.
(** After two backslashes the closing quote is taken for a part of the literal, which goes on to the
    next quote. *)
Theorem C91_raw_refuted : exists s v, rmeans false 34 s v /\ v = [92; 92] /\ raw_literal 34 (s ++ [34; 32; 34]) = Some (Chars [92; 92; 34; 32], []).
Proof.
  exists [92; 92], [92; 92]. split; [|split; [reflexivity|vm_compute; reflexivity]]. apply rmeans_pair; [unfold scalar; lia|discriminate|constructor].
Qed.
Print Assumptions C91_raw_refuted.
(** Two literals, each fine, that the C compiler does not accept side by side: a hexadecimal escape, and
    a digit. *)
Theorem C91_adjacent_refuted :
  str_literal 34 [92; 120; 52; 49; 34] = Some (Chars [65], []) /\ str_literal 34 [98; 34] = Some (Chars [98], []) /\
  two_literals 34 [92; 120; 52; 49; 34] [98; 34] = None.
Proof. repeat split; vm_compute; reflexivity. Qed.
Print Assumptions C91_adjacent_refuted.

(** C86: names in the C code. *)
From Coq Require Import List Bool Arith Ascii String.
From Verif Require Import S_Names M_Names P_Names.
Import ListNotations.

(** Two different names never become the same C name, whatever they are (names of modules, of the
    built-in module, of the runtime system, local names, names made of names and names invented by
    the compiler), if no part of them has a capital letter before an underscore, or a $. *)
Theorem C86_distinct_partial : forall p q, good_q p = true -> good_q q = true -> p <> q -> gen_qname p <> gen_qname q.
Proof. intros p q P Q N E. apply N. exact (gen_qname_inj p q P Q E). Qed.
Print Assumptions C86_distinct_partial.
(** The same for the names in the compiler. *)
Theorem C86_strings_distinct_partial : forall a b, good a = true -> good b = true -> a <> b -> nstr a <> nstr b.
Proof. intros a b A B N E. apply N. exact (nstr_inj a b A B E). Qed.
Print Assumptions C86_strings_distinct_partial.

(** Every local name and every name in a module becomes an identifier of C and no keyword of C, in
    whatever characters it is written. *)
Theorem C86_local_identifier : forall n, nstr n <> [] -> identifier (gen_qname (Local n)) /\ ~ In (gen_qname (Local n)) c_keywords.
Proof. intros n N. split; [apply kw_identifier, mk_identifier; exact N|apply local_not_keyword]. Qed.
Print Assumptions C86_local_identifier.
Theorem C86_global_identifier : forall m n, Forall (fun c => c <> []) m -> nstr n <> [] ->
  identifier (gen_qname (Global m n)) /\ ~ In (gen_qname (Global m n)) c_keywords.
Proof. intros m n M N. split; [apply mod_identifier; [exact M|apply mk_identifier; exact N]|apply global_not_keyword]. Qed.
Print Assumptions C86_global_identifier.
(** Letters and digits of ASCII are kept, so that C code can refer to Acton's names. *)
Theorem C86_ascii_kept : forall c s, c_start c = true -> forallb c_char s = true ->
  ~ In (c :: s) (map txt ["complex"; "__complex__"; "complx"; "__complx__"]%string) -> forall m,
  gen_qname (Global [m] (Name (c :: s))) = gen_name (Name m) ++ txt "Q_" ++ c :: s.
Proof.
  intros c s S F N m. cbn [gen_qname gen_mod nstr]. f_equal. f_equal. unfold mk_cident.
  assert (E : forall k, In k (map txt ["complex"; "__complex__"; "complx"; "__complx__"]%string) -> text_eqb (c :: s) k = false).
  { intros k I. destruct (text_eqb (c :: s) k) eqn:Q; [|reflexivity]. apply text_eqb_true in Q. subst k. contradiction. }
  rewrite !E by (cbn; auto). rewrite S. cbn [app]. f_equal. clear - F. induction s as [|d s IH]; [reflexivity|].
  apply andb_true_iff in F as [F1 F2]. cbn [esc flat_map]. rewrite F1. cbn [app]. f_equal. exact (IH F2).
Qed.
Print Assumptions C86_ascii_kept.

(** With capital letters before underscores, names can meet: the function bQ_c of module a and the
    function c of module a.b; the method b of class a and the function aD_b; the names long and
    A_long; the names é and X_e9_; the names complx and A_complex. *)
Theorem C86_modules_refuted : gen_qname (Global [txt "a"] (Name (txt "bQ_c"))) = gen_qname (Global [txt "a"; txt "b"] (Name (txt "c"))).
Proof. reflexivity. Qed.
Print Assumptions C86_modules_refuted.
Theorem C86_methods_refuted : gen_qname (Global [txt "m"] (Derived (Name (txt "a")) (Name (txt "b")))) = gen_qname (Global [txt "m"] (Name (txt "aD_b"))).
Proof. reflexivity. Qed.
Print Assumptions C86_methods_refuted.
Theorem C86_keywords_refuted : gen_qname (Local (Name (txt "long"))) = gen_qname (Local (Name (txt "A_long"))).
Proof. reflexivity. Qed.
Print Assumptions C86_keywords_refuted.
Theorem C86_unicode_refuted : gen_qname (Local (Name [233])) = gen_qname (Local (Name (txt "X_e9_"))).
Proof. reflexivity. Qed.
Print Assumptions C86_unicode_refuted.
Theorem C86_complx_refuted : gen_qname (Local (Name (txt "complx"))) = gen_qname (Local (Name (txt "A_complex"))).
Proof. reflexivity. Qed.
Print Assumptions C86_complx_refuted.

Example C86_case :
  good_q (Global [txt "net"; [233]] (Derived (Name (txt "TCPConnection")) (Internal Globvar (txt "class") 0))) = true /\
  good_q (Local (Internal NormPass (txt "tmp") 12)) = true /\ good_q (Local (Name (txt "complex"))) = true /\ good_q (Local (Name (txt "int"))) = true /\
  gen_qname (Global [txt "net"; [233]] (Derived (Name (txt "TCPConnection")) (Internal Globvar (txt "class") 0))) = txt "netQ_X_e9_Q_TCPConnectionG_class" /\
  gen_qname (Local (Internal NormPass (txt "tmp") 12)) = txt "N_12tmp" /\ gen_qname (Local (Name (txt "complex"))) = txt "complx" /\
  gen_qname (Local (Name (txt "int"))) = txt "A_int".
Proof. repeat split. Qed.

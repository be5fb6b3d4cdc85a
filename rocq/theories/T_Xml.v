(** C83: XML documents. *)
From Verif Require Import Base P_Base M_Str S_Str S_Xml M_Xml P_Xml P_Xml2 P_Xml3.
From Coq Require Import ZifyBool ZifyNat.

(** Encoding a tree of texts never writes outside the string it allocates, and fills it
    with exactly the text of the tree. *)
Theorem C83_encode_exact n pretty : strings_ok n -> zlen (print pretty 0 n) < 2 ^ 31 ->
  exists s, encode n pretty = Ok s /\ is_text s /\ sbytes s = print pretty 0 n.
Proof.
  intros H B. exists (tstr (print pretty 0 n)). split; [apply (encode_ok pretty n 0 H B)|]. split; [|reflexivity].
  apply utext_is. apply utext_print. exact H.
Qed.
Print Assumptions C83_encode_exact.

(** Decoding the encoding of a tree gives the tree. *)
Theorem C83_roundtrip n : tree_ok [] n -> n_tail n = None -> zlen (print false 0 n) < 2 ^ 31 ->
  (do s <- encode n false; decode read_doc s) = Ok n.
Proof.
  intros H T B. unfold encode. change 0 with (Z.of_nat 0). rewrite (encode_ok false n 0 (tree_strings _ _ H) B). cbn [bindr]. unfold decode, tstr. cbn [sbytes].
  rewrite (reads_doc _ _ H T). rewrite (node_back _ _ _ _ H), (indented_same _ _ _ H). destruct n. cbn [n_tail] in T. rewrite T. reflexivity.
Qed.
Print Assumptions C83_roundtrip.

(** The indented form means the same tree, with white space after texts of elements with
    children, and after their children. *)
Theorem C83_pretty_same_tree n : tree_ok [] n -> n_tail n = None -> zlen (print true 0 n) < 2 ^ 31 ->
  exists m, (do s <- encode n true; decode read_doc s) = Ok m /\ spaced n m /\ n_tail m = None.
Proof.
  intros H T B. unfold encode. change 0 with (Z.of_nat 0). rewrite (encode_ok true n 0 (tree_strings _ _ H) B). cbn [bindr]. unfold decode, tstr. cbn [sbytes].
  rewrite (reads_doc _ _ H T). rewrite (node_back _ _ _ _ H). exists (indented true 0 n). split; [reflexivity|].
  pose proof (indented_spaced true n 0 [] [] H ltac:(constructor)) as S. rewrite T in S. 
  assert (E : set_tail (indt None []) (indented true 0 n) = indented true 0 n) by (rewrite indented_unfold; reflexivity).
  rewrite E in S. split; [exact S|]. rewrite indented_unfold. reflexivity.
Qed.
Print Assumptions C83_pretty_same_tree.

(** Whatever parser is used: the tree has the tags, attributes and characters of what it
    delivers, in the same order; comments separate nothing. *)
Theorem C83_decode_keeps_everything read s p n ns props kids :
  read (sbytes s) = Some (Elem p n ns props kids) -> dom_ok (Elem p n ns props kids) ->
  exists t, decode read s = Ok t /\ tree_events t = events (Elem p n ns props kids) /\ n_tail t = None.
Proof. intros R H. unfold decode. rewrite R. exact (node_events _ H). Qed.
Print Assumptions C83_decode_keeps_everything.

(** Not every text survives: the end mark of a CDATA section makes the document ill-formed,
    as do control characters; a carriage return becomes a line feed; an empty text becomes
    none. *)
Definition leaf (t : str) : node := Node (Str 1 [97]) [] None [] [] (Some t) None.
Theorem C83_text_refuted :
  (do s <- encode (leaf (Str 3 [93;93;62])) false; decode read_doc s) = Exn ValueError /\
  (do s <- encode (leaf (Str 1 [1])) false; decode read_doc s) = Exn ValueError /\
  (do s <- encode (leaf (Str 1 [13])) false; decode read_doc s) = Ok (leaf (Str 1 [10])) /\
  (do s <- encode (leaf (Str 0 [])) false; decode read_doc s) = Ok (Node (Str 1 [97]) [] None [] [] None None).
Proof. repeat split; vm_compute; reflexivity. Qed.
Print Assumptions C83_text_refuted.

(** Tabs and line feeds in attribute values become spaces. *)
Theorem C83_attribute_value_refuted :
  (do s <- encode (Node (Str 1 [97]) [] None [(Str 1 [120], Str 2 [9;10])] [] None None) false; decode read_doc s)
  = Ok (Node (Str 1 [97]) [] None [(Str 1 [120], Str 2 [32;32])] [] None None).
Proof. vm_compute. reflexivity. Qed.
Print Assumptions C83_attribute_value_refuted.

(** Of two attributes that differ in their prefixes only, the second gets the value of the
    first: <a xmlns:p="u" xmlns:q="v" p:x="1" q:x="2"/>. *)
Theorem C83_attribute_prefix_refuted :
  let n v := Node (Str 1 [97]) [(Some (Str 1 [112]), Str 1 [117]); (Some (Str 1 [113]), Str 1 [118])] None
               [(Str 3 [112;58;120], Str 1 [49]); (Str 3 [113;58;120], Str 1 [v])] [] None None in
  (do s <- encode (n 50) false; decode read_doc s) = Ok (n 49).
Proof. vm_compute. reflexivity. Qed.
Print Assumptions C83_attribute_prefix_refuted.

(** The encoding of an element with a tail is no document. *)
Theorem C83_root_tail_refuted :
  (do s <- encode (Node (Str 1 [97]) [] None [] [] None (Some (Str 1 [98]))) false; decode read_doc s) = Exn ValueError.
Proof. vm_compute. reflexivity. Qed.
Print Assumptions C83_root_tail_refuted.

(** A document for the theorems:
    <p:a xmlns="u" xmlns:p="v&amp;" p:x="&lt;&quot;é"> t &gt;1<b/>]&amp;<c>z</c></p:a>. *)
Definition sample : node :=
  Node (Str 1 [97]) [(None, Str 1 [117]); (Some (Str 1 [112]), Str 2 [118;38])] (Some (Str 1 [112]))
    [(Str 3 [112;58;120], Str 3 [60;34;195;169])]
    [Node (Str 1 [98]) [] None [] [] None (Some (Str 2 [93;38])); Node (Str 1 [99]) [] None [] [] (Some (Str 1 [122])) None]
    (Some (Str 2 [32;62])) None.
Example C83_sample : tree_ok [] sample /\ n_tail sample = None /\ zlen (print true 0 sample) < 2 ^ 31 /\ zlen (print false 0 sample) < 2 ^ 31 /\
  (exists s, encode sample false = Ok s /\ nchars s + 1 = zlen (sbytes s)).
Proof.
  assert (T : forall a, 0 <= a < 128 -> is_text (Str 1 [a])) by (intros a Ha; exists [[a]]; split; [repeat constructor; cbn; lia|reflexivity]).
  assert (T2 : forall a b, 0 <= a < 128 -> 0 <= b < 128 -> is_text (Str 2 [a; b])) by (intros a b Ha Hb; exists [[a];[b]]; split; [repeat constructor; cbn; lia|reflexivity]).
  assert (Nm : forall a, name_start a = true -> 0 <= a < 128 -> name_ok (Str 1 [a])).
  { intros a Ha Hb. split; [apply T; exact Hb|]. exists a, []. split; [reflexivity|]. split; [exact Ha|]. cbn. unfold name_char. rewrite Ha. reflexivity. }
  repeat match goal with |- _ /\ _ => split end; try (vm_compute; reflexivity).
  - constructor.
    + unfold elem_ok. cbn [sample n_tag n_nsdefs n_prefix n_attrs n_text n_children n_tail all_opt map fst snd obytes option_map scope_of declared flat_map app sbytes].
      split; [apply Nm; [reflexivity|lia]|]. split; [split; [apply Nm; [reflexivity|lia]|left; reflexivity]|].
      split; [repeat constructor; cbn; try apply T; try apply T2; try apply Nm; try reflexivity; try lia|].
      split; [repeat constructor; cbn; intuition discriminate|]. split; [|split; [|split]].
      * constructor; [|constructor]. cbn [fst snd]. split; [split; [exists [[112];[58];[120]]; split; [repeat constructor; cbn; lia|reflexivity]|]|].
        { right. exists [112], [120]. repeat split; [exists 112, []; repeat split|exists 120, []; repeat split]. }
        split; [split; [exists [[60];[34];[195;169]]; split; [repeat constructor; cbn; lia|reflexivity]|repeat constructor; lia]|]. split; [discriminate|reflexivity].
      * repeat constructor; cbn; tauto.
      * repeat constructor; cbn; tauto.
      * split; [split; [apply T2; lia|repeat constructor; lia]|split; [discriminate|reflexivity]].
    + exact I.
    + assert (El : forall k sc, name_ok (n_tag k) -> n_prefix k = None -> n_nsdefs k = [] -> n_attrs k = [] -> n_children k = [] -> all_opt content_ok (n_text k) -> all_opt content_ok (n_tail k) -> tree_ok sc k).
      { intros k sc H1 H2 H3 H4 H5 H6 H7. constructor; [|exact H7|rewrite H5; constructor]. unfold elem_ok. rewrite H2, H3, H4. repeat split; try apply H1; try exact H6; try constructor. }
      constructor; [|constructor; [|constructor]]; apply El; try reflexivity; try (apply Nm; [reflexivity|lia]); cbn [n_text n_tail all_opt]; try exact I.
      * split; [split; [apply T2; lia|repeat constructor; lia]|split; [discriminate|reflexivity]].
      * split; [split; [apply T; lia|repeat constructor; lia]|split; [discriminate|reflexivity]].
  - eexists. split; vm_compute; reflexivity.
Qed.
Example C83_document_read : dom_ok (Elem None [97] [] [(Some [112], [120], [49])] [Text [98]; Comment [0]; CData [99]; Elem None [100] [] [] []; Text [101]]) /\
  read_doc [60;97;62;98;60;33;45;45;99;45;45;62;60;33;91;67;68;65;84;65;91;60;93;93;62;60;100;47;62;101;60;47;97;62]
  = Some (Elem None [97] [] [] [Text [98]; Comment [99]; CData [60]; Elem None [100] [] [] []; Text [101]]).
Proof.
  split; [|vm_compute; reflexivity]. unfold no_nul. repeat constructor; unfold no_nul; cbn; try tauto; repeat constructor; try discriminate; try lia; cbn; tauto.
Qed.

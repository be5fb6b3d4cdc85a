(** Model of base/src/xml.ext.c: encoding trees as XML, and turning the nodes delivered by
    libxml2 into trees.  libxml2 itself is not modelled. *)
From Verif Require Import Base M_Str S_Str S_Xml.

(** base/src/xml.ext.c:19-37 count_xml_escape_extra. *)
Fixpoint count_extra (quotes : bool) (s : list Z) : Z :=
  match s with
  | [] => 0
  | c :: s' =>
      (if c =? 38 then 4 else if c =? 60 then 3
       else if c =? 34 then (if quotes then 5 else 0) else 0) + count_extra quotes s'
  end.

(** base/src/xml.ext.c:41-68 copy_with_xml_escape: the bytes written. *)
Fixpoint copy_escape (quotes : bool) (s : list Z) : list Z :=
  match s with
  | [] => []
  | c :: s' =>
      (if c =? 38 then [38;97;109;112;59]
       else if c =? 60 then [38;108;116;59]
       else if c =? 34 then (if quotes then [38;113;117;111;116;59] else [c])
       else [c]) ++ copy_escape quotes s'
  end.

(** base/src/xml.ext.c:6-13 NEW_UNFILLED_STR and filling it: writing more than nbytes bytes,
    or leaving some unwritten, is undefined; so is a length that does not fit an int. *)
Definition fill (nch nb : Z) (written : list Z) : res str :=
  if (nch <=? nb) && (nb <? 2 ^ 31) && (zlen written =? nb) then Ok (Str nch written) else UB.

(** base/src/xml.ext.c:378-412 xmlQ_encode_nsdefs. *)
Definition ns_bytes (d : option str * str) : Z :=
  let '(prefix, href) := d in
  match prefix with Some p => nbytes p + 1 | None => 0 end + nbytes href + count_extra true (sbytes href) + 9.
Definition ns_chars (d : option str * str) : Z :=
  let '(prefix, href) := d in
  match prefix with Some p => nchars p + 1 | None => 0 end + nchars href + count_extra true (sbytes href) + 9.
Definition ns_write (d : option str * str) : list Z :=
  let '(prefix, href) := d in
  [32] ++ [120;109;108;110;115] ++ match prefix with Some p => [58] ++ sbytes p | None => [] end ++
  [61] ++ [34] ++ copy_escape true (sbytes href) ++ [34].
Definition sum (l : list Z) : Z := fold_right Z.add 0 l.
Definition encode_nsdefs (l : list (option str * str)) : res str :=
  fill (sum (map ns_chars l)) (sum (map ns_bytes l)) (concat (map ns_write l)).

(** base/src/xml.ext.c:415-445 xmlQ_encode_attrs. *)
Definition attr_bytes (a : str * str) : Z :=
  let '(key, value) := a in nbytes key + nbytes value + count_extra true (sbytes value) + 4.
Definition attr_chars (a : str * str) : Z :=
  let '(key, value) := a in nchars key + nchars value + count_extra true (sbytes value) + 4.
Definition attr_write (a : str * str) : list Z :=
  let '(key, value) := a in
  [32] ++ sbytes key ++ [61] ++ [34] ++ copy_escape true (sbytes value) ++ [34].
Definition encode_attrs (l : list (str * str)) : res str :=
  fill (sum (map attr_chars l)) (sum (map attr_bytes l)) (concat (map attr_write l)).

(** The length of the prefix and the tag, in bytes or characters. *)
Definition qlen (len : str -> Z) (n : node) : Z :=
  len (n_tag n) + match n_prefix n with Some p => len p + 1 | None => 0 end.
Definition qwrite (n : node) : list Z :=
  match n_prefix n with Some p => sbytes p ++ [58] | None => [] end ++ sbytes (n_tag n).
Definition b2z (b : bool) : Z := if b then 1 else 0.

(** base/src/xml.ext.c:273-296: the size, with lengths in bytes or in characters. *)
Definition total (len : str -> Z) (n : node) (indent_size : Z) (is_empty has_children pretty : bool)
  (nsdefs attrs children_str : str) : Z :=
  let text_extra := match n_text n with Some t => count_extra false (sbytes t) | None => 0 end in
  let tail_extra := match n_tail n with Some t => count_extra false (sbytes t) | None => 0 end in
  indent_size +
  (if is_empty then 1 else 2) * qlen len n +
  len nsdefs + len attrs +
  (if is_empty then 0 else match n_text n with Some t => len t + text_extra | None => 0 end) +
  (if is_empty then 0 else b2z (has_children && pretty)) +
  (if is_empty then 0 else len children_str) +
  (if is_empty then 0 else if has_children && pretty then 1 + indent_size else 0) +
  match n_tail n with Some t => len t + tail_extra | None => 0 end +
  (if is_empty then 3 else 5).

(** base/src/xml.ext.c:244-375 xmlQ_node2str. *)
Fixpoint node2str (pretty : bool) (depth : Z) (n : node) : res str :=
  do nsdefs <- encode_nsdefs (n_nsdefs n);
  do attrs <- encode_attrs (n_attrs n);
  let has_children := match n_children n with [] => false | _ => true end in
  let is_empty := match n_text n with None => negb has_children | Some _ => false end in
  do children_str <-
    (if has_children then
       do l <- (fix go (l : list node) : res (list str) :=
                  match l with
                  | [] => Ok []
                  | k :: l' => do s <- node2str pretty (depth + 1) k; do r <- go l'; Ok (s :: r)
                  end) (n_children n);
       str_join (if pretty then Str 1 [10] else null_str) l
     else Ok null_str);
  let indent_size := if pretty then depth * 2 else 0 in
  let indent := repeat 32 (Z.to_nat indent_size) in
  fill (total nchars n indent_size is_empty has_children pretty nsdefs attrs children_str)
       (total nbytes n indent_size is_empty has_children pretty nsdefs attrs children_str)
       (indent ++ [60] ++ qwrite n ++ sbytes nsdefs ++ sbytes attrs ++
        (if is_empty then [47] ++ [62]
         else [62] ++ match n_text n with Some t => copy_escape false (sbytes t) | None => [] end ++
              (if has_children
               then (if pretty then [10] else []) ++ sbytes children_str ++
                    (if pretty then [10] ++ indent else [])
               else []) ++
              [60] ++ [47] ++ qwrite n ++ [62]) ++
        match n_tail n with Some t => copy_escape false (sbytes t) | None => [] end).

(** base/src/xml.ext.c:447-450 xmlQ_NodeD_encode. *)
Definition encode (n : node) (pretty : bool) : res str := node2str pretty 0 n.

(** to$str(s): s up to a byte 0, and the number of its characters. *)
Fixpoint cut (s : list Z) : list Z :=
  match s with [] => [] | c :: s' => if c =? 0 then [] else c :: cut s' end.
Definition char_count (s : list Z) : Z := zlen (filter (fun c => negb ((128 <=? c) && (c <? 192))) s).
Definition to_str (s : list Z) : str := Str (char_count (cut s)) (cut s).

(** xmlGetProp: the value of the first attribute with this name, of any namespace. *)
Fixpoint get_prop (name : list Z) (props : list (option (list Z) * list Z * list Z)) : list Z :=
  match props with
  | [] => []
  | (_, n, v) :: props' => if beqb name n then v else get_prop name props'
  end.

(** base/src/xml.ext.c:148-166, the loop over the attributes. *)
Definition attr_of (props : list (option (list Z) * list Z * list Z)) (a : option (list Z) * list Z * list Z) : str * str :=
  let '(p, n, _) := a in
  (match p with Some p => to_str (p ++ [58] ++ n) | None => to_str n end, to_str (get_prop n props)).

Definition set_tail (t : option str) (n : node) : node :=
  let '(Node g d p a c x _) := n in Node g d p a c x t.
(** Text collected so far, and more of it before. *)
Definition before (s : list Z) (t : option (list Z)) : option (list Z) :=
  match s ++ match t with Some t => t | None => [] end with [] => None | b => Some b end.

(** base/src/xml.ext.c:84-188 collect_text_cdata_nodes and $NodePtr2Node.  The list of
    siblings is treated from the end: the text before the first element, and the elements,
    each with its tail.  (The exception for an unsupported node comes before those of
    elements after it in the code.) *)
Fixpoint node_of (d : dom) : res node :=
  match d with
  | Elem p n ns props kids =>
      do tc <- (fix go (l : list dom) : res (option (list Z) * list node) :=
                  match l with
                  | [] => Ok (None, [])
                  | (Text s | CData s) :: l' => do tc <- go l'; Ok (before (cut s) (fst tc), snd tc)
                  | Comment _ :: l' => go l'
                  | OtherNode :: _ => Exn ValueError
                  | (Elem _ _ _ _ _ as e) :: l' =>
                      do k <- node_of e; do tc <- go l';
                      Ok (None, set_tail (option_map to_str (fst tc)) k :: snd tc)
                  end) kids;
      Ok (Node (to_str n) (map (fun x => (option_map to_str (fst x), to_str (snd x))) ns)
               (option_map to_str p) (map (attr_of props) props) (snd tc) (option_map to_str (fst tc)) None)
  | _ => Exn ValueError
  end.

(** base/src/xml.ext.c:190-237 xmlQ_decode, given what the parser makes of the text. *)
Definition decode (read : list Z -> option dom) (data : str) : res node :=
  match read (sbytes data) with
  | None => Exn ValueError
  | Some d => node_of d
  end.

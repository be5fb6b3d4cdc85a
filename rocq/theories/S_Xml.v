(** Specification of XML: trees, their text, and a reference reader for the part of XML
    1.0 (with namespaces) without document type, processing instructions and character
    references.  Texts are byte sequences in UTF-8.  The reader says what a conforming
    parser makes of a text; it is not the code of libxml2. *)
From Verif Require Import Base M_Str S_Str.

(** ** Trees, as in base/src/xml.act: text is before the first child, tail after the element. *)
Inductive node := Node (tag : str) (nsdefs : list (option str * str)) (prefix : option str)
  (attributes : list (str * str)) (children : list node) (txt : option str) (tail : option str).
Definition n_tag n := match n with Node t _ _ _ _ _ _ => t end.
Definition n_nsdefs n := match n with Node _ d _ _ _ _ _ => d end.
Definition n_prefix n := match n with Node _ _ p _ _ _ _ => p end.
Definition n_attrs n := match n with Node _ _ _ a _ _ _ => a end.
Definition n_children n := match n with Node _ _ _ _ c _ _ => c end.
Definition n_text n := match n with Node _ _ _ _ _ t _ => t end.
Definition n_tail n := match n with Node _ _ _ _ _ _ t => t end.

(** ** What a parser delivers. *)
Inductive dom :=
| Elem (prefix : option (list Z)) (name : list Z) (nsdef : list (option (list Z) * list Z))
       (props : list (option (list Z) * list Z * list Z)) (kids : list dom)
| Text (s : list Z) | CData (s : list Z) | Comment (s : list Z) | OtherNode.

(** ** The reference reader. *)
Definition ws (c : Z) : bool := (c =? 32) || (c =? 9) || (c =? 10) || (c =? 13).
Definition letter (c : Z) : bool := ((65 <=? c) && (c <=? 90)) || ((97 <=? c) && (c <=? 122)).
Definition name_start (c : Z) : bool := letter c || (c =? 95) || (128 <=? c).
Definition name_char (c : Z) : bool := name_start c || ((48 <=? c) && (c <=? 57)) || (c =? 45) || (c =? 46).

Fixpoint starts (p s : list Z) : bool :=
  match p, s with
  | [], _ => true
  | a :: p', b :: s' => (a =? b) && starts p' s'
  | _ :: _, [] => false
  end.
Fixpoint span (f : Z -> bool) (s : list Z) : list Z * list Z :=
  match s with
  | [] => ([], [])
  | c :: s' => if f c then let '(a, b) := span f s' in (c :: a, b) else ([], s)
  end.
Fixpoint contains (p s : list Z) : bool :=
  starts p s || match s with [] => false | _ :: s' => contains p s' end.
(** What comes before and after the first [p]. *)
Fixpoint upto (p s : list Z) : option (list Z * list Z) :=
  if starts p s then Some ([], skipn (length p) s)
  else match s with
       | [] => None
       | c :: s' => match upto p s' with Some (a, b) => Some (c :: a, b) | None => None end
       end.

(** A reference to a predefined entity, after &: the character and the bytes taken. *)
Definition entity (s : list Z) : option (Z * nat) :=
  if starts [97;109;112;59] s then Some (38, 4%nat)          (* amp; *)
  else if starts [108;116;59] s then Some (60, 3%nat)        (* lt; *)
  else if starts [103;116;59] s then Some (62, 3%nat)        (* gt; *)
  else if starts [113;117;111;116;59] s then Some (34, 5%nat)  (* quot; *)
  else if starts [97;112;111;115;59] s then Some (39, 5%nat)   (* apos; *)
  else None.

Definition ocons {A} (c : A) (o : option (list A)) : option (list A) :=
  match o with Some l => Some (c :: l) | None => None end.
(** What character data and attribute values stand for: entities; line ends are LF; white
    space in attribute values is a space; no other control characters. *)
Fixpoint unescape (attr : bool) (skip : nat) (s : list Z) : option (list Z) :=
  match s with
  | [] => match skip with O => Some [] | _ => None end
  | c :: s' =>
      match skip with
      | S k => unescape attr k s'
      | O =>
          if c =? 38 then
            match entity s' with Some (x, k) => ocons x (unescape attr k s') | None => None end
          else if c =? 60 then None
          else if c =? 13 then
            if starts [10] s' then unescape attr 0 s' else ocons (if attr then 32 else 10) (unescape attr 0 s')
          else if (c =? 9) || (c =? 10) then ocons (if attr then 32 else c) (unescape attr 0 s')
          else if c <? 32 then None
          else ocons c (unescape attr 0 s')
      end
  end.

(** A name, possibly with a prefix. *)
Definition read_name (s : list Z) : option (list Z * list Z) :=
  match span (fun c => name_char c || (c =? 58)) s with
  | (c :: n, r) => if name_start c then Some (c :: n, r) else None
  | _ => None
  end.
Definition skip_ws (s : list Z) : list Z := snd (span ws s).

(** The attributes of a start tag, in order. *)
Fixpoint read_attrs (fuel : nat) (s : list Z) : option (list (list Z * list Z) * list Z) :=
  match fuel with
  | O => None
  | S fuel =>
      match s with
      | c :: _ =>
          if ws c then
            match read_name (skip_ws s) with
            | Some (n, e :: q :: r) =>
                if (e =? 61) && ((q =? 34) || (q =? 39)) then
                  match upto [q] r with
                  | Some (raw, r) =>
                      match unescape true 0 raw, read_attrs fuel r with
                      | Some v, Some (l, r) => Some ((n, v) :: l, r)
                      | _, _ => None
                      end
                  | None => None
                  end
                else None
            | Some _ => None
            | None => Some ([], skip_ws s)
            end
          else Some ([], s)
      | [] => Some ([], s)
      end
  end.

Definition beqb (a b : list Z) : bool := if list_eq_dec Z.eq_dec a b then true else false.
Definition xmlns : list Z := [120;109;108;110;115].
(** Namespace declarations are the attributes xmlns and xmlns:p. *)
Fixpoint split_ns (l : list (list Z * list Z)) : list (option (list Z) * list Z) * list (list Z * list Z) :=
  match l with
  | [] => ([], [])
  | (n, v) :: l' =>
      let '(ns, at') := split_ns l' in
      if beqb n xmlns then ((None, v) :: ns, at')
      else if starts (xmlns ++ [58]) n then ((Some (skipn 6 n), v) :: ns, at')
      else (ns, (n, v) :: at')
  end.
(** p:l belongs to the namespace p if that is declared, otherwise it is just a name. *)
Definition resolve (scope : list (list Z)) (q : list Z) : option (list Z) * list Z :=
  match upto [58] q with
  | Some (p, l) => if existsb (beqb p) ([120;109;108] :: scope) then (Some p, l) else (None, q)
  | None => (None, q)
  end.
Definition declared (ns : list (option (list Z) * list Z)) : list (list Z) :=
  flat_map (fun d => match fst d with Some p => [p] | None => [] end) ns.
Fixpoint distinct (l : list (list Z)) : bool :=
  match l with [] => true | n :: l' => negb (existsb (beqb n) l') && distinct l' end.
(** A prefix is bound to a namespace; xml and xmlns are reserved. *)
Definition ns_ok (d : option (list Z) * list Z) : bool :=
  match d with
  | (Some p, h) => match h with [] => false | _ => negb (beqb p xmlns) && negb (beqb p [120;109;108]) end
  | (None, _) => true
  end.

(** Content up to an end tag or the end of the text. *)
Fixpoint read_content (fuel : nat) (scope : list (list Z)) (s : list Z) : option (list dom * list Z) :=
  match fuel with
  | O => None
  | S fuel =>
      let more d r := match read_content fuel scope r with Some (ds, r) => Some (d :: ds, r) | None => None end in
      match s with
      | [] => Some ([], [])
      | _ =>
          if starts [60;47] s then Some ([], s)
          else if starts [60;33;45;45] s then
            match upto [45;45] (skipn 4 s) with
            | Some (c, r) => if starts [62] r then more (Comment c) (skipn 1 r) else None
            | None => None
            end
          else if starts [60;33;91;67;68;65;84;65;91] s then
            match upto [93;93;62] (skipn 9 s) with Some (c, r) => more (CData c) r | None => None end
          else if starts [60] s then
            match read_name (skipn 1 s) with
            | None => None
            | Some (q, r) =>
                match read_attrs (S (length r)) r with
                | None => None
                | Some (l, r) =>
                    let '(ns, at') := split_ns l in
                    let scope' := declared ns ++ scope in
                    let '(p, n) := resolve scope' q in
                    let elem := Elem p n ns (map (fun a => (resolve scope' (fst a), snd a)) at') in
                    if negb (distinct (map fst l) && forallb ns_ok ns) then None
                    else if starts [47;62] r then more (elem []) (skipn 2 r)
                    else if starts [62] r then
                      match read_content fuel scope' (skipn 1 r) with
                      | Some (kids, r) =>
                          if starts ([60;47] ++ q ++ [62]) r then more (elem kids) (skipn (3 + length q) r) else None
                      | None => None
                      end
                    else None
                end
            end
          else
            let '(raw, r) := span (fun c => negb (c =? 60)) s in
            if contains [93;93;62] raw then None
            else match unescape false 0 raw with Some t => more (Text t) r | None => None end
      end
  end.

(** A document: one element, possibly with white space around it. *)
Definition read_doc (s : list Z) : option dom :=
  match read_content (2 * length s + 2) [] (skip_ws s) with
  | Some ([Elem p n ns at' kids], []) => Some (Elem p n ns at' kids)
  | Some ([Elem p n ns at' kids; Text t], []) => if forallb ws t then Some (Elem p n ns at' kids) else None
  | _ => None
  end.

(** ** Trees with a meaning as XML. *)
Definition is_text (s : str) : Prop := exists cs, text cs /\ s = ustr cs.
Definition is_name (b : list Z) : Prop :=
  exists c r, b = c :: r /\ name_start c = true /\ forallb name_char b = true.
Definition name_ok (s : str) : Prop := is_text s /\ is_name (sbytes s).
(** An attribute's name: a name, or two separated by a colon. *)
Definition qname_ok (s : str) : Prop :=
  is_text s /\ (is_name (sbytes s) \/ exists p l, sbytes s = p ++ 58 :: l /\ is_name p /\ is_name l).
(** Text that XML can express literally: no control characters but tab and line feed, and
    not the end mark of a CDATA section. *)
Definition chars_ok (s : str) : Prop :=
  is_text s /\ Forall (fun c => 32 <= c \/ c = 9 \/ c = 10) (sbytes s).
Definition content_ok (s : str) : Prop := chars_ok s /\ sbytes s <> [] /\ contains [93;93;62] (sbytes s) = false.
Definition value_ok (s : str) : Prop := is_text s /\ Forall (fun c => 32 <= c) (sbytes s).

Definition obytes (o : option str) : option (list Z) := option_map sbytes o.
Definition scope_of (n : node) : list (list Z) := declared (map (fun d => (obytes (fst d), sbytes (snd d))) (n_nsdefs n)).
Definition all_opt {A} (P : A -> Prop) (o : option A) : Prop := match o with None => True | Some a => P a end.

(** One element: names are names, prefixes are declared, attributes are distinct and not
    namespace declarations; distinct also without their prefixes. *)
Definition elem_ok (scope : list (list Z)) (n : node) : Prop :=
  name_ok (n_tag n) /\ all_opt (fun p => name_ok p /\ In (sbytes p) (scope_of n ++ scope)) (n_prefix n) /\
  Forall (fun d => value_ok (snd d) /\ all_opt name_ok (fst d) /\ ns_ok (obytes (fst d), sbytes (snd d)) = true) (n_nsdefs n) /\
  NoDup (map (fun d => obytes (fst d)) (n_nsdefs n)) /\
  Forall (fun a => qname_ok (fst a) /\ value_ok (snd a) /\ sbytes (fst a) <> xmlns /\ starts (xmlns ++ [58]) (sbytes (fst a)) = false) (n_attrs n) /\
  NoDup (map (fun a => sbytes (fst a)) (n_attrs n)) /\
  NoDup (map (fun a => snd (resolve (scope_of n ++ scope) (sbytes (fst a)))) (n_attrs n)) /\
  all_opt content_ok (n_text n).
Inductive tree_ok (scope : list (list Z)) : node -> Prop :=
| T_ok n : elem_ok scope n -> all_opt content_ok (n_tail n) ->
    Forall (tree_ok (scope_of n ++ scope)) (n_children n) -> tree_ok scope n.

(** ** The text of a tree. *)
Definition escape1 (quotes : bool) (c : Z) : list Z :=
  if c =? 38 then [38;97;109;112;59]
  else if c =? 60 then [38;108;116;59]
  else if quotes && (c =? 34) then [38;113;117;111;116;59]
  else [c].
Definition escape (quotes : bool) (s : list Z) : list Z := flat_map (escape1 quotes) s.
Definition opt {A} (f : A -> list Z) (o : option A) : list Z := match o with None => [] | Some a => f a end.
Definition qtag (n : node) : list Z := opt (fun p => sbytes p ++ [58]) (n_prefix n) ++ sbytes (n_tag n).
Definition print_attr (name : list Z) (v : str) : list Z := 32 :: name ++ [61; 34] ++ escape true (sbytes v) ++ [34].
Definition print_ns (d : option str * str) : list Z := print_attr (xmlns ++ opt (fun p => 58 :: sbytes p) (fst d)) (snd d).
Definition start_of (n : node) : list Z :=
  qtag n ++ flat_map print_ns (n_nsdefs n) ++ flat_map (fun a => print_attr (sbytes (fst a)) (snd a)) (n_attrs n).
Definition joinb (sep : list Z) (l : list (list Z)) : list Z := joined sep l.
Fixpoint print (pretty : bool) (depth : nat) (n : node) : list Z :=
  let ind := if pretty then repeat 32 (2 * depth) else [] in
  let nl := if pretty then [10] else [] in
  let kids := (fix go l := match l with [] => [] | k :: l' => print pretty (S depth) k :: go l' end) (n_children n) in
  ind ++ [60] ++ start_of n ++
  match n_text n, n_children n with
  | None, [] => [47; 62]
  | t, ks =>
      [62] ++ opt (fun t => escape false (sbytes t)) t ++
      match ks with [] => [] | _ => nl ++ joinb nl kids ++ nl ++ ind end ++
      [60; 47] ++ qtag n ++ [62]
  end ++ opt (fun t => escape false (sbytes t)) (n_tail n).

(** ** Trees of texts: what the type NodeD allows. *)
Inductive strings_ok : node -> Prop :=
| S_ok n : is_text (n_tag n) -> all_opt is_text (n_prefix n) ->
    Forall (fun d => is_text (snd d) /\ all_opt is_text (fst d)) (n_nsdefs n) ->
    Forall (fun a => is_text (fst a) /\ is_text (snd a)) (n_attrs n) ->
    all_opt is_text (n_text n) -> all_opt is_text (n_tail n) ->
    Forall strings_ok (n_children n) -> strings_ok n.

(** ** The same tree, but for white space after texts. *)
Definition padded (a b : option str) : Prop :=
  exists w, Forall (fun c => ws c = true) w /\
    match b with
    | None => a = None /\ w = []
    | Some s => is_text s /\ sbytes s = opt sbytes a ++ w
    end.
Inductive spaced : node -> node -> Prop :=
| Sp n m : n_tag n = n_tag m -> n_nsdefs n = n_nsdefs m -> n_prefix n = n_prefix m -> n_attrs n = n_attrs m ->
    padded (n_text n) (n_text m) -> (n_children n = [] -> n_text n = n_text m) -> padded (n_tail n) (n_tail m) ->
    Forall2 spaced (n_children n) (n_children m) -> spaced n m.

(** ** Documents as sequences of tags and characters. *)
Inductive event :=
| Open (prefix : option (list Z)) (name : list Z) (nsdefs : list (option (list Z) * list Z)) (attrs : list (list Z * list Z))
| Char (c : Z) | Close.
Definition qualified (p : option (list Z)) (n : list Z) : list Z := opt (fun p => p ++ [58]) p ++ n.
(** Of what the parser delivers; comments do not count. *)
Fixpoint events (d : dom) : list event :=
  match d with
  | Elem p n ns props kids =>
      Open p n ns (map (fun a => (qualified (fst (fst a)) (snd (fst a)), snd a)) props) ::
      (fix go l := match l with [] => [] | k :: l' => events k ++ go l' end) kids ++ [Close]
  | Text s | CData s => map Char s
  | Comment _ | OtherNode => []
  end.
(** Of a tree. *)
Fixpoint tree_events (n : node) : list event :=
  Open (obytes (n_prefix n)) (sbytes (n_tag n)) (map (fun d => (obytes (fst d), sbytes (snd d))) (n_nsdefs n))
       (map (fun a => (sbytes (fst a), sbytes (snd a))) (n_attrs n)) ::
  map Char (opt sbytes (n_text n)) ++
  (fix go l := match l with [] => [] | k :: l' => tree_events k ++ map Char (opt sbytes (n_tail k)) ++ go l' end) (n_children n) ++ [Close].
(** A document of elements, texts and comments without the character NUL, with no two
    attributes that differ only in their prefixes. *)
Definition no_nul (b : list Z) : Prop := Forall (fun c => c <> 0) b.
Definition no_nul_opt (o : option (list Z)) : Prop := match o with Some b => no_nul b | None => True end.
Inductive dom_ok : dom -> Prop :=
| D_elem p n ns props kids : no_nul_opt p -> no_nul n ->
    Forall (fun d => no_nul_opt (fst d) /\ no_nul (snd d)) ns ->
    Forall (fun a => no_nul_opt (fst (fst a)) /\ no_nul (snd (fst a)) /\ no_nul (snd a)) props ->
    NoDup (map (fun a => snd (fst a)) props) ->
    Forall dom_ok kids -> dom_ok (Elem p n ns props kids)
| D_text s : no_nul s -> dom_ok (Text s)
| D_cdata s : no_nul s -> dom_ok (CData s)
| D_comment s : dom_ok (Comment s).

(** base/src/diff.act: the line diff.

    A line is a value of any type with equality.  Lists are Acton lists (C01-C05), the
    dictionaries that collect positions are association lists in order of insertion
    (C08), sorted is insertion sort (C14). *)
From Verif Require Import Base S_Diff.
From Coq Require Import Arith.
Open Scope nat_scope.

Section M.
Context {A : Type} (eqb : A -> A -> bool).

(** e[a:b] with 0 <= a, b. *)
Definition seg (l : list A) (a b : nat) : list A := firstn (b - a) (skipn a l).

(** The loops that make operations: base/src/diff.act:38-39, :45-46, :56-57, :65-69, :84-85, :91-92, :121-122, :201-205. *)
Fixpoint inserts (l : list A) (j : nat) : list (op A) :=
  match l with [] => [] | x :: t => Insert x j :: inserts t (S j) end.
Fixpoint deletes (l : list A) (i : nat) : list (op A) :=
  match l with [] => [] | x :: t => Delete x i :: deletes t (S i) end.
Fixpoint keeps (l : list A) (i j : nat) : list (op A) :=
  match l with [] => [] | x :: t => Keep x i j :: keeps t (S i) (S j) end.

(** base/src/diff.act:50-52, :59-62, :111-113: the number of equal lines. *)
Fixpoint common (e f : list A) : nat :=
  match e, f with
  | x :: e, y :: f => if eqb x y then S (common e f) else 0
  | _, _ => 0
  end.

(** base/src/diff.act:107-117: where in [f] the longest run equal to that from [m] starts
    (the first such), and its length. *)
Fixpoint best_match (m : list A) (f : list A) (pos : nat) (best : Z * Z) : Z * Z :=
  match f with
  | [] => best
  | _ :: t =>
      let n := Z.of_nat (common m f) in
      best_match m t (S pos) (if Z.ltb (snd best) n then (Z.of_nat pos, n) else best)
  end.

(** base/src/diff.act:138-148: positions of each line, in order of first
    appearance. *)
Fixpoint note_line (d : list (A * list nat)) (x : A) (n : nat) : list (A * list nat) :=
  match d with
  | [] => [(x, [n])]
  | (y, l) :: t => if eqb y x then (y, l ++ [n]) :: t else (y, l) :: note_line t x n
  end.
Fixpoint positions (l : list A) (n : nat) (d : list (A * list nat)) : list (A * list nat) :=
  match l with [] => d | x :: t => positions t (S n) (note_line d x n) end.
Fixpoint look (d : list (A * list nat)) (x : A) : option (list nat) :=
  match d with [] => None | (y, l) :: t => if eqb y x then Some l else look t x end.

(** base/src/diff.act:150-157: lines that occur once in both. *)
Fixpoint anchors (d df : list (A * list nat)) : list (nat * nat) :=
  match d with
  | [] => []
  | (x, [a]) :: t => match look df x with
                     | Some [b] => (a, b) :: anchors t df
                     | _ => anchors t df
                     end
  | _ :: t => anchors t df
  end.

(** base/src/diff.act:160 sorted. *)
Definition pair_le (p q : nat * nat) : bool :=
  (fst p <? fst q) || ((fst p =? fst q) && (snd p <=? snd q)).
Fixpoint put (p : nat * nat) (l : list (nat * nat)) : list (nat * nat) :=
  match l with [] => [p] | q :: t => if pair_le p q then p :: l else q :: put p t end.
Definition sorted (l : list (nat * nat)) : list (nat * nat) := fold_right put [] l.

(** base/src/diff.act:169-198: the segments between the anchors. *)
Fixpoint anchored (rec : list A -> list A -> nat -> nat -> res (list (op A)))
    (e f : list A) (i j : nat) (l : list (nat * nat)) (le lf : nat) : res (list (op A)) :=
  match l with
  | [] => if (le <? length e) || (lf <? length f)
          then rec (skipn le e) (skipn lf f) (i + le) (j + lf) else Ok []
  | (a, b) :: t =>
      do s <- (if (le <? a) || (lf <? b) then rec (seg e le a) (seg f lf b) (i + le) (j + lf) else Ok []);
      do x <- orUB (nth_error e a);
      do r <- anchored rec e f i j t (S a) (S b);
      Ok (s ++ Keep x (i + a) (j + b) :: r)
  end.

(** base/src/diff.act:11-206 myers_diff. *)
Fixpoint myers (fuel : nat) (e f : list A) (i j : nat) : res (list (op A)) :=
  match fuel with
  | O => NoFuel
  | S fuel =>
      let '(ne, nf) := (length e, length f) in
      if ne =? 0 then Ok (inserts f j)
      else if nf =? 0 then Ok (deletes e i)
      else
        let p := common e f in
        let s := common (rev (skipn p e)) (rev (skipn p f)) in
        if (0 <? p) || (0 <? s) then
          do m <- myers fuel (seg e p (ne - s)) (seg f p (nf - s)) (i + p) (j + p);
          Ok (keeps (firstn p e) i j ++ m ++ keeps (skipn (ne - s) e) (i + (ne - s)) (j + (nf - s)))
        else if (ne =? 1) && (1 <? nf) then Ok (deletes e i ++ inserts f j)
        else if (nf =? 1) && (1 <? ne) then Ok (deletes e i ++ inserts f j)
        else if (ne =? 1) && (nf =? 1) then
          match e, f with
          | x :: _, y :: _ => Ok (if eqb x y then [Keep x i j] else [Delete x i; Insert y j])
          | _, _ => UB
          end
        else
          let m := ne / 2 in
          let '(pos, len) := best_match (skipn m e) f 0 ((-1)%Z, (-1)%Z) in
          if (0 <? len)%Z then
            let '(pos, len) := (Z.to_nat pos, Z.to_nat len) in
            do b <- myers fuel (seg e 0 m) (seg f 0 pos) i j;
            do a <- myers fuel (skipn (m + len) e) (skipn (pos + len) f) (i + m + len) (j + pos + len);
            Ok (b ++ keeps (seg e m (m + len)) (i + m) (j + pos) ++ a)
          else
            match sorted (anchors (positions e 0 []) (positions f 0 [])) with
            | [] => Ok (deletes e i ++ inserts f j)
            | l => anchored (myers fuel) e f i j l 0 0
            end
  end.

(** Enough fuel: every recursive call is on shorter texts. *)
Definition myers_diff (e f : list A) : res (list (op A)) := myers (S (length e + length f)) e f 0 0.

(** base/src/diff.act:273-324 filter_operations_with_context, for context_lines >= 0; a Gap is
    None.  The scan of change_indices is [existsb]. *)
Definition changed (o : op A) : bool := match o with Keep _ _ _ => false | _ => true end.
Fixpoint change_indices (ops : list (op A)) (i : nat) : list nat :=
  match ops with
  | [] => []
  | o :: t => if changed o then i :: change_indices t (S i) else change_indices t (S i)
  end.
Definition included (ci : list nat) (c : Z) (i : nat) : bool :=
  existsb (fun ch => (Z.abs (Z.of_nat i - Z.of_nat ch) <=? c)%Z) ci.
Fixpoint filter_loop (inc : nat -> bool) (ops : list (op A)) (i : nat) (in_chunk any : bool) : list (option (op A)) :=
  match ops with
  | [] => []
  | o :: t =>
      if inc i then
        (if negb in_chunk && (0 <? i) && any then [None] else []) ++ Some o :: filter_loop inc t (S i) true true
      else filter_loop inc t (S i) false any
  end.
Definition filter_operations (ops : list (op A)) (c : Z) : list (option (op A)) :=
  match change_indices ops 0 with
  | [] => []
  | ci => filter_loop (included ci c) ops 0 false false
  end.

(** base/src/diff.act:376-403 find_chunks; [cur] is the current chunk. *)
Fixpoint find_chunks (l : list (option (op A))) (cur : list (op A)) : list (list (op A)) :=
  match l with
  | [] => match cur with [] => [] | _ => [cur] end
  | None :: t => match cur with [] => find_chunks t cur | _ => cur :: find_chunks t [] end
  | Some o :: t => find_chunks t (cur ++ [o])
  end.

(** base/src/diff.act:326-374 generate_chunk_header: old_start, old_count, new_start, new_count;
    the numbers of the header are the starts plus 1 and the counts. *)
Definition start_at (s : Z) (n : nat) : Z := if (s =? -1)%Z then Z.of_nat n else s.
Fixpoint header_loop (ops : list (op A)) (os : Z) (oc : nat) (ns : Z) (nc : nat) : Z * nat * Z * nat :=
  match ops with
  | [] => (os, oc, ns, nc)
  | Keep _ o n :: t => header_loop t (start_at os o) (S oc) (start_at ns n) (S nc)
  | Delete _ o :: t => header_loop t (start_at os o) (S oc) ns nc
  | Insert _ n :: t => header_loop t os oc (start_at ns n) (S nc)
  end.
Definition header (ops : list (op A)) : nat * nat * nat * nat :=
  let '(os, oc, ns, nc) := header_loop ops (-1)%Z 0 (-1)%Z 0 in
  let os := if (os =? -1)%Z then 0%Z else os in
  let ns := if (ns =? -1)%Z then 0%Z else ns in
  (Z.to_nat (os + 1), oc, Z.to_nat (ns + 1), nc).
End M.

(** The text of a diff.  Strings are lists of characters; that str.splitlines, str.rstrip and
    str.join do on UTF-8 buffers what these functions do on characters is C63 and C37. *)
Local Open Scope Z_scope.
Section Text.

Definition text_eqb (x y : list Z) : bool := if list_eq_dec Z.eq_dec x y then true else false.

(** base/builtin/str.c:1452-1490 splitlines(True); [cur] is the current line. *)
Definition islinebreak (c : Z) : bool := ((10 <=? c) && (c <=? 13)) || ((28 <=? c) && (c <=? 30)).
Fixpoint splitlines (t cur : list Z) : list (list Z) :=
  match t with
  | [] => match cur with [] => [] | _ => [cur] end
  | c :: t' =>
      if negb (islinebreak c) then splitlines t' (cur ++ [c])
      else match t' with
           | d :: t'' => if (c =? 13) && (d =? 10) then (cur ++ [c; d]) :: splitlines t'' []
                         else (cur ++ [c]) :: splitlines t' []
           | [] => [cur ++ [c]]
           end
  end.

(** base/src/diff.act:428-431: a newline at the end of the last line. *)
Definition add_newline (t : list Z) (ls : list (list Z)) : list (list Z) :=
  match rev ls with
  | [] => ls
  | l :: r => if negb (last t 0 =? 10) then rev r ++ [l ++ [10]] else ls
  end.

(** base/builtin/str.c:1492-1513 rstrip with the default set; on a text of
    whitespace only, which the code does not strip (C37), this returns the empty text. *)
Definition space (c : Z) : bool := (c =? 32) || ((9 <=? c) && (c <=? 13)).
Fixpoint drop_space (r : list Z) : list Z := match r with c :: r' => if space c then drop_space r' else r | [] => [] end.
Definition rstrip (t : list Z) : list Z := rev (drop_space (rev t)).

(** Decimal numbers in an f-string. *)
Fixpoint num_loop (fuel : nat) (n : nat) : list Z :=
  match fuel with
  | O => []
  | S fuel => (if (n <? 10)%nat then [] else num_loop fuel (n / 10)%nat) ++ [48 + Z.of_nat (n mod 10)]
  end.
Definition num (n : nat) : list Z := num_loop (S n) n.

(** base/src/diff.act:237-238, :252-253, :267-268 __str__ of Keep, Delete and Insert. *)
Definition op_text (o : op (list Z)) : list Z :=
  match o with Keep x _ _ => 32 :: x | Delete x _ => 45 :: x | Insert x _ => 43 :: x end.

(** base/src/diff.act:374 the header's text. *)
Definition header_text (h : nat * nat * nat * nat) : list Z :=
  let '(a, b, c, d) := h in
  [64; 64; 32; 45] ++ num a ++ [44] ++ num b ++ [32; 43] ++ num c ++ [44] ++ num d ++ [32; 64; 64].

(** base/src/diff.act:405-463 diff, without colours. *)
Definition diff (old new : list Z) (c : Z) : res (list Z) :=
  if text_eqb old new then Ok []
  else
    let ol := add_newline old (splitlines old []) in
    let nl := add_newline new (splitlines new []) in
    do ops <- myers_diff text_eqb ol nl;
    let fops := if 0 <=? c then filter_operations ops c else map Some ops in
    match fops with
    | [] => Ok []
    | _ => Ok (rstrip (flat_map (fun ch => (if c <? 0 then [] else header_text (header ch) ++ [10]) ++ flat_map op_text ch)
                         (find_chunks fops [])))
    end.
End Text.

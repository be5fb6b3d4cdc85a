(** Model of base/src/fs.act:14-175, glob.  Texts are lists of code points (the str methods
    used index by character).  Simplification: the separator is one character. *)
From Verif Require Import Base.

(** str.find(c, start) (base/builtin/str.c, modelled in full in M_Str) on the rest of the text: characters before the first [c], if any. *)
Fixpoint find_char (c : Z) (s : list Z) : option Z :=
  match s with
  | [] => None
  | x :: s' => if x =? c then Some 0
               else match find_char c s' with Some i => Some (i + 1) | None => None end
  end.

(** str.split(',') (base/builtin/str.c:1374, modelled in full in M_Str). *)
Fixpoint split_commas (s : list Z) : list (list Z) :=
  match s with
  | [] => [[]]
  | c :: s' => match split_commas s' with
               | x :: ps => if c =? 44 then [] :: x :: ps else (c :: x) :: ps
               | [] => [[]]
               end
  end.

(** base/src/fs.act:127-142, the loop over a character class; the list is
    char_class[i:]. *)
Fixpoint class_loop (cls : list Z) (c : Z) : bool :=
  match cls with
  | [] => false
  | a :: r =>
      match r with
      | d :: b :: r' =>
          if d =? 45
          then (if (a <=? c) && (c <=? b) then true else class_loop r' c)
          else (if a =? c then true else class_loop r c)
      | _ => if a =? c then true else class_loop r c
      end
  end.

(** base/src/fs.act:116-145, does the character [c] match the class [char_class]? *)
Definition class_match (char_class : list Z) (c : Z) : bool :=
  let negated := match char_class with x :: _ => (x =? 33) || (x =? 94) | [] => false end in
  let body := if negated then tl char_class else char_class in
  let found := class_loop body c in
  if negated then negb found else found.

(** [or] on results: the second is computed only if the first is False. *)
Definition orr (a b : res bool) : res bool :=
  match a with Ok false => b | _ => a end.

(** for i in range(s_idx, len(path) + 1): the ends of the path from s_idx on. *)
Fixpoint any_rest (f : list Z -> res bool) (s : list Z) : res bool :=
  match s with
  | [] => orr (f []) (Ok false)
  | _ :: s' => orr (f s) (any_rest f s')
  end.

(** for option in options *)
Fixpoint any_of (f : list Z -> res bool) (l : list (list Z)) : res bool :=
  match l with [] => Ok false | o :: l' => orr (f o) (any_of f l') end.

(** base/src/fs.act:39-175 _glob_recursive.  [pre] is pattern[:p_idx], [p] is
    pattern[p_idx:], [s] is path[s_idx:].  [fuel] is the depth of the recursion. *)
Fixpoint glob_rec (fuel : nat) (sep : Z) (pre p path s : list Z) : res bool :=
  match fuel with
  | O => NoFuel
  | S f =>
    (* :172-175 and :110, :158 *)
    let literal c p' :=
      match s with
      | x :: s' => if c =? x then glob_rec f sep (pre ++ [c]) p' path s' else Ok false
      | [] => Ok false
      end in
    match p with
    | [] => Ok (match s with [] => true | _ => false end)                      (* :54-56 *)
    | c :: p1 =>
      if (c =? 92) && (match p1 with [] => false | _ => true end) then         (* :59-63 *)
        match p1, s with
        | d :: p2, x :: s' => if d =? x then glob_rec f sep (pre ++ [c; d]) p2 path s' else Ok false
        | _, _ => Ok false
        end
      else if (c =? 42) && (match p1 with d :: _ => d =? 42 | [] => false end) then
        let p2 := tl p1 in
        match p2 with
        | e :: p3 =>
            if e =? sep
            then any_rest (fun s' => glob_rec f sep (pre ++ [c; 42; e]) p3 path s') s  (* :68-77 *)
            else orr (glob_rec f sep (pre ++ [c; 42]) p2 path s)                       (* :78-82 *)
                     (match s with [] => Ok false | _ :: s' => glob_rec f sep pre p path s' end)
        | [] => orr (glob_rec f sep (pre ++ [c; 42]) p2 path s)
                    (match s with [] => Ok false | _ :: s' => glob_rec f sep pre p path s' end)
        end
      else if c =? 42 then                                                     (* :85-98 *)
        let next_sep := match find_char sep s with Some i => i | None => zlen s end in
        orr (glob_rec f sep (pre ++ [c]) p1 path s)
            (match s with
             | [] => Ok false
             | _ :: s' => if 0 <? next_sep then glob_rec f sep pre p path s' else Ok false
             end)
      else if c =? 63 then                                                     (* :101-102 *)
        match s with [] => Ok false | _ :: s' => glob_rec f sep (pre ++ [c]) p1 path s' end
      else if (c =? 91) && (match p1 with [] => false | _ => true end) then    (* :105-151 *)
        match find_char 93 p1 with
        | None => literal c p1
        | Some i =>
            match s with
            | [] => Ok false
            | x :: s' =>
                let cls := firstn (Z.to_nat i) p1 in
                if class_match cls x
                then glob_rec f sep (pre ++ c :: cls ++ [93]) (skipn (S (Z.to_nat i)) p1) path s'
                else Ok false
            end
        end
      else if (c =? 123) && (match p1 with [] => false | _ => true end) then   (* :154-170 *)
        match find_char 125 p1 with
        | None => literal c p1
        | Some i =>
            let inner := firstn (Z.to_nat i) p1 in
            let post := skipn (S (Z.to_nat i)) p1 in
            any_of (fun o => glob_rec f sep [] (pre ++ o ++ post) path path) (split_commas inner)
        end
      else literal c p1
    end
  end.

(** base/src/fs.act:14-37 glob; [fuel] as in [glob_rec]. *)
Definition glob (fuel : nat) (sep : Z) (pattern path : list Z) : res bool :=
  glob_rec fuel sep [] pattern path path.

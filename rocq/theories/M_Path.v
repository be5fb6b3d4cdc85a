(** Model of base/src/file.act:13-125, get_relative_path and resolve_relative_path.  Texts
    are lists of code points. *)
From Verif Require Import Base.

(** s.split('/') (base/builtin/str.c:1374, modelled in full in M_Str, C36). *)
Fixpoint split_slash (s : list Z) : list (list Z) :=
  match s with
  | [] => [[]]
  | c :: s' => match split_slash s' with
               | x :: ps => if c =? 47 then [] :: x :: ps else (c :: x) :: ps
               | [] => [[]]
               end
  end.

(** '/'.join(l) (base/builtin/str.c:1178, modelled in full in M_Str, C36). *)
Fixpoint join_slash (l : list (list Z)) : list Z :=
  match l with
  | [] => []
  | x :: l' => match l' with [] => x | _ => x ++ 47 :: join_slash l' end
  end.

Definition starts_slash (s : list Z) : bool := match s with 47 :: _ => true | _ => false end.
Definition nonempty (s : list Z) : bool := match s with [] => false | _ => true end.
Definition str_eqb (a b : list Z) : bool := if list_eq_dec Z.eq_dec a b then true else false.

(** base/src/file.act:43-47, the loop over zip(target_parts, from_parts). *)
Fixpoint common_length (t f : list (list Z)) : nat :=
  match t, f with
  | x :: t', y :: f' => if str_eqb x y then S (common_length t' f') else O
  | _, _ => O
  end.

(** base/src/file.act:13-71. *)
Definition get_relative_path (target from : list Z) : res (list Z) :=
  if negb (starts_slash target) || negb (starts_slash from) then Exn ValueError   (* :28-29 *)
  else
    let target_parts := filter nonempty (split_slash target) in                   (* :32-35 *)
    let from_parts := filter nonempty (split_slash from) in                       (* :37-40 *)
    let common := common_length target_parts from_parts in
    let up_path := repeat [46; 46] (length from_parts - common) in                (* :51-54 *)
    let down_path := skipn common target_parts in                                 (* :57-59 *)
    match up_path ++ down_path with
    | [] => Ok [46]                                                               (* :67-68 *)
    | relative_parts => Ok (join_slash relative_parts)
    end.

(** base/src/file.act:114-120, the loop over rel_parts. *)
Fixpoint resolve_parts (result rel : list (list Z)) : res (list (list Z)) :=
  match rel with
  | [] => Ok result
  | part :: rel' =>
      if str_eqb part [46; 46]
      then match result with
           | [] => Exn ValueError
           | _ => resolve_parts (removelast result) rel'
           end
      else resolve_parts (result ++ [part]) rel'
  end.

(** base/src/file.act:74-125. *)
Definition resolve_relative_path (start rel : list Z) : res (list Z) :=
  if negb (starts_slash start) then Exn ValueError
  else if starts_slash rel then Ok rel
  else if negb (nonempty rel) || str_eqb rel [46] then Ok start
  else
    let sd_parts := filter nonempty (split_slash start) in
    let rel_parts := filter (fun p => negb (str_eqb p [46])) (split_slash rel) in
    do result <- resolve_parts sd_parts rel_parts;
    match result with
    | [] => Ok [47]
    | _ => Ok (47 :: join_slash result)
    end.

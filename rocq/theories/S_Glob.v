(** Specification of glob patterns: how a pattern is read, what its parts match, and brace
    expansion.  Texts are lists of characters (code points).  Independent of the model. *)
From Verif Require Import Base.

(** Characters with a meaning: 92 backslash, 42 *, 63 ?, 91 [, 93 ], 123 {, 125 }, 33 !,
    94 ^, 45 -, 44 comma. *)

Inductive tok :=
| TLit (c : Z)                          (* exactly this character *)
| TAny                                  (* ?: any one character *)
| TStar                                 (* *: any characters but the separator *)
| TDeep                                 (* **: any characters *)
| TSet (neg : bool) (body : list Z).    (* [..]: one character (not) in the class *)

(** Members of the class written [body]: single characters and ranges a-b, read from the
    left; a dash that is last or first of the rest is a character. *)
Inductive member (c : Z) : list Z -> Prop :=
| in_range a b r : a <= c <= b -> member c (a :: 45 :: b :: r)
| past_range a b r : member c r -> member c (a :: 45 :: b :: r)
| in_char r : (forall b r', r <> 45 :: b :: r') -> member c (c :: r)
| past_char a r : (forall b r', r <> 45 :: b :: r') -> member c r -> member c (a :: r).

(** [takes sep t s s']: the part [t] can match a beginning of [s], leaving [s']. *)
Definition takes (sep : Z) (t : tok) (s s' : list Z) : Prop :=
  match t with
  | TLit c => s = c :: s'
  | TAny => exists c, s = c :: s'
  | TStar => exists x, s = x ++ s' /\ ~ In sep x
  | TDeep => exists x, s = x ++ s'
  | TSet neg body => exists c, s = c :: s' /\ (if neg then ~ member c body else member c body)
  end.

Fixpoint takes_all (sep : Z) (ts : list tok) (s s' : list Z) : Prop :=
  match ts with
  | [] => s' = s
  | t :: ts' => exists m, takes sep t s m /\ takes_all sep ts' m s'
  end.

(** A class body, and whether it is negated. *)
Definition class_tok (cls : list Z) : tok :=
  match cls with
  | c :: r => if (c =? 33) || (c =? 94) then TSet true r else TSet false cls
  | [] => TSet false []
  end.

Definition special (c : Z) : bool :=
  (c =? 92) || (c =? 42) || (c =? 63) || (c =? 91) || (c =? 123).

(** [reads sep p ts rest]: read from the left, the pattern [p] consists of the parts [ts]
    followed by [rest]; [rest] is empty or begins with a brace expression. *)
Inductive reads (sep : Z) : list Z -> list tok -> list Z -> Prop :=
| R_end : reads sep [] [] []
| R_esc c p ts r : reads sep p ts r -> reads sep (92 :: c :: p) (TLit c :: ts) r
| R_dirs p ts r : reads sep p ts r -> reads sep (42 :: 42 :: sep :: p) (TDeep :: ts) r
| R_deep p ts r : (forall q, p <> sep :: q) -> reads sep p ts r ->
    reads sep (42 :: 42 :: p) (TDeep :: ts) r
| R_star p ts r : (forall q, p <> 42 :: q) -> reads sep p ts r ->
    reads sep (42 :: p) (TStar :: ts) r
| R_any p ts r : reads sep p ts r -> reads sep (63 :: p) (TAny :: ts) r
| R_class cls p ts r : ~ In 93 cls -> reads sep p ts r ->
    reads sep (91 :: cls ++ 93 :: p) (class_tok cls :: ts) r
| R_open p ts r : ~ In 93 p -> reads sep p ts r -> reads sep (91 :: p) (TLit 91 :: ts) r
| R_brace inner post : ~ In 125 inner ->
    reads sep (123 :: inner ++ 125 :: post) [] (123 :: inner ++ 125 :: post)
| R_curly p ts r : ~ In 125 p -> reads sep p ts r -> reads sep (123 :: p) (TLit 123 :: ts) r
| R_last : reads sep [92] [TLit 92] []
| R_lit c p ts r : special c = false -> reads sep p ts r -> reads sep (c :: p) (TLit c :: ts) r.

(** The pieces of a text between commas. *)
Inductive pieces : list Z -> list (list Z) -> Prop :=
| P_last x : ~ In 44 x -> pieces x [x]
| P_more x l ps : ~ In 44 x -> pieces l ps -> pieces (x ++ 44 :: l) (x :: ps).

(** Brace expansion: the first brace expression of the pattern is replaced by one of its
    alternatives, until none is left. *)
Inductive expands (sep : Z) : list Z -> list Z -> Prop :=
| E_done p ts : reads sep p ts [] -> expands sep p p
| E_step q inner post ts alts o e :
    reads sep (q ++ 123 :: inner ++ 125 :: post) ts (123 :: inner ++ 125 :: post) ->
    ~ In 125 inner -> pieces inner alts -> In o alts ->
    expands sep (q ++ o ++ post) e ->
    expands sep (q ++ 123 :: inner ++ 125 :: post) e.

(** A pattern matches a path if the parts of one of its expansions match all of it. *)
Definition glob_matches (sep : Z) (p s : list Z) : Prop :=
  exists e ts, expands sep p e /\ reads sep e ts [] /\ takes_all sep ts s [].

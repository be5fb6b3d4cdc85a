(** Specification of incremental builds: what a type checker may ask and answer, and what depends on
    what. *)
From Coq Require Import List Arith Bool.
Import ListNotations.

(** A name of a module: the module and the name in it. *)
Definition qname := (nat * nat)%type.
(** What the users of a name can see of it: its signature, with the names that occur in it. *)
Record info := Info { text : nat; refs : list qname }.
(** What the type checker makes of a definition: its name, its signature, the names used in its body. *)
Record item := Item { name_of : nat; sig_of : info; uses : list qname }.
(** A type checker, as the questions it asks about names of other modules: [Ask] a name that has to be
    there, [Try] whether there is a name (from m import * ). *)
Inductive tree :=
| Fail
| Done (items : list item)
| Ask (q : qname) (k : info -> tree)
| Try (q : qname) (k : option info -> tree).
Fixpoint run (look : qname -> option info) (t : tree) : option (list item) :=
  match t with
  | Fail => None
  | Done items => Some items
  | Ask q k => match look q with Some i => run look (k i) | None => None end
  | Try q k => run look (k (look q))
  end.
(** The names asked for on the way. *)
Fixpoint asked (look : qname -> option info) (t : tree) : list qname :=
  match t with
  | Fail | Done _ => []
  | Ask q k => q :: match look q with Some i => asked look (k i) | None => [] end
  | Try q k => q :: asked look (k (look q))
  end.
(** No question whether there is a name. *)
Inductive exact : tree -> Prop :=
| exact_fail : exact Fail
| exact_done : forall items, exact (Done items)
| exact_ask : forall q k, (forall i, exact (k i)) -> exact (Ask q k).

(** [q'] occurs in the signature of [q], or in the signature of a name there, and so on. *)
Inductive below (look : qname -> option info) : qname -> qname -> Prop :=
| below_self : forall q, below look q q
| below_step : forall q i r q', look q = Some i -> In r (refs i) -> below look r q' -> below look q q'.

(** The names of other modules that occur in the result. *)
Definition mentioned (m : nat) (items : list item) : list qname :=
  filter (fun q => negb (fst q =? m)) (flat_map (fun it => refs (sig_of it) ++ uses it) items).
(** What is assumed of the result of checking module [m]: different names; signatures mention only
    names of [m] that are there, and mention each other in a circle only if a signature mentions its
    own name. *)
Definition well_formed (m : nat) (items : list item) : Prop :=
  NoDup (map name_of items) /\
  (forall it r, In it items -> In r (refs (sig_of it)) -> fst r = m -> In (snd r) (map name_of items)) /\
  exists rank : nat -> nat, forall it r, In it items -> In r (refs (sig_of it)) -> fst r = m ->
    snd r = name_of it \/ rank (snd r) < rank (name_of it) < length items.

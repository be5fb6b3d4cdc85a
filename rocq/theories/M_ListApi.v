(** The list API as a state machine over the representation of M_List: one call of
    a method of base/builtin/list.c per step. *)
From Verif Require Import Base M_Slice M_List S_List.

Section Api.
Context {A : Type}.
Variable eqb : A -> A -> bool.

(** base/builtin/list.c:327-331 driven to exhaustion: what a program sees when it
    iterates over a list that is not modified meanwhile. *)
Fixpoint iterate (fuel : nat) (l : clist A) (nxt : Z) : res (list A) :=
  match fuel with
  | O => NoFuel
  | S f => match listiter_next l nxt with
           | Ok (x, nxt') => do r <- iterate f l nxt'; Ok (x :: r)
           | Exn _ => Ok []
           | UB => UB
           | NoFuel => NoFuel
           end
  end.
Definition contents (l : clist A) : res (list A) := iterate (S (Z.to_nat (len l))) l 0.

(** base/builtin/list.c:75-99 B_listD___init__ and :453-468: a list built from an iterable. *)
Fixpoint append_all (l : clist A) (ys : list A) : res (clist A) :=
  match ys with
  | [] => Ok l
  | y :: ys' => do l' <- list_append l y; append_all l' ys'
  end.
Definition list_of (ys : list A) : res (clist A) := append_all (mkList [] 0 0) ys.

Definition upd (r : res (clist A)) (l : clist A) : res (lval A) * clist A :=
  match r with Ok l' => (Ok VUnit, l') | Exn e => (Exn e, l) | UB => (UB, l) | NoFuel => (NoFuel, l) end.
Definition obs (r : res (clist A)) (l : clist A) : res (lval A) * clist A :=
  (do l' <- r; do c <- contents l'; Ok (VSeq c), l).

(** One API call.  Exceptions are raised before the list is modified in all of
    list.c, so the list is unchanged then. *)
Definition list_step (l : clist A) (op : lop A) : res (lval A) * clist A :=
  match op with
  | Append x => upd (list_append l x) l
  | Insert n x => upd (list_insert l n x) l
  | Pop i => match list_pop l i with
             | Ok (x, l') => (Ok (VElem x), l') | Exn e => (Exn e, l) | UB => (UB, l) | NoFuel => (NoFuel, l)
             end
  | Extend ys => upd (do o <- list_of ys; list_extend l o) l
  | ExtendSelf => upd (list_extend_self l) l
  | Clear => (Ok VUnit, list_clear l)
  | Reverse => upd (list_reverse l) l
  | GetItem n => (mapr VElem (list_getitem l n), l)
  | SetItem n x => upd (list_setitem l n x) l
  | DelItem n => upd (list_delitem l n) l
  | GetSlice s => obs (list_getslice l s) l
  | SetSlice s ys => upd (do o <- list_of ys; list_setslice l s o) l
  | DelSlice s => upd (list_delslice l s) l
  | Len => (Ok (VInt (len l)), l)
  | Contains v => (mapr VBool (list_contains eqb l v), l)
  | Count v => (mapr VInt (list_count eqb l v), l)
  | Index v a b => (mapr VInt (list_index eqb l v a b), l)
  | Copy => obs (list_copy l) l
  | Add ys => obs (do o <- list_of ys; list_add l o) l
  | Mul n => obs (list_mul l n) l
  end.

Fixpoint run_list (l : clist A) (ops : list (lop A)) : list (res (lval A)) * clist A :=
  match ops with
  | [] => ([], l)
  | op :: ops' => let '(o, l1) := list_step l op in
                  let '(os, l2) := run_list l1 ops' in (o :: os, l2)
  end.
End Api.

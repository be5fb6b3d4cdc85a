(** Specification of the pause: who holds it, from the history of calls. *)
From Verif Require Import Base M_Pause.
Local Open Scope nat_scope.

(** Worker w holds the pause: its last begin that succeeded came after its last end. *)
Fixpoint holds (l : list pev) (w : nat) : bool :=
  match l with
  | [] => false
  | EvBegin w' true :: r => if w' =? w then true else holds r w
  | EvBegin _ false :: r => holds r w
  | EvEnd w' :: r => if w' =? w then false else holds r w
  end.

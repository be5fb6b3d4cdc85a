(** The set API as a state machine over set variables: one method call of
    base/builtin/set.c per step.  Every operation that creates a set creates a fresh object, so
    two operands are the same object exactly when they are the same variable. *)
From Verif Require Import Base M_Set S_Set.

Section Api.
Context {K : Type}.
Variable keq same : K -> K -> bool.
Variable hash : K -> Z.

(** Driving the iterator of set.c:305-319, :331-337 to exhaustion. *)
Fixpoint set_drain (fuel : nat) (s : cset K) (nxt : Z) : res (list K) :=
  match fuel with
  | O => NoFuel
  | S f => match set_next s nxt with
           | Ok (x, n') => do r <- set_drain f s n'; Ok (x :: r)
           | Exn _ => Ok []
           | UB => UB
           | NoFuel => NoFuel
           end
  end.

Definition store (regs : nat -> cset K) (i : nat) (r : res (cset K)) : res (setval K) * (nat -> cset K) :=
  match r with
  | Ok s => (Ok SVUnit, upd regs i s)
  | Exn e => (Exn e, regs)
  | UB => (UB, regs)
  | NoFuel => (NoFuel, regs)
  end.

Definition set_step (regs : nat -> cset K) (op : setop K) : res (setval K) * (nat -> cset K) :=
  match op with
  | SNew i ys => store regs i (set_of keq same hash ys)
  | SAdd i k => store regs i (set_add keq same hash (regs i) k)
  | SDiscard i k => store regs i (set_discard keq same hash (regs i) k)
  | SPop i => match set_pop (regs i) with
              | Ok (k, s) => (Ok (SVElem k), upd regs i s)
              | Exn e => (Exn e, regs)
              | UB => (UB, regs)
              | NoFuel => (NoFuel, regs)
              end
  | SUpdate i ys => store regs i (set_update keq same hash (regs i) ys)
  | SUpdateSet i a => store regs i (set_update_set keq same hash (i =? a)%nat (regs i) (regs a))
  | SOr i a b => store regs i (set_or keq same (regs a) (regs b))
  | SAnd i a b => store regs i (set_and keq same (regs a) (regs b))
  | SSub i a b => store regs i (set_sub keq same (regs a) (regs b))
  | SXor i a b => store regs i (set_xor keq same (regs a) (regs b))
  | SContains a k => (mapr SVBool (set_contains keq same hash (regs a) k), regs)
  | SContainsNot a k => (mapr (fun b => SVBool (negb b)) (set_contains keq same hash (regs a) k), regs)
  | SLen a => (Ok (SVInt (s_num (regs a))), regs)
  | SIter a => (mapr SVElems (set_drain (S (length (s_tab (regs a)))) (regs a) 0), regs)
  | SEq a b => (mapr SVBool (set_eq keq same (a =? b)%nat (regs a) (regs b)), regs)
  | SNe a b => (mapr SVBool (set_ne keq same (a =? b)%nat (regs a) (regs b)), regs)
  | SLt a b => (mapr SVBool (set_lt keq same (a =? b)%nat (regs a) (regs b)), regs)
  | SLe a b => (mapr SVBool (set_le keq same (a =? b)%nat (regs a) (regs b)), regs)
  | SGt a b => (mapr SVBool (set_gt keq same (a =? b)%nat (regs a) (regs b)), regs)
  | SGe a b => (mapr SVBool (set_ge keq same (a =? b)%nat (regs a) (regs b)), regs)
  end.

Fixpoint run_set (regs : nat -> cset K) (ops : list (setop K)) : list (res (setval K)) * (nat -> cset K) :=
  match ops with
  | [] => ([], regs)
  | op :: ops' => let '(r, regs1) := set_step regs op in
                  let '(rs, regs2) := run_set regs1 ops' in (r :: rs, regs2)
  end.
End Api.

(** What an execution without crashes is.  Reading this file needs no other.

    A program is a set of actors (numbers), each with a state.  Running a piece of code of an
    actor changes its state, sends messages to actors (each a piece of code to run there) and
    then is done, goes on with another piece of code, or waits for the result of one of the
    messages just sent. *)
From Coq Require Import List Arith.
Import ListNotations.

Section S.
Context {st code val : Type}.

Definition sends := list (nat * code).
Inductive outcome :=
| Done (s : st) (o : sends) (v : val)
| Cont (s : st) (o : sends) (k : code) (v : val)
| Wait (s : st) (o : sends) (k : code) (i : nat).

(** [program a c s v]: actor [a] in state [s] runs [c] with argument [v]. *)
Definition programs := nat -> code -> st -> val -> outcome.
Definition awaits_nothing (p : programs) : Prop := forall a c s v s' o k i, p a c s v <> Wait s' o k i.

Record config := Config { states : nat -> st; queues : nat -> list code }.

(** Handling a message without waiting: the pieces of code one after the other. *)
Inductive handles (p : programs) (a : nat) : code -> st -> val -> sends -> st -> Prop :=
| handles_done c s v s' o r : p a c s v = Done s' o r -> handles p a c s v o s'
| handles_cont c s v s1 o1 k v1 o2 s' : p a c s v = Cont s1 o1 k v1 -> handles p a k s1 v1 o2 s' -> handles p a c s v (o1 ++ o2) s'.

Definition set {A} (f : nat -> A) (a : nat) (x : A) : nat -> A := fun b => if b =? a then x else f b.
Definition sent_to (a : nat) (o : sends) : list code := map snd (filter (fun m => fst m =? a) o).

(** An actor handled a message, and this is what it sent and how it left its state. *)
Record handling := Handled { who : nat; what : code; sent : sends; left : st }.

(** The first message of the queue is handled; what is sent goes to the ends of the queues. *)
Inductive next (p : programs) (none : val) : config -> handling -> config -> Prop :=
| next_intro g a c q o s' : queues g a = c :: q -> handles p a c (states g a) none o s' ->
    next p none g (Handled a c o s')
         (Config (set (states g) a s') (fun b => (if b =? a then q else queues g b) ++ sent_to b o)).

Inductive executes (p : programs) (none : val) : config -> list handling -> config -> Prop :=
| executes_nil g : executes p none g [] g
| executes_snoc g l g' h g'' : executes p none g l g' -> next p none g' h g'' -> executes p none g (l ++ [h]) g''.
End S.
Arguments outcome : clear implicits.
Arguments programs : clear implicits.
Arguments config : clear implicits.
Arguments handling : clear implicits.

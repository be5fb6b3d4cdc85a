(** Model of the allocator of global keys, base/rts/rts.c:192-193, 404-409 get_next_key,
    with the spinlock of base/rts/q.c:4-11 (and rts.c's copy of it) taken apart.
    Sequential consistency is assumed. *)
From Verif Require Import Base.
Local Open Scope Z_scope.

(** Where a thread is in get_next_key. *)
Inductive kpc :=
| KOut                (* not in the function *)
| KIn                 (* after spinlock_lock *)
| KLoaded (v : Z)     (* next_key read *)
| KStored (r : Z).    (* next_key written *)

Record kst := mkKst {
  klock : bool;                 (* next_key_lock *)
  knext : Z;                    (* next_key *)
  kpcs : nat -> kpc;
  kout : list (nat * Z)         (* keys handed out, to which thread; newest first *)
}.

Definition kupd (f : nat -> kpc) (t : nat) (x : kpc) : nat -> kpc := fun t' => if (t' =? t)%nat then x else f t'.

(** One step of a thread.  A thread that finds the lock taken stays where it is
    (rts.c spinlock_lock loops). *)
Inductive kstep (s : kst) : kst -> Prop :=
| k_lock t : kpcs s t = KOut -> klock s = false -> kstep s (mkKst true (knext s) (kupd (kpcs s) t KIn) (kout s))
| k_load t : kpcs s t = KIn -> kstep s (mkKst (klock s) (knext s) (kupd (kpcs s) t (KLoaded (knext s))) (kout s))
| k_store t v : kpcs s t = KLoaded v ->
    kstep s (mkKst (klock s) (wrapS 64 (v - 1)) (kupd (kpcs s) t (KStored (wrapS 64 (v - 1)))) (kout s))
| k_unlock t r : kpcs s t = KStored r -> kstep s (mkKst false (knext s) (kupd (kpcs s) t KOut) ((t, r) :: kout s)).

Inductive kreach (k0 : Z) : kst -> Prop :=
| kr_init : kreach k0 (mkKst false k0 (fun _ => KOut) [])
| kr_step s s' : kreach k0 s -> kstep s s' -> kreach k0 s'.

(** rts.c:192: the value next_key starts with. *)
Definition key_start : Z := -10.

(** rts.c:1298-1338 deserialize_system: after recovery next_key is the smallest key of a row
    in the tables, or 0. *)
Definition recovered_start (keys : list Z) : Z := fold_left (fun m k => if k <? m then k else m) keys 0.

(** Model of iterators: range.c and the iterator functions of builtin_functions.c. *)
From Verif Require Import Base.

(** An iterator is a state with a __next__ method that returns a value and the
    next state, or raises (StopIteration at the end). *)
Definition next_fn (S A : Type) := S -> res (A * S).

(** struct B_range: nxt, step, remaining (int64). *)
Record crange := mkRange { r_nxt : Z; r_step : Z; r_remaining : Z }.

(** base/builtin/range.c:20-44 B_rangeD___init__; -fwrapv arithmetic; INT64_MIN / -1 is UB. *)
Definition range_init (start : Z) (stop step : option Z) : res crange :=
  let '(ustart, ustop) := match stop with Some b => (start, b) | None => (0, start) end in
  let stp := match step with Some s => s | None => 1 end in
  if stp =? 0 then Exn ValueError
  else
    let r := wrapS 64 (ustop - ustart) in
    if (r =? - 2 ^ 63) && (stp =? -1) then UB
    else Ok (mkRange (wrapS 64 (ustart - stp)) stp
                     (wrapS 64 (Z.quot r stp + (if Z.rem r stp =? 0 then 0 else 1)))).

(** base/builtin/range.c:79-87 __next__. *)
Definition range_next : next_fn crange Z := fun r =>
  if r_remaining r <=? 0 then Exn StopIteration
  else
    let n := wrapS 64 (r_nxt r + r_step r) in
    Ok (n, mkRange n (r_step r) (r_remaining r - 1)).

Section Adapters.
Context {S1 S2 A B : Type}.

(** base/builtin/builtin_functions.c:119-122 B_IteratorD_enumerate_next (nxt is int64). *)
Definition enumerate_next (nx : next_fn S1 A) : next_fn (S1 * Z) (Z * A) := fun s =>
  match nx (fst s) with
  | Ok (w, s') => Ok ((snd s, w), (s', wrapS 64 (snd s + 1)))
  | Exn e => Exn e
  | UB => UB
  | NoFuel => NoFuel
  end.

(** base/builtin/builtin_functions.c:213-216 B_IteratorD_map_next; [f] is a $pure
    function and is modelled as total. *)
Definition map_next (nx : next_fn S1 A) (f : A -> B) : next_fn S1 B := fun s =>
  match nx s with
  | Ok (w, s') => Ok (f w, s')
  | Exn e => Exn e
  | UB => UB
  | NoFuel => NoFuel
  end.

(** base/builtin/builtin_functions.c:395-399 B_IteratorD_zip_next. *)
Definition zip_next (nx1 : next_fn S1 A) (nx2 : next_fn S2 B) : next_fn (S1 * S2) (A * B) := fun s =>
  match nx1 (fst s) with
  | Ok (w1, s1') =>
      match nx2 (snd s) with
      | Ok (w2, s2') => Ok ((w1, w2), (s1', s2'))
      | Exn e => Exn e
      | UB => UB
      | NoFuel => NoFuel
      end
  | Exn e => Exn e
  | UB => UB
  | NoFuel => NoFuel
  end.

(** base/builtin/builtin_functions.c:166-172 B_IteratorD_filter_next: the do-while loop. *)
Fixpoint filter_next (fuel : nat) (nx : next_fn S1 A) (p : A -> bool) (s : S1) : res (A * S1) :=
  match fuel with
  | O => NoFuel
  | S f => match nx s with
           | Ok (w, s') => if p w then Ok (w, s') else filter_next f nx p s'
           | Exn e => Exn e
           | UB => UB
           | NoFuel => NoFuel
           end
  end.
End Adapters.

Section Consumers.
Context {S1 A : Type}.
Variable nx : next_fn S1 A.
Variable lt gt : A -> A -> bool.   (* __lt__ and __gt__ of the Ord witness *)

(** The loops of max/min/sum: call __next__ until StopIteration; another exception
    is re-raised ($RAISE(ex)).  [upd] is the loop body. *)
Fixpoint consume {R} (fuel : nat) (upd : R -> A -> R) (s : S1) (r : R) : res R :=
  match fuel with
  | O => NoFuel
  | S f => match nx s with
           | Ok (w, s') => consume f upd s' (upd r w)
           | Exn StopIteration => Ok r
           | Exn e => Exn e
           | UB => UB
           | NoFuel => NoFuel
           end
  end.

(** base/builtin/builtin_functions.c:234-262 B_max: [res] starts as [dflt] (NULL = None). *)
Definition b_max (fuel : nat) (s : S1) (dflt : option A) : res A :=
  do r <- consume fuel (fun r n => match r with
                                   | None => Some n
                                   | Some v => if lt v n then Some n else Some v
                                   end) s dflt;
  match r with
  | Some v => Ok v
  | None => match dflt with Some d => Ok d | None => Exn ValueError end
  end.

(** base/builtin/builtin_functions.c:284-312 B_min: [res] starts as NULL. *)
Definition b_min (fuel : nat) (s : S1) (dflt : option A) : res A :=
  do r <- consume fuel (fun r n => match r with
                                   | None => Some n
                                   | Some v => if gt v n then Some n else Some v
                                   end) s None;
  match r with
  | Some v => Ok v
  | None => match dflt with Some d => Ok d | None => Exn ValueError end
  end.

(** base/builtin/builtin_functions.c:264-282 B_max_def, :314-332 B_min_def. *)
Definition b_max_def (fuel : nat) (s : S1) (dflt : A) : res A :=
  consume fuel (fun v n => if lt v n then n else v) s dflt.
Definition b_min_def (fuel : nat) (s : S1) (dflt : A) : res A :=
  consume fuel (fun v n => if gt v n then n else v) s dflt.

(** base/builtin/builtin_functions.c:343-365 B_sum. *)
Definition b_sum (fuel : nat) (add : A -> A -> A) (zero : A) (s : S1) (start : option A) : res A :=
  consume fuel add s (match start with Some v => v | None => zero end).
End Consumers.

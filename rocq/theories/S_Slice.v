(** Specification of slicing, written from the language documentation (Python
    slicing): which positions of a sequence of length [n] does [a:b:k] select, in
    which order.  Independent of the model. *)
From Verif Require Import Base M_Slice.

(** A negative position counts from the end. *)
Definition from_end (n x : Z) : Z := if x <? 0 then x + n else x.

(** Positions are clamped to [lo, hi]. *)
Definition clampZ (lo hi x : Z) : Z := Z.max lo (Z.min hi x).

(** All positions 0, 1, ..., n-1. *)
Definition positions (n : nat) : list Z := map Z.of_nat (seq 0 n).

(** Step k > 0: positions i with start <= i < stop and i = start (mod k), ascending. *)
Definition select_forward (n : nat) (a b : option Z) (k : Z) : list Z :=
  let N := Z.of_nat n in
  let start := match a with None => 0 | Some x => clampZ 0 N (from_end N x) end in
  let stop  := match b with None => N | Some x => clampZ 0 N (from_end N x) end in
  filter (fun i => (start <=? i) && (i <? stop) && ((i - start) mod k =? 0)) (positions n).

(** Step k < 0: positions i with stop < i <= start and i = start (mod k), descending. *)
Definition select_backward (n : nat) (a b : option Z) (k : Z) : list Z :=
  let N := Z.of_nat n in
  let start := match a with None => N - 1 | Some x => clampZ (-1) (N - 1) (from_end N x) end in
  let stop  := match b with None => -1 | Some x => clampZ (-1) (N - 1) (from_end N x) end in
  filter (fun i => (stop <? i) && (i <=? start) && ((start - i) mod (- k) =? 0))
         (rev (positions n)).

(** None: the slice is illegal (step 0). *)
Definition select (n : nat) (s : slice) : option (list Z) :=
  let k := match sl_step s with None => 1 | Some k => k end in
  if k =? 0 then None
  else if 0 <? k then Some (select_forward n (sl_start s) (sl_stop s) k)
  else Some (select_backward n (sl_start s) (sl_stop s) k).

(** The elements of [l] at the given positions. *)
Fixpoint at_positions {A} (l : list A) (ps : list Z) : list A :=
  match ps with
  | [] => []
  | p :: ps' => match nth_error l (Z.to_nat p) with
                | Some x => x :: at_positions l ps'
                | None => at_positions l ps'
                end
  end.

(** l[a:b:k] *)
Definition py_slice {A} (l : list A) (s : slice) : res (list A) :=
  match select (length l) s with
  | None => Exn ValueError
  | Some ps => Ok (at_positions l ps)
  end.

(** ** The domain on which the code agrees with this specification *)

(** A bound given for a negative step is inside the domain on which the code
    agrees with the documentation: it does not lie before the first element. *)
Definition bound_ok (n : nat) (x : option Z) : Prop :=
  match x with None => True | Some v => - Z.of_nat n <= v end.
Definition step_of (s : slice) : Z := match sl_step s with None => 1 | Some k => k end.

(** Forward slices, illegal slices, and backward slices of a non-empty sequence
    whose bounds do not lie before the first element. *)
Definition slice_ok (n : nat) (s : slice) : Prop :=
  0 <= step_of s \/ ((0 < n)%nat /\ bound_ok n (sl_start s) /\ bound_ok n (sl_stop s)).

(** What users of a queue see, told from the record of requests and answers alone. *)
From Verif Require Import Base M_Queue.

(** The values enqueued. *)
Fixpoint entered (tr : list event) : list Z :=
  match tr with
  | [] => []
  | (QEnq v _, _, _) :: t => v :: entered t
  | _ :: t => entered t
  end.

Definition vals (r : qout) : list Z := match r with Rd _ _ es => map snd es | Ack _ => [] end.

(** The values consumer [c]'s reads have returned since it last subscribed. *)
Definition see (c : Z) (acc : list Z) (e : event) : list Z :=
  match e with
  | (QSub c', Ack st, _) => if (c' =? c) && (st =? 0) then [] else acc
  | (QUnsub c', _, _) => if c' =? c then [] else acc
  | (QRead c' _, r, _) => if c' =? c then acc ++ vals r else acc
  | _ => acc
  end.
Definition seen (c : Z) (tr : list event) : list Z := fold_left (see c) tr [].

(** Whether [c] is a subscriber. *)
Definition join (c : Z) (b : bool) (e : event) : bool :=
  match e with
  | (QSub c', _, _) => if c' =? c then true else b
  | (QUnsub c', _, _) => if c' =? c then false else b
  | _ => b
  end.
Definition subscribed (c : Z) (tr : list event) : bool := fold_left (join c) tr false.

(** The last head [c] has consumed successfully, -1 if there is none. *)
Definition eat (c : Z) (h : Z) (e : event) : Z :=
  match e with
  | (QSub c', Ack st, _) => if (c' =? c) && (st =? 0) then -1 else h
  | (QUnsub c', _, _) => if c' =? c then -1 else h
  | (QCons c' h', Ack st, _) => if (c' =? c) && (0 <=? st) then h' else h
  | _ => h
  end.
Definition consumed (c : Z) (tr : list event) : Z := fold_left (eat c) tr (-1).

(** [c] has been notified, and has since then neither read to the end of the queue, nor
    consumed, nor subscribed or unsubscribed. *)
Definition ring (c : Z) (b : bool) (e : event) : bool :=
  match e with
  | (QSub c', Ack st, _) => if (c' =? c) && (st =? 0) then false else b
  | (QUnsub c', _, _) => if c' =? c then false else b
  | (QRead c' _, Rd st _ _, _) => if (c' =? c) && (st =? READ_COMPLETE) then false else b
  | (QCons c' _, _, _) => if c' =? c then false else b
  | (QEnq _ _, _, told) => b || existsb (Z.eqb c) told
  | _ => b
  end.
Definition notified (c : Z) (tr : list event) : bool := fold_left (ring c) tr false.

(** Entries with their numbers. *)
Fixpoint number (i : Z) (l : list Z) : list (Z * Z) :=
  match l with [] => [] | v :: t => (i, v) :: number (i + 1) t end.

(** Requests of a user outside transactions that ask for at least one entry (the number
    is an int) and consume up to an entry number. *)
Definition plain (o : qop) : Prop :=
  match o with
  | QSub _ | QUnsub _ | QEnq _ _ => True
  | QRead _ max => 1 <= max < 2 ^ 31
  | QPeek _ max offset => 1 <= max < 2 ^ 31 /\ offset < 0
  | QCons _ h => 0 <= h
  | _ => False
  end.

Definition enqueues (os : list qop) : Z :=
  zlen (filter (fun o => match o with QEnq _ _ => true | _ => false end) os).

(** The numbers of entries that the skip list can tell apart. *)
Definition CAPACITY : Z := 2 ^ 31 - 2.

(** The answer due to a subscriber that has seen [sn] of the entries [log] and asks for
    [max] more: the next entries with their numbers, the number of the last entry seen
    then, and whether that is the last of all. *)
Definition answer (log sn : list Z) (max : Z) : qout :=
  Rd (if zlen log <=? zlen sn + max then READ_COMPLETE else READ_INCOMPLETE)
     (Z.min (zlen sn + max) (zlen log) - 1)
     (number (zlen sn) (firstn (Z.to_nat max) (skipn (length sn) log))).

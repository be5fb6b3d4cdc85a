(** What transactions are for their users.  Reading this file needs no other than S_Table
    (for [same]). *)
From Coq Require Import List ZArith Bool Permutation.
From Verif Require Import S_Table.
Import ListNotations.
Open Scope Z_scope.

(** Changes: write a cell of a table, delete the row (or cell) with the given keys, append
    to a queue, mark a queue's entries up to [head] consumed, create or delete a queue. *)
Inductive wr :=
| Upd (t : Z) (path data : list Z) | Del (t : Z) (keys : list Z)
| Enq (t q x : Z) | Csm (t q c head : Z) | Crt (t q : Z) | Dlq (t q : Z).

(** Requests to a server.  [RWrite None w] is a change outside any transaction. *)
Inductive req :=
| RBegin (i : Z) | RWrite (i : option Z) (w : wr) | RRead (i : option Z) (t pk : Z)
| RValidate (i : Z) | RCommit (i : Z) | RAbort (i : Z).

(** Answers: a status, or the cells read. *)
Inductive ans := Status (st : Z) | Cells (l : list (list Z * list Z)).

(** What users see of the database: the cells of the tables, the entries of the queues and
    how far each subscriber has consumed them. *)
Record view := View {
  vcell : Z -> list Z -> option (list Z);
  vents : Z -> Z -> option (list Z);
  vhead : Z -> Z -> Z -> option Z }.

Definition eff (v : view) (w : wr) : view :=
  match w with
  | Upd t p d => View (fun t' p' => if (t' =? t) && same p' p then Some d else vcell v t' p') (vents v) (vhead v)
  | Del t ks => View (fun t' p' => if (t' =? t) && same (firstn (length ks) p') ks then None else vcell v t' p')
                     (vents v) (vhead v)
  | Enq t q x => View (vcell v) (fun t' q' => if (t' =? t) && (q' =? q) then option_map (fun l => l ++ [x]) (vents v t' q')
                                              else vents v t' q') (vhead v)
  | Csm t q c h => View (vcell v) (vents v)
                        (fun t' q' c' => if (t' =? t) && (q' =? q) && (c' =? c) then option_map (fun _ => h) (vhead v t' q' c')
                                         else vhead v t' q' c')
  | Crt t q => View (vcell v) (fun t' q' => if (t' =? t) && (q' =? q) then Some match vents v t' q' with Some l => l | None => [] end
                                            else vents v t' q') (vhead v)
  | Dlq t q => View (vcell v) (fun t' q' => if (t' =? t) && (q' =? q) then None else vents v t' q')
                    (fun t' q' c' => if (t' =? t) && (q' =? q) then None else vhead v t' q' c')
  end.

(** The same cells (with [n] keys), entries and heads. *)
Definition view_eq (n : nat) (u v : view) : Prop :=
  (forall t p, length p = n -> vcell u t p = vcell v t p) /\
  (forall t q, vents u t q = vents v t q) /\
  (forall t q c, vhead u t q c = vhead v t q c).

(** The book a user could keep: the changes of the transactions that are open (whether
    validation was asked for), and all changes that are in force.  A transaction's changes
    take force together, when it is committed, in the order they were issued. *)
Record book := Book { bopen : list (Z * (list wr * bool)); blog : list wr }.

Fixpoint zlook {A} (l : list (Z * A)) (i : Z) : option A :=
  match l with [] => None | (j, x) :: t => if j =? i then Some x else zlook t i end.
Fixpoint zupd {A} (l : list (Z * A)) (i : Z) (x : A) : list (Z * A) :=
  match l with [] => [] | (j, y) :: t => if j =? i then (j, x) :: t else (j, y) :: zupd t i x end.
Fixpoint zdel {A} (l : list (Z * A)) (i : Z) : list (Z * A) :=
  match l with [] => [] | (j, y) :: t => if j =? i then zdel t i else (j, y) :: zdel t i end.

Definition note (b : book) (r : req) : book :=
  match r with
  | RBegin i => match zlook (bopen b) i with
                | Some _ => b
                | None => Book (bopen b ++ [(i, ([], false))]) (blog b)
                end
  | RWrite None w => Book (bopen b) (blog b ++ [w])
  | RWrite (Some i) w => match zlook (bopen b) i with
                         | Some (ws, v) => Book (zupd (bopen b) i (ws ++ [w], v)) (blog b)
                         | None => b
                         end
  | RRead _ _ _ => b
  | RValidate i => match zlook (bopen b) i with
                   | Some (ws, _) => Book (zupd (bopen b) i (ws, true)) (blog b)
                   | None => b
                   end
  | RCommit i => match zlook (bopen b) i with
                 | Some (ws, _) => Book (zdel (bopen b) i) (blog b ++ ws)
                 | None => b
                 end
  | RAbort i => Book (zdel (bopen b) i) (blog b)
  end.
Definition books (rs : list req) : book := fold_left note rs (Book [] []).

(** Two changes of the same thing. *)
Definition same_thing (a b : wr) : Prop :=
  match a, b with
  | Upd t p _, Upd u q _ => t = u /\ p = q
  | Del t p, Del u q => t = u /\ p = q
  | Csm t q c _, Csm u r e _ => t = u /\ q = r /\ c = e
  | _, _ => False
  end.

Definition table_of (w : wr) : Z :=
  match w with Upd t _ _ | Del t _ | Enq t _ _ | Csm t _ _ _ | Crt t _ | Dlq t _ => t end.

(** [b] may come after [a] in a transaction. *)
Definition follows (a b : wr) : Prop :=
  ~ same_thing a b /\
  match a, b with Upd t (k :: _) _, Del u [j] => ~ (t = u /\ k = j) | _, _ => True end.

(** Transactions covered: no change of a thing is repeated, no row is deleted after one of
    its cells was written. *)
Definition tx_ok (ws : list wr) : Prop := ForallOrdPairs follows ws /\ Z.of_nat (length ws) < 2 ^ 31.

(** Keys whose differences fit an int. *)
Definition near (k : Z) : Prop := - 2 ^ 30 <= k < 2 ^ 30.

(** Changes that are well formed where the tables [ts] hold rows, with [d] clustering keys,
    and other tables hold queues. *)
Definition wr_ok (d : nat) (ts : list Z) (w : wr) : Prop :=
  near (table_of w) /\
  match w with
  | Upd t p data => In t ts /\ length p = S d /\ data <> [] /\ Forall near p
  | Del t p => In t ts /\ length p = 1%nat /\ Forall near p
  | Enq t q _ => ~ In t ts
  | Csm t q c _ => ~ In t ts /\ near q /\ near c
  | _ => False
  end.

Definition req_ok (d : nat) (ts : list Z) (b : book) (r : req) : Prop :=
  match r with
  | RWrite None w => wr_ok d ts w /\ match w with Csm _ _ _ _ => False | _ => True end
  | RWrite (Some i) w => wr_ok d ts w /\ forall ws v, zlook (bopen b) i = Some (ws, v) -> tx_ok (ws ++ [w])
  | _ => True
  end.
Fixpoint legal (d : nat) (ts : list Z) (b : book) (rs : list req) : Prop :=
  match rs with
  | [] => True
  | r :: rs => req_ok d ts b r /\ legal d ts (note b r) rs
  end.

(** Histories in which transactions are used as they should be: begun before they are
    written, validated once, aborted at most once; rows that exist are read; no queue is
    consumed. *)
Definition kept (ts : list Z) (b : book) (r : req) : Prop :=
  match r with
  | RWrite (Some i) w => (exists x, zlook (bopen b) i = Some x) /\ match w with Csm _ _ _ _ => False | _ => True end
  | RWrite None w => match w with Upd _ _ _ => True | _ => False end
  | RRead _ t _ => In t ts
  | RValidate i => forall ws v, zlook (bopen b) i = Some (ws, v) -> v = false
  | RAbort i => exists x, zlook (bopen b) i = Some x
  | _ => True
  end.
Fixpoint orderly (ts : list Z) (b : book) (rs : list req) : Prop :=
  match rs with
  | [] => True
  | r :: rs => kept ts b r /\ orderly ts (note b r) rs
  end.

Definition row_change (w : wr) : Prop := match w with Upd _ _ _ | Del _ _ => True | _ => False end.

(** Histories in which nothing is added to a transaction after its validation was asked for. *)
Definition settled (b : book) (r : req) : Prop :=
  match r with
  | RWrite (Some i) _ => forall ws v, zlook (bopen b) i = Some (ws, v) -> v = false
  | _ => True
  end.
Fixpoint all_settled (b : book) (rs : list req) : Prop :=
  match rs with
  | [] => True
  | r :: rs => settled b r /\ all_settled (note b r) rs
  end.

(** The transactions that were told they may commit, and are still open. *)
Definition grant (l : list Z) (e : req * ans) : list Z :=
  match e with
  | (RValidate i, Status 0) => i :: l
  | (RCommit i, _) | (RAbort i, _) => filter (fun j => negb (j =? i)) l
  | _ => l
  end.
Definition granted (rs : list req) (l : list ans) : list Z := fold_left grant (combine rs l) [].

(** What transaction [i] saw and did. *)
Inductive act := Saw (t pk : Z) (l : list (list Z * list Z)) | Did (w : wr).
Definition acts (i : Z) (e : req * ans) : list act :=
  match e with
  | (RRead (Some j) t pk, Cells l) => if j =? i then [Saw t pk l] else []
  | (RWrite (Some j) w, _) => if j =? i then [Did w] else []
  | _ => []
  end.

(** What reading a row must give. *)
Definition shows (n : nat) (v : view) (t pk : Z) (l : list (list Z * list Z)) : Prop :=
  lists (vcell v t) (fun p => length p = n /\ row_of pk p) l.

(** Started in [v], with nobody else around, all this is seen. *)
Fixpoint explains (n : nat) (v : view) (l : list act) : Prop :=
  match l with
  | [] => True
  | Saw t pk c :: l => shows n v t pk c /\ explains n v l
  | Did w :: l => explains n (eff v w) l
  end.

(** The transactions that committed saw what they would have seen one after another. *)
Definition commits (e : req * ans) : list Z := match e with (RCommit i, Status 0) => [i] | _ => [] end.
Definition serializable (n : nat) (v : view) (rs : list req) (l : list ans) : Prop :=
  exists order, Permutation order (flat_map commits (combine rs l)) /\
    explains n v (flat_map (fun i => flat_map (acts i) (combine rs l)) order).

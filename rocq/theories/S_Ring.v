(** What a user of the placement ring relies on.  The ring is a set of servers, each
    with an id and a status; a server sits at the hash of its id, and an object belongs
    to the first live server at or after the hash of the object's id, going round. *)
From Verif Require Import Base M_Hash32 M_Ring.

Definition servers := Z -> option Z.
Definition live (m : servers) (id : Z) : Prop := m id = Some BUCKET_LIVE.
Definition with_server (m : servers) (id st : Z) : servers :=
  fun k => if k =? id then Some st else m k.

(** Position on the ring of a server or an object. *)
Definition pos (id : Z) : Z := hash32 (wrapU 32 id).

Inductive located (m : servers) (x : Z) : option Z -> Prop :=
| loc_none : (forall id, ~ live m id) -> located m x None
| loc_after : forall id, live m id -> pos x <= pos id ->
    (forall id', live m id' -> pos x <= pos id' -> pos id <= pos id') -> located m x (Some id)
| loc_wrap : forall id, live m id -> (forall id', live m id' -> pos id' < pos x) ->
    (forall id', live m id' -> pos id <= pos id') -> located m x (Some id).

Definition shown (o : option Z) : answer := match o with None => Null | Some id => Bucket id end.

Inductive rspec (m : servers) : rop -> rout -> servers -> Prop :=
| rs_add : forall id st, m id = None -> rspec m (RAdd id st) (RInt 0) (with_server m id st)
| rs_dup : forall id st st', m id = Some st' -> rspec m (RAdd id st) (RInt (-1)) m
| rs_set : forall id st st', m id = Some st' -> rspec m (RSet id st) (RInt 0) (with_server m id st)
| rs_unknown : forall id st, m id = None -> rspec m (RSet id st) (RInt (-1)) m
| rs_status : forall id st, m id = Some st -> rspec m (RStatus id) (RInt st) m
| rs_nostatus : forall id, m id = None -> rspec m (RStatus id) (RInt (-1)) m
| rs_locate : forall x f o, located m x o -> rspec m (RLocate x f) (RAns (shown o)) m.

Inductive rspecs : servers -> list rop -> list rout -> servers -> Prop :=
| rss_nil : forall m, rspecs m [] [] m
| rss_cons : forall m o x m1 os xs m2, rspec m o x m1 -> rspecs m1 os xs m2 -> rspecs m (o :: os) (x :: xs) m2.

(** [n] servers are live. *)
Definition live_count (m : servers) (n : Z) : Prop :=
  exists ids, NoDup ids /\ (forall id, In id ids <-> live m id) /\ zlen ids = n.

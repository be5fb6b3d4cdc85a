(** Model of base/builtin/dict.c.
    Simplifications: int indices and counts are unbounded integers (dicts of less than
    2^31 entries); allocation never fails; B_hash is a pure function of the key. *)
From Verif Require Import Base.

Section Dict.
Context {K V : Type}.
(** __eq__ of the Hashable witness; pointer identity of keys; B_hash (a uint64_t). *)
Variable keq same : K -> K -> bool.
Variable hash : K -> Z.

(** dict.c:16-20; a value DELETED (:31) is [None]. *)
Record entry := mkEntry { e_hash : Z; e_key : K; e_val : option V }.

(** dict.c:22-29.  [tb_ents] holds the entries 0..tb_nentries-1; the capacity of the
    entry array is 2*tb_size/3 (:77, :322).  tb_nentries is a long of which the high
    32 bits are the int just before tb_indices[0]: [tb_hi] is that half, so
    tb_nentries = tb_hi * 2^32 + length tb_ents.  [tb_oob] is a ghost flag: an access
    outside the arrays has happened. *)
Record table := mkTable {
  tb_size : Z; tb_usable : Z; tb_hi : Z; tb_idx : list Z; tb_ents : list entry; tb_oob : bool }.

(** dict.h:3-7; table NULL is [None]. *)
Record dict := mkDict { d_num : Z; d_tab : option table }.

Definition INIT_SIZE : Z := 4.      (* dict.c:32 *)
Definition EMPTY : Z := -1.         (* dict.c:33 *)
Definition DUMMY : Z := -2.         (* dict.c:34 *)

(** (long)tb_nentries, and its conversion to int, which drops the high half. *)
Definition nent_long (t : table) : Z := tb_hi t * 2 ^ 32 + zlen (tb_ents t).
Definition nent_int (t : table) : Z := zlen (tb_ents t).

(** The probing loop shared by dict.c:55-59, :112-125, :152-175 and :187-193:
    inspect slot i, and when [visit] does not stop, perturb >>= 5; i = (i*5 + perturb + 1) & mask. *)
Fixpoint probe {R} (fuel : nat) (size i perturb : Z) (visit : Z -> res (option R)) : res R :=
  match fuel with
  | O => NoFuel
  | S f =>
      do o <- visit i;
      match o with
      | Some r => Ok r
      | None => let p := Z.shiftr perturb 5 in
                probe f size (Z.land (wrapU 64 (i * 5 + p + 1)) (size - 1)) p visit
      end
  end.
(** Start of the loops: i = hash & mask, perturb = hash; the fuel is shown to suffice. *)
Definition probe_from {R} (size h : Z) (visit : Z -> res (option R)) : res R :=
  probe (Z.to_nat size + 14) size (Z.land h (size - 1)) h visit.

(** dict.c:45-62 build_indices, from entry number [ix] on. *)
Fixpoint build_indices (oldsize newsize : Z) (idx : list Z) (ix : Z) (es : list entry)
  : res (list Z * list entry) :=
  match es with
  | [] => Ok (idx, [])
  | e :: es' =>
      let h := if oldsize >? INIT_SIZE then e_hash e else hash (e_key e) in
      do i <- probe_from newsize h (fun i =>
                do x <- orUB (zget idx i);
                Ok (if x =? EMPTY then Some i else None));
      do idx' <- orUB (zset idx i ix);
      do r <- build_indices oldsize newsize idx' (ix + 1) es';
      let '(idx2, es2) := r in
      Ok (idx2, mkEntry h (e_key e) (e_val e) :: es2)
  end.

(** dict.c:75 *)
Fixpoint new_size (fuel : nat) (s minsize : Z) : res Z :=
  match fuel with
  | O => NoFuel
  | S f => if s <? minsize then new_size f (Z.shiftl s 1) minsize else Ok s
  end.

(** dict.c:88-94: copy [n] entries, skipping the deleted ones. *)
Fixpoint copy_live (n : nat) (es : list entry) : res (list entry) :=
  match n with
  | O => Ok []
  | S n' =>
      (fix skip (es : list entry) : res (list entry) :=
         match es with
         | [] => UB
         | e :: es' => match e_val e with
                       | None => skip es'
                       | Some _ => do r <- copy_live n' es'; Ok (e :: r)
                       end
         end) es
  end.

(** dict.c:70-105 dictresize *)
Definition dictresize (d : dict) : res dict :=
  let n := d_num d in
  do newsize <- new_size 62 INIT_SIZE (3 * n);
  let idx0 := repeat EMPTY (Z.to_nat newsize) in
  do ie <- (if n >? 0 then
              do old <- orUB (d_tab d);
              do es <- (if nent_long old =? n
                        then if n <=? zlen (tb_ents old) then Ok (firstn (Z.to_nat n) (tb_ents old)) else UB
                        else copy_live (Z.to_nat n) (tb_ents old));
              if newsize >? INIT_SIZE then build_indices (tb_size old) newsize idx0 0 es
              else Ok (idx0, es)
            else Ok (idx0, []));
  let '(idx, es) := ie in
  (* the ghost flag survives the replacement of the table *)
  let oob := match d_tab d with Some old => tb_oob old | None => false end in
  Ok (mkDict n (Some (mkTable newsize (2 * newsize / 3 - n) 0 idx es oob))).

(** dict.c:110-127 lookdict_index *)
Definition lookdict_index (t : table) (h ix : Z) : res Z :=
  probe_from (tb_size t) h (fun i =>
    do x <- orUB (zget (tb_idx t) i);
    Ok (if x =? ix then Some i else if x =? EMPTY then Some EMPTY else None)).

(** dict.c:139-150, the linear search. *)
Fixpoint linear (key : K) (ix : Z) (es : list entry) : option (Z * V) :=
  match es with
  | [] => None
  | e :: es' =>
      match e_val e with
      | Some v => if same (e_key e) key || keq key (e_key e) then Some (ix, v)
                  else linear key (ix + 1) es'
      | None => linear key (ix + 1) es'
      end
  end.

(** dict.c:132-178 lookdict: the entry number and value, if found. *)
Definition lookdict (d : dict) (h : Z) (key : K) : res (option (Z * V)) :=
  match d_tab d with
  | None => Ok None
  | Some t =>
      if tb_size t =? INIT_SIZE then Ok (linear key 0 (tb_ents t))
      else probe_from (tb_size t) h (fun i =>
        do ix <- orUB (zget (tb_idx t) i);
        if ix =? EMPTY then Ok (Some None)
        else if ix >=? 0 then
          do e <- orUB (zget (tb_ents t) ix);
          match e_val e with
          | Some v => if same (e_key e) key || ((e_hash e =? h) && keq key (e_key e))
                      then Ok (Some (Some (ix, v))) else Ok None
          | None => Ok None
          end
        else Ok None)
  end.

(** dict.c:183-195 find_empty_slot *)
Definition find_empty_slot (t : table) (h : Z) : res Z :=
  if tb_size t =? INIT_SIZE then Ok (nent_long t)
  else probe_from (tb_size t) h (fun i =>
    do ix <- orUB (zget (tb_idx t) i);
    Ok (if ix >=? 0 then None else Some i)).

(** A write to tb_indices[i].  tb_indices[-1] is the high half of tb_nentries: the write
    is outside the array, but goes there (little endian, LP64). *)
Definition write_index (t : table) (i v : Z) : res table :=
  if i =? -1 then Ok (mkTable (tb_size t) (tb_usable t) v (tb_idx t) (tb_ents t) true)
  else do idx <- orUB (zset (tb_idx t) i v);
       Ok (mkTable (tb_size t) (tb_usable t) (tb_hi t) idx (tb_ents t) (tb_oob t)).

(** dict.c:197-222 insertdict *)
Definition insertdict (d : dict) (h : Z) (key : K) (value : V) : res dict :=
  do d1 <- (match d_tab d with
            | None => dictresize d
            | Some t => if tb_usable t <=? 0 then dictresize d else Ok d
            end);
  do t1 <- orUB (d_tab d1);
  let h1 := if tb_size t1 =? 2 * INIT_SIZE then hash key else h in
  do r <- lookdict d1 h1 key;
  match r with
  | None =>
      do newpos <- find_empty_slot t1 h1;
      (* &TB_ENTRIES(table)[table->tb_nentries] must be inside the entry array *)
      if (0 <=? nent_long t1) && (nent_long t1 <? 2 * tb_size t1 / 3) then
        do t2 <- write_index t1 newpos (nent_long t1);
        Ok (mkDict (d_num d1 + 1)
             (Some (mkTable (tb_size t2) (tb_usable t2 - 1) (tb_hi t2) (tb_idx t2)
                            (tb_ents t2 ++ [mkEntry h1 key (Some value)]) (tb_oob t2))))
      else UB
  | Some (ix, _) =>
      do e <- orUB (zget (tb_ents t1) ix);
      do es <- orUB (zset (tb_ents t1) ix (mkEntry (e_hash e) (e_key e) (Some value)));
      Ok (mkDict (d_num d1) (Some (mkTable (tb_size t1) (tb_usable t1) (tb_hi t1) (tb_idx t1) es (tb_oob t1))))
  end.

(** The hash passed to lookdict: 0 for a small table (dict.c:481-483 and the like). *)
Definition key_hash (t : table) (key : K) : Z := if tb_size t >? INIT_SIZE then hash key else 0.

(** dict.c:773-781 and :813-819 setitem *)
Definition dict_setitem (d : dict) (key : K) (value : V) : res dict :=
  insertdict d (match d_tab d with Some t => key_hash t key | None => 0 end) key value.

(** dict.c:476-485 __contains__; also :487-489 __containsnot__ *)
Definition dict_contains (d : dict) (key : K) : res bool :=
  if d_num d =? 0 then Ok false
  else do t <- orUB (d_tab d);
       do r <- lookdict d (key_hash t key) key;
       Ok (match r with Some _ => true | None => false end).

(** dict.c:491-504 get; [None] is B_None *)
Definition dict_get (d : dict) (key : K) : res (option V) :=
  match d_tab d with
  | None => Ok None
  | Some t => do r <- lookdict d (key_hash t key) key;
              Ok (match r with Some (_, v) => Some v | None => None end)
  end.

(** dict.c:506-519 get with a default *)
Definition dict_get_def (d : dict) (key : K) (deflt : V) : res V :=
  match d_tab d with
  | None => Ok deflt
  | Some t => do r <- lookdict d (key_hash t key) key;
              Ok (match r with Some (_, v) => v | None => deflt end)
  end.

(** dict.c:821-834 B_dictD_get, the variant used by the runtime *)
Definition dictD_get (d : dict) (key : K) (deflt : V) : res V :=
  if d_num d =? 0 then Ok deflt
  else do t <- orUB (d_tab d);
       do r <- lookdict d (key_hash t key) key;
       Ok (match r with Some (_, v) => v | None => deflt end).

(** dict.c:757-771 __getitem__ *)
Definition dict_getitem (d : dict) (key : K) : res V :=
  if d_num d =? 0 then Exn KeyError
  else do t <- orUB (d_tab d);
       do r <- lookdict d (key_hash t key) key;
       match r with Some (_, v) => Ok v | None => Exn KeyError end.

(** Common body of pop (dict.c:521-545), pop_def (:547-571), __delitem__ (:783-811)
    and B_dictD_pop (:836-859):
    [None] when the key is absent. *)
Definition dict_remove (d : dict) (key : K) : res (option V * dict) :=
  if d_num d =? 0 then Ok (None, d)
  else do t <- orUB (d_tab d);
       let h := key_hash t key in
       do r <- lookdict d h key;
       match r with
       | None => Ok (None, d)
       | Some (ix, _) =>
           do e <- orUB (zget (tb_ents t) ix);
           do i <- lookdict_index t h ix;
           do t1 <- write_index t i DUMMY;
           do es <- orUB (zset (tb_ents t1) ix (mkEntry (e_hash e) (e_key e) None));
           let t2 := mkTable (tb_size t1) (tb_usable t1) (tb_hi t1) (tb_idx t1) es (tb_oob t1) in
           let d2 := mkDict (d_num d - 1) (Some t2) in
           do d3 <- (if 10 * d_num d2 <? tb_size t2 then dictresize d2 else Ok d2);
           Ok (e_val e, d3)
       end.

(** dict.c:718-740 popitem: the loop over ix, downwards; [n] = ix + 1. *)
Fixpoint popitem_loop (d : dict) (t : table) (n : nat) : res (option (K * V) * dict) :=
  match n with
  | O => Ok (None, d)
  | S ix =>
      do e <- orUB (nth_error (tb_ents t) ix);
      match e_val e with
      | None => popitem_loop d t ix
      | Some v =>
          do t1 <- (if tb_size t >? INIT_SIZE then
                      do i <- lookdict_index t (hash (e_key e)) (Z.of_nat ix);
                      write_index t i DUMMY
                    else Ok t);
          (* tb_nentries = ix: a long assignment, so the high half becomes 0 *)
          Ok (Some (e_key e, v),
              mkDict (d_num d - 1)
                (Some (mkTable (tb_size t1) (tb_usable t1) 0 (tb_idx t1) (firstn ix (tb_ents t1)) (tb_oob t1))))
      end
  end.
Definition dict_popitem (d : dict) : res (option (K * V) * dict) :=
  if d_num d =? 0 then Ok (None, d)
  else do t <- orUB (d_tab d); popitem_loop d t (Z.to_nat (nent_int t)).

(** dict.c:742-752 setdefault *)
Definition dict_setdefault (d : dict) (key : K) (deflt : V) : res (V * dict) :=
  let h := hash key in
  do r <- lookdict d h key;
  match r with
  | Some (_, v) => Ok (v, d)
  | None => do d' <- insertdict d h key deflt; Ok (deflt, d')
  end.

(** dict.c:699-716 update and :230-250 __init__: setitem for every pair. *)
Fixpoint dict_update (d : dict) (kvs : list (K * V)) : res dict :=
  match kvs with
  | [] => Ok d
  | (k, v) :: kvs' => do d' <- dict_setitem d k v; dict_update d' kvs'
  end.
Definition dict_new : dict := mkDict 0 None.

(** dict.c:399-415 keys, :581-597 values and :636-652 items iterators: __next__ from position
    nxt, over a dict that is not modified meanwhile. *)
Fixpoint next_live (es : list entry) (i : Z) : res ((K * V) * Z) :=
  match es with
  | [] => Exn StopIteration
  | e :: es' => match e_val e with
                | Some v => Ok ((e_key e, v), i + 1)
                | None => next_live es' (i + 1)
                end
  end.
Definition dict_items_next (d : dict) (nxt : Z) : res ((K * V) * Z) :=
  match d_tab d with
  | None => Exn StopIteration
  | Some t => next_live (skipn (Z.to_nat nxt) (tb_ents t)) nxt
  end.
Definition dict_keys_next (d : dict) (nxt : Z) : res (K * Z) :=
  do r <- dict_items_next d nxt; Ok (fst (fst r), snd r).
Definition dict_values_next (d : dict) (nxt : Z) : res (V * Z) :=
  do r <- dict_items_next d nxt; Ok (snd (fst r), snd r).

(** dict.c:338-369 B_dictrel; [es] are the entries of [a] still to be visited.
    [vne] is __ne__ of the values. *)
Variable vne : V -> V -> bool.
Fixpoint dictrel_loop (a b : dict) (ta : table) (es : list entry) : res bool :=
  match es with
  | [] => Ok true
  | e :: es' =>
      match e_val e with
      | None => dictrel_loop a b ta es'
      | Some _ =>
          let h := key_hash ta (e_key e) in
          do ra <- lookdict a h (e_key e);
          do rb <- lookdict b h (e_key e);
          match rb with
          | None => Ok false
          | Some (_, vb) =>
              (* resa is uninitialised if ra is not found *)
              do va <- orUB (option_map snd ra);
              if vne va vb then Ok false else dictrel_loop a b ta es'
          end
      end
  end.
Definition dictrel (directfalse : bool) (a b : dict) : res bool :=
  if directfalse then Ok false
  else if d_num a =? 0 then Ok true
  else do ta <- orUB (d_tab a); dictrel_loop a b ta (tb_ents ta).

(** dict.c:371-393 *)
Definition dict_eq (a b : dict) : res bool := dictrel (negb (d_num a =? d_num b)) a b.
Definition dict_ne (a b : dict) : res bool := mapr negb (dict_eq a b).
Definition dict_lt (a b : dict) : res bool := dictrel (d_num a >=? d_num b) a b.
Definition dict_le (a b : dict) : res bool := dictrel (d_num a >? d_num b) a b.
Definition dict_gt (a b : dict) : res bool := mapr negb (dict_lt b a).
Definition dict_ge (a b : dict) : res bool := mapr negb (dict_le b a).
End Dict.
Arguments entry : clear implicits.
Arguments table : clear implicits.
Arguments dict : clear implicits.

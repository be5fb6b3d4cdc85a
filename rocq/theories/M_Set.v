(** Model of base/builtin/set.c.
    Simplifications: counts are unbounded integers except the int argument of the resize;
    allocation never fails; hashing is a pure function of the element; the identity test
    [set == other] is a flag of the operation, supplied by the caller. *)
From Verif Require Import Base.

(** A key slot: NULL, the address of _dummy (set.c:21-22), or an element. *)
Inductive skey (K : Type) := KNull | KDummy | KElem (k : K).
Arguments KNull {K}. Arguments KDummy {K}. Arguments KElem {K} k.

(** set.h:2-5 *)
Record sentry (K : Type) := mkSE { se_key : skey K; se_hash : Z }.
Arguments mkSE {K}. Arguments se_key {K}. Arguments se_hash {K}.

(** set.h:7-14; the table has mask+1 entries. *)
Record cset (K : Type) := mkSet { s_num : Z; s_fill : Z; s_mask : Z; s_finger : Z; s_tab : list (sentry K) }.
Arguments mkSet {K}. Arguments s_num {K}. Arguments s_fill {K}. Arguments s_mask {K}.
Arguments s_finger {K}. Arguments s_tab {K}.

Definition MIN_SIZE : Z := 8.      (* set.c:19 *)

(** perturb >>= 5; i = (i*5 + 1 + perturb) & mask, on signed longs (set.c:38-39, :111-112, :153-154). *)
Definition s_next (mask i p : Z) : Z := Z.land (wrapS 64 (i * 5 + 1 + Z.shiftr p 5)) mask.

Section Set_.
Context {K : Type}.
(** __eq__ of the Hashable witness; pointer identity of elements; B_hash (a uint64_t). *)
Variable keq same : K -> K -> bool.
Variable hash : K -> Z.

(** The hash as the long parameter of the functions below. *)
Definition shash (k : K) : Z := wrapS 64 (hash k).

(** set.c:27-44 B_set_insert_clean; the loop needs fuel. *)
Fixpoint clean_loop (fuel : nat) (tab : list (sentry K)) (mask i p : Z) : res Z :=
  match fuel with
  | O => NoFuel
  | S f => do e <- orUB (zget tab i);
           match se_key e with
           | KNull => Ok i
           | _ => clean_loop f tab mask (s_next mask i p) (Z.shiftr p 5)
           end
  end.
Definition probe_fuel (mask : Z) : nat := (Z.to_nat (mask + 1) + 14)%nat.
Definition insert_clean (tab : list (sentry K)) (mask : Z) (e : sentry K) : res (list (sentry K)) :=
  do j <- clean_loop (probe_fuel mask) tab mask (Z.land (se_hash e) mask) (se_hash e);
  orUB (zset tab j e).

(** set.c:51-55 *)
Fixpoint grow (fuel : nat) (s minsize : Z) : res Z :=
  match fuel with
  | O => NoFuel
  | S f => if s <=? minsize then grow f (Z.shiftl s 1) minsize else Ok s
  end.

(** set.c:71-85: the copying loops; [all] copies dummies too. *)
Fixpoint copy_entries (all : bool) (old : list (sentry K)) (tab : list (sentry K)) (mask : Z) : res (list (sentry K)) :=
  match old with
  | [] => Ok tab
  | e :: old' =>
      let skip := match se_key e with KNull => true | KDummy => negb all | KElem _ => false end in
      if skip then copy_entries all old' tab mask
      else do tab' <- insert_clean tab mask e; copy_entries all old' tab' mask
  end.

(** set.c:46-89 B_set_table_resize; minsize is an int. *)
Definition set_resize (s : cset K) (minsize : Z) : res (cset K) :=
  do newsize <- grow 62 MIN_SIZE (wrapS 32 minsize);
  let tab0 := repeat (mkSE KNull 0) (Z.to_nat newsize) in
  if s_fill s =? s_num s then
    do tab <- copy_entries true (s_tab s) tab0 (newsize - 1);
    Ok (mkSet (s_num s) (s_fill s) (newsize - 1) (s_finger s) tab)
  else
    do tab <- copy_entries false (s_tab s) tab0 (newsize - 1);
    Ok (mkSet (s_num s) (s_num s) (newsize - 1) (s_finger s) tab).

(** set.c:91-118 B_set_lookkey: index of the matching or first NULL entry. *)
Fixpoint look_loop (fuel : nat) (tab : list (sentry K)) (mask i p : Z) (key : K) (h : Z) : res Z :=
  match fuel with
  | O => NoFuel
  | S f =>
      do e <- orUB (zget tab i);
      match se_key e with
      | KNull => Ok i
      | k =>
          do hit <- (if se_hash e =? h then
                       match k with
                       | KElem x => Ok (same x key || keq x key)
                       | _ => UB             (* __eq__ applied to the dummy *)
                       end
                     else Ok false);
          if hit then Ok i else look_loop f tab mask (s_next mask i p) (Z.shiftr p 5) key h
      end
  end.
Definition lookkey_f (fuel : nat) (s : cset K) (key : K) (h : Z) : res Z :=
  look_loop fuel (s_tab s) (s_mask s) (Z.land h (s_mask s)) h key h.
Definition lookkey (s : cset K) (key : K) (h : Z) : res Z := lookkey_f (probe_fuel (s_mask s)) s key h.

(** set.c:120-122 B_set_contains_entry *)
Definition contains_entry (s : cset K) (key : K) (h : Z) : res bool :=
  do j <- lookkey s key h;
  do e <- orUB (zget (s_tab s) j);
  Ok (match se_key e with KNull => false | _ => true end).

(** set.c:124-178 B_set_add_entry: the search. *)
Inductive addres := AActive | AFresh (j : Z) | AReuse (j : Z).
Fixpoint add_loop (fuel : nat) (tab : list (sentry K)) (mask i p : Z) (key : K) (h : Z) (free : option Z) : res addres :=
  match fuel with
  | O => NoFuel
  | S f =>
      do e <- orUB (zget tab i);
      match se_key e with
      | KNull => Ok (match free with None => AFresh i | Some j => AReuse j end)
      | k =>
          do hit <- (if se_hash e =? h then
                       match k with
                       | KElem x => Ok (same x key || keq x key)
                       | _ => UB
                       end
                     else Ok false);
          if hit then Ok AActive
          else let free' := if se_hash e =? h then free else if se_hash e =? -1 then Some i else free in
               add_loop f tab mask (s_next mask i p) (Z.shiftr p 5) key h free'
      end
  end.
Definition add_entry (s : cset K) (key : K) (h : Z) : res (cset K) :=
  do r <- add_loop (probe_fuel (s_mask s)) (s_tab s) (s_mask s) (Z.land h (s_mask s)) h key h None;
  match r with
  | AActive => Ok s
  | AReuse j => do tab <- orUB (zset (s_tab s) j (mkSE (KElem key) h));
                Ok (mkSet (s_num s + 1) (s_fill s) (s_mask s) (s_finger s) tab)
  | AFresh j => do tab <- orUB (zset (s_tab s) j (mkSE (KElem key) h));
                let s' := mkSet (s_num s + 1) (s_fill s + 1) (s_mask s) (s_finger s) tab in
                if s_fill s' * 5 <? s_mask s' * 3 then Ok s'
                else set_resize s' (if s_num s' >? 50000 then s_num s' * 2 else s_num s' * 4)
  end.

(** set.c:181-187 B_set_copy: the same value. *)
Definition set_copy (s : cset K) : cset K := s.

(** set.c:189-198 B_set_discard_entry *)
Definition discard_entry (s : cset K) (key : K) (h : Z) : res (bool * cset K) :=
  do j <- lookkey s key h;
  do e <- orUB (zget (s_tab s) j);
  match se_key e with
  | KNull => Ok (false, s)
  | _ => do tab <- orUB (zset (s_tab s) j (mkSE KDummy (-1)));
         Ok (true, mkSet (s_num s - 1) (s_fill s) (s_mask s) (s_finger s) tab)
  end.

(** set.c:206-230 __init__ *)
Definition set_empty : cset K := mkSet 0 0 (MIN_SIZE - 1) 0 (repeat (mkSE KNull 0) (Z.to_nat MIN_SIZE)).
Fixpoint add_all (s : cset K) (ys : list K) : res (cset K) :=
  match ys with
  | [] => Ok s
  | y :: ys' => do s' <- add_entry s y (shash y); add_all s' ys'
  end.
Definition set_of (ys : list K) : res (cset K) := add_all set_empty ys.

(** set.c:305-319 B_IteratorD_set_next_entry (and :331-337): element, hash and next position. *)
Fixpoint scan (tab : list (sentry K)) (i : Z) : res (K * Z * Z) :=
  match tab with
  | [] => Exn StopIteration
  | e :: tab' => match se_key e with
                 | KElem k => Ok (k, se_hash e, i + 1)
                 | _ => scan tab' (i + 1)
                 end
  end.
Definition next_entry (s : cset K) (nxt : Z) : res (K * Z * Z) :=
  scan (skipn (Z.to_nat nxt) (s_tab s)) nxt.
Definition set_next (s : cset K) (nxt : Z) : res (K * Z) :=
  do r <- next_entry s nxt; let '(k, _, n) := r in Ok (k, n).

(** The loops "while (n < N) { w = $next(iter); body; n++; }" of set.c:494-620: [body] either
    leaves the function with a result or goes on. *)
Fixpoint each {S R} (n : nat) (s : cset K) (nxt : Z) (body : S -> K -> Z -> res (R + S)) (st : S) : res (R + S) :=
  match n with
  | O => Ok (inr st)
  | Datatypes.S n' =>
      do w <- next_entry s nxt;
      let '(k, h, nxt') := w in
      do r <- body st k h;
      match r with
      | inl x => Ok (inl x)
      | inr st' => each n' s nxt' body st'
      end
  end.
Definition num_nat (s : cset K) : nat := Z.to_nat (s_num s).

(** Every element of [b] is in [a]: the common part of set.c:487-502, :508-523, :525-540. *)
Definition all_in (n : nat) (a b : cset K) : res bool :=
  do r <- each n b 0 (fun (_ : unit) k h => do c <- contains_entry a k h;
                                            Ok (if c then inr tt else inl false)) tt;
  Ok (match r with inl x => x | inr _ => true end).

(** Set protocol and operators.  [eqp] says whether the two operands are the same object. *)
Definition set_contains (s : cset K) (k : K) : res bool := contains_entry s k (shash k).   (* :406-409 *)
Definition set_add (s : cset K) (k : K) : res (cset K) := add_entry s k (shash k).         (* :377-381 *)
Definition set_discard (s : cset K) (k : K) : res (cset K) := mapr snd (discard_entry s k (shash k)). (* :456-460 *)

(** set.c:435-454 update from an iterable yielding [ys], and from a set *)
Definition set_update (s : cset K) (ys : list K) : res (cset K) := add_all s ys.
Fixpoint update_set_loop (fuel : nat) (s other : cset K) (nxt : Z) : res (cset K) :=
  match fuel with
  | O => NoFuel
  | Datatypes.S f =>
      match set_next other nxt with
      | Ok (k, n) => do s' <- add_entry s k (shash k); update_set_loop f s' other n
      | Exn _ => Ok s
      | UB => UB
      | NoFuel => NoFuel
      end
  end.
Definition set_update_set (eqp : bool) (s other : cset K) : res (cset K) :=
  if eqp then Ok s else update_set_loop (S (length (s_tab other))) s other 0.

(** set.c:462-482 pop: the search from the finger, with wrap-around. *)
Fixpoint pop_loop (fuel : nat) (tab : list (sentry K)) (mask i : Z) : res (K * Z) :=
  match fuel with
  | O => NoFuel
  | Datatypes.S f =>
      do e <- orUB (zget tab i);
      match se_key e with
      | KElem k => Ok (k, i)
      | _ => let i' := i + 1 in pop_loop f tab mask (if i' >? mask then 0 else i')
      end
  end.
Definition set_pop (s : cset K) : res (K * cset K) :=
  if s_num s =? 0 then Exn ValueError
  else do r <- pop_loop (S (Z.to_nat (s_mask s + 1))) (s_tab s) (s_mask s) (Z.land (s_finger s) (s_mask s));
       let '(k, i) := r in
       do tab <- orUB (zset (s_tab s) i (mkSE KDummy (-1)));
       Ok (k, mkSet (s_num s - 1) (s_fill s) (s_mask s) (i + 1) tab).

(** set.c:415-431 isdisjoint, after the swap that makes [b] the smaller one.  $next raises
    StopIteration at the end; nothing catches it. *)
Definition disjoint_loop (a b : cset K) : res bool :=
  do r <- each (S (length (s_tab b))) b 0 (fun (_ : unit) k h => do c <- contains_entry a k h;
                                                Ok (if c then inl false else inr tt)) tt;
  Ok (match r with inl x => x | inr _ => true end).
Definition set_isdisjoint (eqp : bool) (a b : cset K) : res bool :=
  if eqp then Ok (s_num a =? 0)
  else if s_num b >? s_num a then disjoint_loop b a else disjoint_loop a b.

(** set.c:487-502 __eq__, :504-506 __ne__ *)
Definition set_eq (eqp : bool) (a b : cset K) : res bool :=
  if eqp then Ok true
  else if negb (s_num a =? s_num b) then Ok false else all_in (num_nat a) a b.
Definition set_ne (eqp : bool) (a b : cset K) : res bool := mapr negb (set_eq eqp a b).
(** set.c:508-523 __gt__, :525-540 __ge__, :542-548 __lt__, __le__ *)
Definition set_gt (eqp : bool) (a b : cset K) : res bool :=
  if eqp then Ok false
  else if s_num a <=? s_num b then Ok false else all_in (num_nat b) a b.
Definition set_ge (eqp : bool) (a b : cset K) : res bool :=
  if eqp then Ok true
  else if s_num a <? s_num b then Ok false else all_in (num_nat b) a b.
Definition set_lt (eqp : bool) (a b : cset K) : res bool := set_gt eqp b a.
Definition set_le (eqp : bool) (a b : cset K) : res bool := set_ge eqp b a.

(** The state left by a loop whose body never returns. *)
Definition fin {S} (r : res (Empty_set + S)) : res S :=
  do x <- r; match x with inl e => match e with end | inr s => Ok s end.

(** set.c:553-566 __sub__ *)
Definition set_sub (a b : cset K) : res (cset K) :=
  fin (each (num_nat b) b 0 (fun st k h => do r <- discard_entry st k h; Ok (inr (snd r))) (set_copy a)).
(** set.c:571-587 __and__ *)
Definition and_loop (a b : cset K) : res (cset K) :=
  fin (each (num_nat a) a 0 (fun st k h => do c <- contains_entry b k h;
                                           if c then do st' <- add_entry st k h; Ok (inr st') else Ok (inr st)) set_empty).
Definition set_and (a b : cset K) : res (cset K) :=
  if s_num b >? s_num a then and_loop b a else and_loop a b.
(** set.c:589-604 __or__ *)
Definition or_loop (a b : cset K) : res (cset K) :=
  fin (each (num_nat b) b 0 (fun st k h => do st' <- add_entry st k h; Ok (inr st')) (set_copy a)).
Definition set_or (a b : cset K) : res (cset K) :=
  if s_num b >? s_num a then or_loop b a else or_loop a b.
(** set.c:606-620 __xor__ *)
Definition set_xor (a b : cset K) : res (cset K) :=
  fin (each (num_nat b) b 0 (fun st k h => do r <- discard_entry st k h;
                                           let '(found, st1) := r in
                                           if found then Ok (inr st1)
                                           else do st2 <- add_entry st1 k h; Ok (inr st2)) (set_copy a)).
End Set_.

(** base/src/random.act, base/src/random.ext.c.

    The values of the C library's rand(), each in 0..RAND_MAX, are an argument: the list of those that it
    still returns.  A run that has used all of them is [NoFuel]: it goes on with the next value. *)
From Coq Require Import String.
From Verif Require Import Base M_Bigint M_Http.

(** glibc, musl: stdlib.h. *)
Definition RAND_MAX : Z := 2147483647.

(** base/src/random.ext.c:35-37: the first value below [bound], and the rest. *)
Fixpoint spin (bound : Z) (rs : list Z) : res (Z * list Z) :=
  match rs with
  | [] => NoFuel
  | r :: rs => if bound <=? r then spin bound rs else Ok (r, rs)
  end.
(** base/src/random.ext.c:22-40 randlong, 42-44 randint. *)
Definition randint (min max : Z) (rs : list Z) : res (Z * list Z) :=
  if max <? min then Exn ValueError else
  let range := wrapS 64 (max - min) in
  if range =? 0 then UB else
  let bound := wrapS 64 (Z.quot RAND_MAX range * range) in
  do (r, rs) <- spin bound rs;
  Ok (wrapS 64 (min + Z.rem r range), rs).

(** base/src/random.act:12-23 choice. *)
Definition choice {A} (l : list A) (rs : list Z) : res (A * list Z) :=
  if zlen l =? 0 then Exn ValueError else
  do (i, rs) <- randint 0 (zlen l) rs;
  match zget l i with Some x => Ok (x, rs) | None => Exn IndexError end.

(** base/src/random.act:5-10 randstr. *)
Definition CHARS : list Z := lit "ABCDEFGHIJKLMNOPQRSTUVWXYZabcdefghijklmnopqrstuvwxyz0123456789".
Fixpoint choices {A} (n : nat) (l : list A) (rs : list Z) : res (list A * list Z) :=
  match n with
  | O => Ok ([], rs)
  | S n => do (c, rs) <- choice l rs; do (cs, rs) <- choices n l rs; Ok (c :: cs, rs)
  end.
Definition randstr (n : Z) (rs : list Z) : res (list Z * list Z) := choices (Z.to_nat n) CHARS rs.

(** base/src/random.act:39-47 the loop of sample; the inner loop looks for the place of the value chosen. *)
Fixpoint place (x : Z) (l : list Z) (i : Z) : Z :=
  match l with [] => 0 | y :: l => if y =? x then i else place x l (i + 1) end.
Fixpoint sample_loop {A} (population : list A) (k : nat) (indices : list Z) (rs : list Z) : res (list A * list Z) :=
  match k with
  | O => Ok ([], rs)
  | S k =>
      do (x, rs) <- choice indices rs;
      let i := Z.to_nat (place x indices 0) in
      match zget population x with
      | Some v => do (vs, rs) <- sample_loop population k (firstn i indices ++ skipn (S i) indices) rs; Ok (v :: vs, rs)
      | None => Exn IndexError
      end
  end.
(** base/src/random.act:26-48 sample. *)
Definition sample {A} (population : list A) (k : Z) (rs : list Z) : res (list A * list Z) :=
  if negb ((0 <=? k) && (k <=? zlen population)) then Exn ValueError else
  sample_loop population (Z.to_nat k) (map Z.of_nat (seq 0 (List.length population))) rs.

(** base/src/random.act:51-62 rand_bigint; bigint() of a str is M_Bigint.v's. *)
Definition rand_bigint (size : Z) (rs : list Z) : res (Z * list Z) :=
  if size <=? 0 then Exn ValueError else
  do (s, rs) <- choice [[]; lit "-"] rs;
  do (ds, rs) <- choices (Z.to_nat size) (map (fun c => [c]) (lit "0123456789")) rs;
  do v <- bigint_of_str (List.concat (s :: ds)) None;
  Ok (v, rs).

(** base/src/random.act:64-75 rand_list. *)
Fixpoint rand_ints (n : nat) (size : Z) (rs : list Z) : res (list Z * list Z) :=
  match n with
  | O => Ok ([], rs)
  | S n => do (x, rs) <- randint (wrapS 64 (- size)) size rs; do (xs, rs) <- rand_ints n size rs; Ok (x :: xs, rs)
  end.
Definition rand_list (size : Z) (rs : list Z) : res (list Z * list Z) :=
  if size <=? 0 then Exn ValueError else
  do (n, rs) <- randint 0 size rs;
  rand_ints (Z.to_nat n) size rs.

(** Model of base/builtin/timsort.c, used by sorted()
    (base/builtin/builtin_functions.c:334-339).
    size_t values are [nat]; [usub] marks the subtractions whose result would wrap. *)
From Verif Require Import Base.
Local Open Scope nat_scope.

(** a - b on size_t; a wrapped result would be used as an index, modelled as UB. *)
Definition usub (a b : nat) : res nat := if b <=? a then Ok (a - b) else UB.

Section Sort.
Context {A : Type}.
(** __lt__ and __eq__ of the Ord witness. *)
Variable lt eq : A -> A -> bool.

(** timsort.c:63 SORT_CMP *)
Definition cmp (x y : A) : Z := if lt x y then (-1)%Z else if eq x y then 0%Z else 1%Z.

(** Array accesses; out of bounds is UB. *)
Definition aget (d : list A) (i : nat) : res A := orUB (nth_error d i).
Definition aset (d : list A) (i : nat) (x : A) : res (list A) :=
  if i <? length d then Ok (firstn i d ++ x :: skipn (S i) d) else UB.

(** timsort.c:204-223, the while loop of BINARY_INSERTION_FIND. *)
Fixpoint find_loop (fuel : nat) (d : list A) (x : A) (l c r : nat) : res nat :=
  match fuel with
  | O => NoFuel
  | S f =>
      do cx <- aget d c;
      if (cmp x cx <? 0)%Z then
        if c - l <=? 1 then Ok c
        else find_loop f d x l (l + Nat.div2 (c - l)) c
      else
        if r - c <=? 1 then Ok (c + 1)
        else find_loop f d x c (c + Nat.div2 (r - c)) r
  end.

(** timsort.c:188-224 BINARY_INSERTION_FIND; [d] is the array at the pointer dst. *)
Definition binary_insertion_find (fuel : nat) (d : list A) (x : A) (size : nat) : res nat :=
  do r <- usub size 1;
  do d0 <- aget d 0;
  if (cmp x d0 <? 0)%Z then Ok 0
  else
    do dr <- aget d r;
    if (0 <? cmp x dr)%Z then Ok r
    else find_loop fuel d x 0 (Nat.div2 r) r.

(** timsort.c:244-250, the shifting loop, j counting down from location+n-1 to location. *)
Fixpoint shift_up (n location : nat) (d : list A) : res (list A) :=
  match n with
  | O => Ok d
  | S n' =>
      do v <- aget d (location + n');
      do d' <- aset d (location + n' + 1) v;
      shift_up n' location d'
  end.

(** timsort.c:230-252, the for loop of BINARY_INSERTION_SORT_START, [n] = size - i.
    [off] is the offset of the pointer dst in the whole array [d]. *)
Fixpoint insertion_loop (n : nat) (fuel : nat) (off i : nat) (d : list A) : res (list A) :=
  match n with
  | O => Ok d
  | S n' =>
      do i1 <- usub i 1;
      do p <- aget d (off + i1);
      do x <- aget d (off + i);
      if (cmp p x <=? 0)%Z then insertion_loop n' fuel off (i + 1) d
      else
        do location <- binary_insertion_find fuel (skipn off d) x i;
        do d1 <- shift_up (i - location) (off + location) d;
        do d2 <- aset d1 (off + location) x;
        insertion_loop n' fuel off (i + 1) d2
  end.

(** timsort.c:227-253 *)
Definition insertion_sort_start (fuel : nat) (off : nat) (d : list A) (start size : nat) : res (list A) :=
  insertion_loop (size - start) fuel off start d.

(** timsort.c:256-263 *)
Definition insertion_sort (fuel : nat) (d : list A) (size : nat) : res (list A) :=
  if size <=? 1 then Ok d else insertion_sort_start fuel 0 d 1 size.

(** timsort.c:267-277 REVERSE_ELEMENTS *)
Fixpoint reverse_elements (fuel : nat) (d : list A) (s e : nat) : res (list A) :=
  match fuel with
  | O => NoFuel
  | S f =>
      if e <=? s then Ok d
      else
        do x <- aget d s;
        do y <- aget d e;
        do d1 <- aset d s y;
        do d2 <- aset d1 e x;
        reverse_elements f d2 (s + 1) (e - 1)
  end.

(** timsort.c:296-306 (up = true) and :311-321 (up = false): the run scanning loops;
    [last] = size - 1. *)
Fixpoint scan_run (fuel : nat) (up : bool) (d : list A) (curr last : nat) : res nat :=
  match fuel with
  | O => NoFuel
  | S f =>
      if curr =? last then Ok curr
      else
        do c1 <- usub curr 1;
        do p <- aget d c1;
        do x <- aget d curr;
        if (if up then (0 <? cmp p x)%Z else (cmp p x <=? 0)%Z) then Ok curr
        else scan_run f up d (curr + 1) last
  end.

(** timsort.c:279-329 COUNT_RUN: the run length and the array. *)
Definition count_run (fuel : nat) (d : list A) (start size : nat) : res (nat * list A) :=
  do n <- usub size start;
  if n =? 1 then Ok (1, d)
  else
    do s2 <- usub size 2;
    do s1 <- usub size 1;
    if s2 <=? start then
      do x <- aget d s2;
      do y <- aget d s1;
      if (0 <? cmp x y)%Z then
        do d1 <- aset d s2 y;
        do d2 <- aset d1 s1 x;
        Ok (2, d2)
      else Ok (2, d)
    else
      do x <- aget d start;
      do y <- aget d (start + 1);
      if (cmp x y <=? 0)%Z then
        do curr <- scan_run fuel true d (start + 2) s1;
        Ok (curr - start, d)
      else
        do curr <- scan_run fuel false d (start + 2) s1;
        do d' <- reverse_elements fuel d start (curr - 1);
        Ok (curr - start, d').

(** TIM_SORT_RUN_T, timsort.c:171-174.  The array run_stack[128] and its length are
    modelled by the list of the live entries, top of the stack first. *)
Record run := mkRun { r_start : nat; r_len : nat }.

(** timsort.c:331-358 CHECK_INVARIANT *)
Definition check_invariant (st : list run) : bool :=
  match st with
  | [] | [_] => true
  | [b; a] => negb (r_len a <=? r_len b)
  | c :: b :: a :: _ => negb ((r_len a <=? r_len b + r_len c) || (r_len b <=? r_len c))
  end.

(** timsort.c:390-407, the loop of the left merge; [n] bounds k: curr+A+B - k. *)
Fixpoint merge_left_loop (n : nat) (d sto : list A) (i j k la e : nat) : res (list A) :=
  match n with
  | O => Ok d
  | S n' =>
      if (i <? la) && (j <? e) then
        do s <- aget sto i;
        do x <- aget d j;
        if (cmp s x <=? 0)%Z
        then do d' <- aset d k s; merge_left_loop n' d' sto (i + 1) j (k + 1) la e
        else do d' <- aset d k x; merge_left_loop n' d' sto i (j + 1) (k + 1) la e
      else if i <? la then
        do s <- aget sto i;
        do d' <- aset d k s; merge_left_loop n' d' sto (i + 1) j (k + 1) la e
      else Ok d
  end.

(** timsort.c:415-429, the loop of the right merge; [n] = k - curr. *)
Fixpoint merge_right_loop (n : nat) (d sto : list A) (i j curr : nat) : res (list A) :=
  match n with
  | O => Ok d
  | S n' =>
      let k := curr + n' in
      if (0 <? i) && (curr <? j) then
        do x <- aget d (j - 1);
        do s <- aget sto (i - 1);
        if (0 <? cmp x s)%Z
        then do d' <- aset d k x; merge_right_loop n' d' sto i (j - 1) curr
        else do d' <- aset d k s; merge_right_loop n' d' sto (i - 1) j curr
      else if 0 <? i then
        do s <- aget sto (i - 1);
        do d' <- aset d k s; merge_right_loop n' d' sto (i - 1) j curr
      else Ok d
  end.

(** memcpy(storage, &dst[off], n): the part of storage that is read afterwards. *)
Definition copy_out (d : list A) (off n : nat) : res (list A) :=
  if off + n <=? length d then Ok (firstn n (skipn off d)) else UB.

(** timsort.c:380-431 TIM_SORT_MERGE of the runs [a] (below) and [b] (above).
    TIM_SORT_RESIZE (:365-378) makes the storage large enough; allocation failure is
    not modelled. *)
Definition merge (d : list A) (a b : run) : res (list A) :=
  let la := r_len a in let lb := r_len b in let curr := r_start a in
  if la <? lb then
    do sto <- copy_out d curr la;
    merge_left_loop (la + lb) d sto 0 (curr + la) curr la (curr + la + lb)
  else
    do sto <- copy_out d (curr + la) lb;
    merge_right_loop (la + lb) d sto lb (curr + la) curr.

(** timsort.c:433-495 TIM_SORT_COLLAPSE *)
Fixpoint collapse (fuel : nat) (d : list A) (st : list run) (size : nat) : res (list A * list run) :=
  match fuel with
  | O => NoFuel
  | S f =>
      match st with
      | [] | [_] => Ok (d, st)
      | [r1; r0] =>
          if (r_len r0 + r_len r1 =? size) || (r_len r0 <=? r_len r1) then
            do d' <- merge d r0 r1;
            Ok (d', [mkRun (r_start r0) (r_len r0 + r_len r1)])
          else Ok (d, st)
      | rd :: rc :: rb :: rest =>
          let B := r_len rb in let C := r_len rc in let D := r_len rd in
          let ABC := match rest with ra :: _ => r_len ra <=? B + C | [] => false end in
          let BCD := (B <=? C + D) || ABC in
          let CD := C <=? D in
          if negb BCD && negb CD then Ok (d, st)
          else if BCD && negb CD then
            do d' <- merge d rb rc;
            collapse f d' (rd :: mkRun (r_start rb) (B + C) :: rest) size
          else
            do d' <- merge d rc rd;
            collapse f d' (mkRun (r_start rc) (C + D) :: rb :: rest) size
      end
  end.

(** timsort.c:517-523, the final merges of PUSH_NEXT. *)
Fixpoint finish (n : nat) (d : list A) (st : list run) : res (list A) :=
  match n with
  | O => NoFuel
  | S n' => match st with
            | b :: a :: rest =>
                do d' <- merge d a b;
                finish n' d' (mkRun (r_start a) (r_len a + r_len b) :: rest)
            | _ => Ok d
            end
  end.

(** timsort.c:497-539 PUSH_NEXT: [inl d] when the array is sorted, [inr] otherwise.
    A push onto a full stack (TIM_SORT_STACK_SIZE 128, :66-68) writes outside run_stack. *)
Definition push_next (fuel : nat) (d : list A) (size minrun : nat) (st : list run) (curr : nat)
  : res (list A + list A * list run * nat) :=
  do cr <- count_run fuel d curr size;
  let '(len, d1) := cr in
  do avail <- usub size curr;
  let run := if avail <? minrun then avail else minrun in
  do ld <- (if len <? run
            then do d2 <- insertion_sort_start fuel curr d1 len run; Ok (run, d2)
            else Ok (len, d1));
  let '(len', d2) := ld in
  if 128 <=? length st then UB
  else
    let st' := mkRun curr len' :: st in
    let curr' := curr + len' in
    if curr' =? size then
      do d3 <- finish (S (length st')) d2 st'; Ok (inl d3)
    else Ok (inr (d2, st', curr')).

(** timsort.c:576-586, the main loop. *)
Fixpoint sort_loop (fuel : nat) (d : list A) (size minrun : nat) (st : list run) (curr : nat) : res (list A) :=
  match fuel with
  | O => NoFuel
  | S f =>
      if negb (check_invariant st) then
        do r <- collapse fuel d st size;
        let '(d', st') := r in
        sort_loop f d' size minrun st' curr
      else
        do r <- push_next fuel d size minrun st curr;
        match r with
        | inl d' => Ok d'
        | inr (d', st', curr') => sort_loop f d' size minrun st' curr'
        end
  end.

(** timsort.c:140-151 compute_minrun; 64 - CLZ(size) is the number of bits of size. *)
Definition compute_minrun (size : nat) : nat :=
  let n := Z.of_nat size in
  let shift := (Z.max (Z.log2 n + 1) 6 - 6)%Z in
  let minrun := Z.shiftr n shift in
  Z.to_nat (if (Z.land (Z.shiftl 1 shift - 1) n =? 0)%Z then minrun else (minrun + 1)%Z).

(** timsort.c:541-587 TIM_SORT *)
Definition tim_sort (fuel : nat) (d : list A) : res (list A) :=
  let size := length d in
  if size <=? 1 then Ok d
  else if size <? 64 then insertion_sort fuel d size
  else
    let minrun := compute_minrun size in
    do r1 <- push_next fuel d size minrun [] 0;
    match r1 with
    | inl d1 => Ok d1
    | inr (d1, st1, c1) =>
        do r2 <- push_next fuel d1 size minrun st1 c1;
        match r2 with
        | inl d2 => Ok d2
        | inr (d2, st2, c2) =>
            do r3 <- push_next fuel d2 size minrun st2 c2;
            match r3 with
            | inl d3 => Ok d3
            | inr (d3, st3, c3) => sort_loop fuel d3 size minrun st3 c3
            end
        end
    end.
End Sort.

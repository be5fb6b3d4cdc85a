(** Model of base/builtin/slice.c. *)
From Verif Require Import Base.

(** struct B_slice (base/builtin/slice.h): optional start, stop, step; a NULL
    pointer is [None].  The components are int64 values. *)
Record slice := mkSlice { sl_start : option Z; sl_stop : option Z; sl_step : option Z }.

(** base/builtin/slice.c:38-39 and :45-46, the clamp applied to a given start or stop. *)
Definition clamp_bound (len step x : Z) : Z :=
  if 0 <=? x
  then (if x <? len then x else len - 1 + (if 0 <? step then 1 else 0))
  else (if - len <? x then len + x else 0).

(** base/builtin/slice.c:28-55 normalize_slice: result (start, stop, step, slen).
    C division and remainder truncate, hence Z.quot and Z.rem.  For 32-bit list
    lengths no intermediate result overflows (lemma in P_Slice). *)
Definition normalize_slice (s : slice) (len : Z) : res (Z * Z * Z * Z) :=
  let step := match sl_step s with None => 1 | Some k => k end in
  if step =? 0 then Exn ValueError
  else
    let start := match sl_start s with
                 | None => if 0 <? step then 0 else len - 1
                 | Some x => clamp_bound len step x
                 end in
    let stop := match sl_stop s with
                | None => if 0 <? step then len else -1
                | Some x => clamp_bound len step x
                end in
    let slen :=
      if ((0 <? step) && (stop <=? start)) || ((step <? 0) && (start <=? stop))
      then 0
      else Z.quot (stop - start) step
           + (if Z.rem (stop - start) step =? 0 then 0 else 1) in
    Ok (start, stop, step, slen).

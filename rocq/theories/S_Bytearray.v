(** Specification of bytearrays: a sequence of bytes with Python's meaning of the
    operations.  Independent of the representation in M_Bytearray. *)
From Verif Require Import Base M_Slice S_Slice S_List.

Definition is_byte (x : Z) : Prop := 0 <= x <= 255.

(** Calls on a bytearray.  BTrue is the truth value, BIter a complete for loop, BReversed
    a complete loop over reversed(b); BAdd and BMul give a new bytearray. *)
Inductive bop :=
| BAppend (v : Z) | BInsert (n v : Z) | BSetItem (n v : Z) | BDelItem (n : Z)
| BDelSlice (s : slice) | BReverse
| BGetItem (n : Z) | BGetSlice (s : slice) | BLen | BTrue | BContains (v : Z)
| BIter | BReversed | BCopy | BAdd (ys : list Z) | BMul (n : Z).

(** Result of a call and value of the bytearray after it.  append and insert keep the low
    eight bits of the value (the & 0xff of str.c:2719 and :2726), setitem refuses a value
    that is not a byte. *)
Definition b_spec (xs : list Z) (op : bop) : res (lval Z) * list Z :=
  match op with
  | BAppend v => (Ok VUnit, xs ++ [v mod 256])
  | BInsert n v =>
      let k := Z.to_nat (clampZ 0 (zlen xs) (from_end (zlen xs) n)) in
      (Ok VUnit, firstn k xs ++ (v mod 256) :: skipn k xs)
  | BSetItem n v =>
      match position xs n with
      | Some p => if (0 <=? v) && (v <=? 255) then (Ok VUnit, update_at xs p v)
                  else (Exn ValueError, xs)
      | None => (Exn IndexError, xs)
      end
  | BDelItem n =>
      match position xs n with
      | Some p => (Ok VUnit, remove_at xs p)
      | None => (Exn IndexError, xs)
      end
  | BDelSlice s =>
      match select (length xs) s with
      | None => (Exn ValueError, xs)
      | Some ps => (Ok VUnit, drop_positions xs ps)
      end
  | BReverse => (Ok VUnit, rev xs)
  | BGetItem n =>
      match position xs n with
      | Some p => match nth_error xs p with Some x => (Ok (VElem x), xs) | None => (UB, xs) end
      | None => (Exn IndexError, xs)
      end
  | BGetSlice s => (mapr VSeq (py_slice xs s), xs)
  | BLen => (Ok (VInt (zlen xs)), xs)
  | BTrue => (Ok (VBool (match xs with [] => false | _ => true end)), xs)
  | BContains v => (Ok (VBool (existsb (Z.eqb v) xs)), xs)
  | BIter => (Ok (VSeq xs), xs)
  | BReversed => (Ok (VSeq (rev xs)), xs)
  | BCopy => (Ok (VSeq xs), xs)
  | BAdd ys => (Ok (VSeq (xs ++ ys)), xs)
  | BMul n => (Ok (VSeq (concat (repeat xs (Z.to_nat n)))), xs)
  end.

Fixpoint b_run (xs : list Z) (ops : list bop) : list (res (lval Z)) * list Z :=
  match ops with
  | [] => ([], xs)
  | op :: ops' => let '(o, x1) := b_spec xs op in
                  let '(os, x2) := b_run x1 ops' in (o :: os, x2)
  end.

(** ** The domain on which str.c agrees with this specification *)
Definition bop_ok (xs : list Z) (op : bop) : Prop :=
  match op with
  | BGetSlice s => slice_ok (length xs) s
  | BDelSlice s => 0 <= step_of s
  | BContains v => is_byte v
  | BAdd ys => Forall is_byte ys /\ zlen xs + zlen ys <= 2 ^ 30
  | BMul n => inS 32 n /\ zlen xs * n <= 2 ^ 30
  | _ => True
  end.

Fixpoint bhistory_ok (xs : list Z) (ops : list bop) : Prop :=
  match ops with
  | [] => True
  | op :: ops' => bop_ok xs op /\ small (snd (b_spec xs op)) /\
                  bhistory_ok (snd (b_spec xs op)) ops'
  end.

(** ** Order *)

(** The six comparisons. *)
Inductive cmp := CEq | CNe | CLt | CLe | CGt | CGe.

(** Lexicographic order of byte sequences. *)
Definition before (a b : list Z) : Prop :=
  exists p, (exists y b', a = p /\ b = p ++ y :: b') \/
            (exists x a' y b', a = p ++ x :: a' /\ b = p ++ y :: b' /\ x < y).

Definition means (o : cmp) (a b : list Z) : Prop :=
  match o with
  | CEq => a = b | CNe => a <> b | CLt => before a b | CLe => before a b \/ a = b
  | CGt => before b a | CGe => before b a \/ a = b
  end.

(** Histories after which the bytearray is again followed by a NUL byte: every deletion of
    one element is followed, later, by an append. *)
Fixpoint settled (t : bool) (ops : list bop) : bool :=
  match ops with
  | [] => t
  | BDelItem _ :: ops' => settled false ops'
  | BAppend _ :: ops' => settled true ops'
  | _ :: ops' => settled t ops'
  end.

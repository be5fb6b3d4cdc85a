(** Serialization of object graphs to rows (base/builtin/serialize.c and the
    per-type __serialize__/__deserialize__ functions), of rows to bytes, and of rows
    to database cells (base/rts/rts.c).

    Machine words are numbers in [0, 2^64); the machine is little-endian. *)
From Verif Require Import Base.

(** ** Class ids (base/builtin/registration.h; base/builtin/registration.c:45-110).
    [$register_force(INT_ID, B_int)] is followed by [$register_force(I64_ID, B_int)],
    and each call overwrites the class id stored in the method table, so the class id
    of an [int] object is I64_ID. *)
Definition NONE_ID := 0.
Definition INT_ID := 2.
Definition FLOAT_ID := 3.
Definition BOOL_ID := 5.
Definition STR_ID := 6.
Definition LIST_ID := 7.
Definition DICT_ID := 8.
Definition SET_ID := 9.
Definition RANGE_ID := 10.
Definition TUPLE_ID := 11.
Definition BYTEARRAY_ID := 12.
Definition BYTES_ID := 13.
Definition ITEM_ID := 14.
Definition I64_ID := 57.
Definition U64_ID := 62.
Definition BIGINT_ID := 63.

(** Width in bits of the boxed integer classes i8..u64 and int, and whether they are
    signed (base/builtin/{i8,i16,i32,int,u1,u8,u16,u32,u64}.c). *)
Definition scalar_type (cls : Z) : option (bool * Z) :=
  if cls =? 54 then Some (true, 8) else if cls =? 55 then Some (true, 16)
  else if cls =? 56 then Some (true, 32) else if cls =? 57 then Some (true, 64)
  else if cls =? 58 then Some (false, 8) else if cls =? 59 then Some (false, 8)
  else if cls =? 60 then Some (false, 16) else if cls =? 61 then Some (false, 32)
  else if cls =? 62 then Some (false, 64) else None.

(** Conversion of a word to such a type, e.g. (int8_t)(uintptr_t) in i8.c:49-51. *)
Definition to_scalar (t : bool * Z) (w : Z) : Z :=
  if fst t then wrapS (snd t) w else wrapU (snd t) w.

(** ** Rows (base/builtin/serialize.h: struct $ROW without the next pointer).
    blob_size is the length of [rblob]. *)
Record row := Row { rcls : Z; rblob : list Z }.

(** Little-endian bytes of a number and back. *)
Fixpoint bytes_of (n : nat) (w : Z) : list Z :=
  match n with O => [] | S n' => w mod 256 :: bytes_of n' (w / 256) end.
Fixpoint num_of (l : list Z) : Z :=
  match l with [] => 0 | b :: t => b + 256 * num_of t end.

(** memcpy of bytes into words and of words into bytes.  The bytes after the copied
    ones are those of the freshly allocated row; they are taken to be zero, and no
    reader looks at them. *)
Fixpoint pack (nw : nat) (l : list Z) : list Z :=
  match nw with
  | O => []
  | S k => num_of (firstn 8 l) :: pack k (skipn 8 l)
  end.
Definition unpack (ws : list Z) : list Z := flat_map (bytes_of 8) ws.

(** ** Rows to bytes: base/builtin/serialize.c:289-308 $rows_to_bytes. *)
Definition INT_MAX := 2147483647.

Definition row_bytes (r : row) : list Z :=
  bytes_of 4 (wrapU 32 (rcls r)) ++ bytes_of 4 (wrapU 32 (zlen (rblob r))) ++ unpack (rblob r).

Definition rows_size (rs : list row) : Z :=
  fold_left (fun size r => size + (8 + 8 * zlen (rblob r))) rs 0.

Definition rows_to_bytes (rs : list row) : res (list Z) :=
  if INT_MAX <? rows_size rs then Exn ValueError
  else Ok (flat_map row_bytes rs).

(** Bytes to rows: base/builtin/serialize.c:310-340 $bytes_to_rows; every memcpy from
    the input checks that it stays inside the input. *)
Definition read_bytes (l : list Z) (p n : Z) : res (list Z) :=
  if (0 <=? p) && (0 <=? n) && (p + n <=? zlen l)
  then Ok (firstn (Z.to_nat n) (skipn (Z.to_nat p) l)) else UB.

Fixpoint words_of (n : nat) (l : list Z) : list Z :=
  match n with
  | O => []
  | S k => num_of (firstn 8 l) :: words_of k (skipn 8 l)
  end.

Fixpoint bytes_to_rows_loop (fuel : nat) (data : list Z) (p remaining : Z) (acc : list row)
  : res (list row) :=
  match fuel with
  | O => NoFuel
  | S fuel =>
    if 0 <? remaining then
      if remaining <? 8 then Exn ValueError
      else
        do cb <- read_bytes data p 4;
        do sb <- read_bytes data (p + 4) 4;
        let class_id := wrapS 32 (num_of cb) in
        let blob_size := wrapS 32 (num_of sb) in
        let p := p + 8 in
        let remaining := remaining - 8 in
        if blob_size <? 0 then Exn ValueError
        else
          let blob_bytes := blob_size * 8 in
          if remaining <? blob_bytes then Exn ValueError
          else
            do bb <- read_bytes data p blob_bytes;
            bytes_to_rows_loop fuel data (p + blob_bytes) (remaining - blob_bytes)
              (acc ++ [Row class_id (words_of (Z.to_nat blob_size) bb)])
    else match acc with [] => Exn ValueError | _ => Ok acc end
  end.

Definition bytes_to_rows (data : list Z) : res (list row) :=
  bytes_to_rows_loop (S (length data)) data 0 (zlen data) [].

(** ** Objects in memory.

    References are NULL (None), a pointer to an object, or one of the two marker
    pointers that dict and set tables hold in deleted slots: DELETED = (void * )1
    (base/builtin/dict.c:31) and &_dummy (base/builtin/set.c:21-22), whose first word
    is 0; reading the class id through either is an invalid access. *)
Definition addr := nat.
Inductive ref := RNull | RPtr (a : addr) | RBad.

(** Attribute of an instance: a reference, or an unboxed number of [sz] bytes with
    value [w] in [0, 256^sz), followed in memory by the bytes [g]
    (compiler/lib/src/Acton/CodeGen.hs:563-600: $val_serialize copies eight bytes
    from the address of the attribute whatever its size). *)
Inductive field := FRef (r : ref) | FRaw (cid sz w g : Z).

(** Hash table of a dict (base/builtin/dict.c:15-29): [dt_idx] is the index array,
    two ints per word; [dt_entries] are hash, key and value. *)
Record dtab := DTab {
  dt_size : Z; dt_usable : Z; dt_idx : list Z; dt_entries : list (Z * ref * ref) }.

Inductive obj :=
| OScalar (cls v g : Z)       (* boxed integer; [g]: padding after a narrow value *)
| OFloat (bits : Z)
| OBool (b : bool)
| OStr (nchars : Z) (bytes : list Z)
| OBytes (bytes : list Z)
| OByteArray (bytes : list Z)
| OBig (size : Z) (n : list Z)
| ORange (nxt step remaining : Z)
| OList (elems : list ref)
| OTuple (elems : list ref)
| ODict (numelements : Z) (t : option dtab)   (* no table before the first insertion *)
| OSet (numelements fill mask finger : Z) (table : list (Z * ref))
| OUser (cls : Z) (fields : list field)
| OActor
| OUnreg                      (* class without class id, e.g. complex (registration.c:52) *)
| OHole.                      (* allocated, not yet filled *)

Definition heap := list obj.

(** ** Serializer state: base/builtin/serialize.h struct $Serial$state.  [sdone] is
    the dict from object addresses to row numbers; it is a function here (dicts are
    proved to be maps in T_Dict). *)
Record sst := SSt { srows : list row; srow_no : Z; sdone : addr -> option Z }.

(** base/builtin/serialize.c:73-81 $add_header followed by filling the blob. *)
Definition emit (s : sst) (r : row) : sst :=
  SSt (srows s ++ [r]) (srow_no s + 1) (sdone s).

Definition upd {A} (f : addr -> option A) (a : addr) (v : A) : addr -> option A :=
  fun b => if Nat.eqb b a then Some v else f b.

Definition register (s : sst) (a : addr) : sst :=
  SSt (srows s) (srow_no s) (upd (sdone s) a (srow_no s)).

(** What an object's __serialize__ passes on, in order: references, integers that are
    boxed on the spot ([toB_u64(entry->hash)]), unboxed attributes. *)
Inductive item := IStep (r : ref) | IBox (cls v : Z) | IRaw (cid w : Z).

Definition dict_items (es : list (Z * ref * ref)) : list item :=
  flat_map (fun e => [IBox U64_ID (fst (fst e)); IStep (snd (fst e)); IStep (snd e)]) es.
Definition set_items (es : list (Z * ref)) : list item :=
  flat_map (fun e => [IBox I64_ID (fst e); IStep (snd e)]) es.
Definition field_item (f : field) : item :=
  match f with FRef r => IStep r | FRaw cid sz w g => IRaw cid (wrapU 64 (w + 2 ^ (8 * sz) * g)) end.

(** Class id in the value row of a boxed integer: B_intD___serialize__ writes INT_ID
    (int.c:44-46), the others their own id (e.g. i32.c:45-47). *)
Definition val_cls (cls : Z) : Z := if cls =? I64_ID then INT_ID else cls.
Definition scalar_bits (cls : Z) : Z :=
  match scalar_type cls with Some (_, b) => b | None => 64 end.

Definition nwords (bytes : list Z) : nat := Z.to_nat (zlen bytes / 8 + 1).

Fixpoint ser_list (rec : item -> sst -> res sst) (l : list item) (s : sst) : res sst :=
  match l with
  | [] => Ok s
  | x :: t => do s1 <- rec x s; ser_list rec t s1
  end.

(** base/builtin/serialize.c:83-118 $step_serialize with globmap = NULL (the user-level
    serialize()), together with the __serialize__ methods:
    list.c:123-136, tuple.c:46-58, dict.c:284-306, set.c:252-272, str.c:843-851,
    1901-1907, 2987-2993, range.c:112-116, bigint.c:150-155, int.c:44-46, float.c:64-66,
    bool.c:42-44, and the generated methods of user classes (CodeGen.hs:563-574).
    [fuel] bounds the recursion depth; the C stack is taken to be large enough. *)
Section Ser.
  Variable h : heap.

  (** A reference to an object already written becomes a row with the negated class id
      and the number of the object's row. *)
  Definition shared (cls : Z) (a : addr) (s : sst) (k : sst -> res sst) : res sst :=
    match sdone s a with
    | Some key => Ok (emit s (Row (- cls) [wrapU 64 key]))
    | None => k (register s a)
    end.

  Definition box_rows (cls w : Z) (s : sst) : sst :=
    emit (emit s (Row cls [])) (Row (val_cls cls) [wrapU 64 w]).

  Fixpoint ser (fuel : nat) (it : item) (s : sst) {struct fuel} : res sst :=
    match fuel with
    | O => NoFuel
    | S fuel =>
      match it with
      | IRaw cid w => Ok (emit s (Row cid [w]))
      | IBox cls v => Ok (box_rows cls v s)
      | IStep RNull => Ok (emit s (Row NONE_ID []))
      | IStep RBad => UB
      | IStep (RPtr a) =>
        match nth_error h a with
        | None => UB
        | Some o =>
          match o with
          | OHole => UB
          | OUnreg => Exn ValueError
          | OActor => Exn ValueError
          | OScalar cls v g =>
              shared cls a s (fun s =>
                Ok (box_rows cls (v mod 2 ^ scalar_bits cls + 2 ^ scalar_bits cls * g) s))
          | OFloat bits => Ok (emit s (Row FLOAT_ID [bits]))
          | OBool b => Ok (emit s (Row BOOL_ID [if b then 1 else 0]))
          | OStr nchars bytes =>
              Ok (emit s (Row STR_ID (zlen bytes :: nchars :: pack (nwords bytes) bytes)))
          | OBytes bytes =>
              Ok (emit s (Row BYTES_ID (zlen bytes :: pack (nwords bytes) bytes)))
          | OByteArray bytes =>
              Ok (emit s (Row BYTEARRAY_ID (zlen bytes :: pack (nwords bytes) bytes)))
          | ORange nxt step remaining =>
              ser_list (ser fuel) [IBox I64_ID nxt; IBox I64_ID step; IBox I64_ID remaining] s
          | OBig size n =>
              shared BIGINT_ID a s (fun s =>
                Ok (emit (emit s (Row BIGINT_ID [])) (Row BIGINT_ID (wrapU 64 size :: n))))
          | OList l =>
              shared LIST_ID a s (fun s =>
                ser_list (ser fuel) (map IStep l) (emit s (Row LIST_ID [zlen l])))
          | OTuple l =>
              shared TUPLE_ID a s (fun s =>
                ser_list (ser fuel) (map IStep l) (emit s (Row TUPLE_ID [zlen l])))
          | ODict num t =>
              shared DICT_ID a s (fun s =>
                match t with
                | None => UB
                | Some t =>
                    ser_list (ser fuel) (dict_items (dt_entries t))
                      (emit s (Row DICT_ID (wrapU 64 num :: dt_size t :: wrapU 64 (dt_usable t)
                                            :: zlen (dt_entries t) :: dt_idx t)))
                end)
          | OSet num fill mask finger tab =>
              shared SET_ID a s (fun s =>
                ser_list (ser fuel) (set_items tab)
                  (emit s (Row SET_ID [wrapU 64 num; wrapU 64 fill; wrapU 64 mask; wrapU 64 finger])))
          | OUser cls fields =>
              shared cls a s (fun s =>
                ser_list (ser fuel) (map field_item fields) (emit s (Row cls [])))
          end
        end
      end
    end.
End Ser.

(** base/builtin/serialize.c:192-201 $serialize. *)
Definition serialize (h : heap) (root : ref) : res (list row) :=
  mapr srows (ser h (S (S (length h))) (IStep root) (SSt [] 0 (fun _ => None))).

(** ** Deserializer.  [dheap] holds the objects allocated so far, [ddone] the dict from
    row numbers to objects. *)
Record dst := DSt { drows : list row; drow_no : Z; ddone : Z -> option addr; dheap : heap }.

Definition alloc (d : dst) (o : obj) : addr * dst :=
  (length (dheap d), DSt (drows d) (drow_no d) (ddone d) (dheap d ++ [o])).

(** state->row = this->next; state->row_no++. *)
Definition pop (d : dst) : res (row * dst) :=
  match drows d with
  | [] => UB
  | r :: rest => Ok (r, DSt rest (drow_no d + 1) (ddone d) (dheap d))
  end.

(** B_dictD_setitem(state->done, toB_int(state->row_no-1), res): also in $DNEW
    (base/builtin/common.h:23-26). *)
Definition remember (d : dst) (a : addr) : dst :=
  DSt (drows d) (drow_no d)
      (fun k => if k =? drow_no d - 1 then Some a else ddone d k) (dheap d).

Definition lookup (d : dst) (key : Z) : ref :=
  match ddone d key with Some a => RPtr a | None => RNull end.

Definition write_obj (h : heap) (a : addr) (o : obj) : heap :=
  firstn a h ++ o :: skipn (S a) h.
Definition store (d : dst) (a : addr) (o : obj) : dst :=
  DSt (drows d) (drow_no d) (ddone d) (write_obj (dheap d) a o).

(** What a __deserialize__ method reads next: a reference, a boxed integer that is
    unboxed on the spot, or an unboxed attribute of [sz] bytes. *)
Inductive kind := KStep | KBox | KRaw (cid sz : Z).
Inductive cell := CRef (r : ref) | CNum (z : Z).

Fixpoint des_list (rec : kind -> dst -> res (cell * dst)) (ks : list kind) (d : dst)
  : res (list cell * dst) :=
  match ks with
  | [] => Ok ([], d)
  | k :: t => do (c, d1) <- rec k d; do (cs, d2) <- des_list rec t d1; Ok (c :: cs, d2)
  end.

Definition cell_ref (c : cell) : ref := match c with CRef r => r | CNum _ => RBad end.
Definition cell_num (c : cell) : Z := match c with CRef _ => 0 | CNum z => z end.

Fixpoint cells_entries (cs : list cell) : list (Z * ref * ref) :=
  match cs with
  | h :: k :: v :: t => (cell_num h, cell_ref k, cell_ref v) :: cells_entries t
  | _ => []
  end.
(** set.c:291-295: a slot whose hash is -1 gets the dummy key back. *)
Fixpoint cells_slots (cs : list cell) : list (Z * ref) :=
  match cs with
  | h :: k :: t =>
      (cell_num h, if cell_num h =? -1 then RBad else cell_ref k) :: cells_slots t
  | _ => []
  end.
Fixpoint cells_fields (ks : list kind) (cs : list cell) : list field :=
  match ks, cs with
  | KRaw cid sz :: ks, c :: cs => FRaw cid sz (cell_num c) 0 :: cells_fields ks cs
  | _ :: ks, c :: cs => FRef (cell_ref c) :: cells_fields ks cs
  | _, _ => []
  end.

(** base/builtin/serialize.c:143-150 $val_deserialize. *)
Definition val_deserialize (d : dst) : res (Z * dst) :=
  do (r, d1) <- pop d;
  do w <- orUB (zget (rblob r) 0);
  Ok (w, d1).

(** fromB_int / fromB_u64: read the value of a boxed integer; NULL is an invalid
    access, and so is (conservatively) an object of another class. *)
Definition unbox (d : dst) (r : ref) : res Z :=
  match r with
  | RPtr a => match nth_error (dheap d) a with Some (OScalar _ v _) => Ok v | _ => UB end
  | _ => UB
  end.

(** memcpy of nbytes+1 bytes from word [off] of the blob (str.c:853-868, 1909-1920,
    2995-3005); a negative size is treated as an invalid access. *)
Definition read_string (r : row) (off : nat) : res (list Z) :=
  do nb <- orUB (zget (rblob r) 0);
  let nbytes := wrapS 64 nb in
  let avail := unpack (skipn off (rblob r)) in
  if (0 <=? nbytes) && (nbytes + 1 <=? zlen avail) then Ok (firstn (Z.to_nat nbytes) avail) else UB.

Section Des.
  (** Attribute layout of the registered user classes (what the generated
      __deserialize__ methods read, superclass attributes first). *)
  Variable layout : Z -> option (list kind).

  Definition return_obj (d : dst) (o : obj) : res (ref * dst) :=
    let '(a, d1) := alloc d o in Ok (RPtr a, d1).

  (** Allocate an object, enter it into done, read its parts, fill it in.  The C code
      fills the parts in as they arrive; nothing reads them before the end. *)
  Definition build (rec : kind -> dst -> res (cell * dst)) (d : dst) (ks : list kind)
    (mk : list cell -> obj) : res (ref * dst) :=
    let '(a, d1) := alloc d OHole in
    do (cs, d2) <- des_list rec ks (remember d1 a);
    Ok (RPtr a, store d2 a (mk cs)).

  Definition back_ref (r : row) (d : dst) : res (ref * dst) :=
    do key <- orUB (zget (rblob r) 0);
    Ok (lookup d (wrapS 64 key), d).

  (** base/builtin/serialize.c:120-138 $step_deserialize with globmap = NULL and the
      __deserialize__ methods (same files as for [ser]). *)
  Definition step (rec : kind -> dst -> res (cell * dst)) (d : dst) : res (ref * dst) :=
    do (r, d1) <- pop d;
    let c := rcls r in
    if ITEM_ID <? Z.abs c then
      if c <? 0 then
        do key <- orUB (zget (rblob r) 0);
        if wrapS 64 key <? 0 then UB              (* calls globmap, which is NULL *)
        else back_ref r d1
      else match scalar_type c with
      | Some t =>
          do (w, d2) <- val_deserialize d1;
          return_obj d2 (OScalar c (to_scalar t w) 0)
      | None =>
        if c =? BIGINT_ID then
          let '(a, d2) := alloc d1 OHole in
          let d3 := remember d2 a in
          do (r2, d4) <- pop d3;
          do s <- orUB (zget (rblob r2) 0);
          let size := wrapS 64 s in
          if Z.abs size + 1 <=? zlen (rblob r2)
          then Ok (RPtr a, store d4 a (OBig size (firstn (Z.to_nat (Z.abs size)) (skipn 1 (rblob r2)))))
          else UB
        else match layout c with
        | Some ks => build rec d1 ks (fun cs => OUser c (cells_fields ks cs))
        | None => UB
        end
      end
    else
      let k := Z.abs c in
      if k =? NONE_ID then Ok (RNull, d1)
      else if k =? INT_ID then
        do w <- orUB (zget (rblob r) 0); return_obj d1 (OScalar I64_ID (wrapS 64 w) 0)
      else if k =? FLOAT_ID then
        do w <- orUB (zget (rblob r) 0); return_obj d1 (OFloat w)
      else if k =? BOOL_ID then
        do w <- orUB (zget (rblob r) 0); return_obj d1 (OBool (negb (w =? 0)))
      else if k =? STR_ID then
        do l <- read_string r 2;
        do nc <- orUB (zget (rblob r) 1);
        return_obj d1 (OStr (wrapS 32 nc) l)
      else if k =? BYTES_ID then
        do l <- read_string r 1; return_obj d1 (OBytes l)
      else if k =? BYTEARRAY_ID then
        do l <- read_string r 1; return_obj d1 (OByteArray l)
      else if k =? LIST_ID then
        if c <? 0 then back_ref r d1
        else do n <- orUB (zget (rblob r) 0);
             build rec d1 (repeat KStep (Z.to_nat (wrapS 32 n))) (fun cs => OList (map cell_ref cs))
      else if k =? TUPLE_ID then
        if c <? 0 then back_ref r d1
        else do n <- orUB (zget (rblob r) 0);
             build rec d1 (repeat KStep (Z.to_nat (wrapS 32 n))) (fun cs => OTuple (map cell_ref cs))
      else if k =? DICT_ID then
        if c <? 0 then back_ref r d1
        else match rblob r with
        | num :: size :: usable :: nent :: idx =>
            let words := (wrapS 64 size + 1) * 4 / 8 in
            if (0 <=? wrapS 64 size) && (words <=? zlen idx)
               && (wrapS 64 nent <=? 2 * wrapS 64 size / 3) then
              build rec d1 (concat (repeat [KBox; KStep; KStep] (Z.to_nat (wrapS 64 nent))))
                (fun cs => ODict (wrapS 64 num)
                   (Some (DTab (wrapS 64 size) (wrapS 64 usable) (firstn (Z.to_nat words) idx)
                               (cells_entries cs))))
            else UB
        | _ => UB
        end
      else if k =? SET_ID then
        if c <? 0 then back_ref r d1
        else match rblob r with
        | num :: fill :: mask :: finger :: _ =>
            build rec d1 (concat (repeat [KBox; KStep] (Z.to_nat (wrapS 64 mask + 1))))
              (fun cs => OSet (wrapS 64 num) (wrapS 64 fill) (wrapS 64 mask) (wrapS 64 finger)
                              (cells_slots cs))
        | _ => UB
        end
      else UB.                                    (* no method table, or range *)

  Fixpoint des (fuel : nat) (k : kind) (d : dst) {struct fuel} : res (cell * dst) :=
    match fuel with
    | O => NoFuel
    | S fuel =>
      match k with
      | KRaw _ sz => do (w, d1) <- val_deserialize d; Ok (CNum (w mod 2 ^ (8 * sz)), d1)
      | KStep => do (r, d1) <- step (des fuel) d; Ok (CRef r, d1)
      | KBox => do (r, d1) <- step (des fuel) d; do v <- unbox d1 r; Ok (CNum v, d1)
      end
    end.

  (** base/builtin/serialize.c:217-226 $deserialize. *)
  Definition deserialize (rows : list row) : res (heap * ref) :=
    do (r, d) <- step (des (S (length rows))) (DSt rows 0 (fun _ => None) []);
    Ok (dheap d, r).
End Des.

(** base/builtin/serialize.c:344-350: the builtins serialize() and deserialize(). *)
Definition B_serialize (h : heap) (root : ref) : res (list Z) :=
  do rows <- serialize h root; rows_to_bytes rows.
Definition B_deserialize (layout : Z -> option (list kind)) (data : list Z) : res (heap * ref) :=
  do rows <- bytes_to_rows data; deserialize layout rows.

(** ** Rows in database cells. *)

(** The first word of a packed row: two ints (base/rts/rts.c:1217-1220 struct BlobHd). *)
Definition head_word (r : row) : Z := wrapU 32 (rcls r) + 2 ^ 32 * wrapU 32 (zlen (rblob r)).

(** base/rts/rts.c:1451-1458 $total_rowsize. *)
Definition total_rowsize (rs : list row) : Z :=
  fold_left (fun size r => size + (1 + zlen (rblob r))) rs 0.

(** Number of characters printf writes for %lu. *)
Fixpoint dec_len (fuel : nat) (w : Z) : Z :=
  match fuel with O => 1 | S f => if w <? 10 then 1 else 1 + dec_len f (w / 10) end.

(** The debug text "w1 w2 ... ." that insert_row and print_rows build in char b[1024]
    with unbounded sprintf: invalid when text and terminating 0 do not fit
    (base/rts/rts.c:1476-1480, 1247-1252). *)
Definition debug_text (width : Z -> Z) (ws : list Z) : res unit :=
  if fold_left (fun len w => len + (width w + 1)) ws 0 + 2 <=? 1024 then Ok tt else UB.
Definition width_lu (w : Z) : Z := dec_len 20 w.
Definition width_ld (w : Z) : Z :=
  if wrapS 64 w <? 0 then 1 + dec_len 20 (- wrapS 64 w) else dec_len 20 w.

(** base/rts/rts.c:1244-1258 print_rows: each row is formatted into the 1024-byte
    buffer, whether or not debug printing is enabled. *)
Fixpoint print_rows (rs : list row) : res unit :=
  match rs with
  | [] => Ok tt
  | r :: t => do _ <- debug_text width_ld (rblob r); print_rows t
  end.

(** base/rts/rts.c:1461-1494 insert_row up to the database call: the result is the
    array of words handed to the database.  Writing past [total] words is invalid. *)
Definition insert_row (total : Z) (rs : list row) : res (list Z) :=
  let blob := flat_map (fun r => head_word r :: rblob r) rs in
  if zlen blob <=? total then
    do _ <- debug_text width_lu blob; Ok blob
  else UB.

(** base/rts/rts.c:1496-1506: serialize_msg, serialize_actor for one object. *)
Definition store_rows (rs : list row) : res (list Z) :=
  do _ <- print_rows rs; insert_row (total_rowsize rs) rs.

(** base/rts/rts.c:1222-1242 extract_row; [blob] is the cell, whose size in words is
    its length. *)
Fixpoint extract_loop (fuel : nat) (blob : list Z) (words_left : Z) (acc : list row)
  : res (list row) :=
  match fuel with
  | O => NoFuel
  | S fuel =>
    match blob with
    | [] => UB
    | w :: rest =>
      let class_id := wrapS 32 w in
      let blob_size := wrapS 32 (w / 2 ^ 32) in
      if (0 <=? blob_size) && (blob_size <=? zlen rest) then
        let acc := acc ++ [Row class_id (firstn (Z.to_nat blob_size) rest)] in
        let words_left := words_left - (1 + blob_size) in
        if words_left =? 0 then Ok acc
        else extract_loop fuel (skipn (Z.to_nat blob_size) rest) words_left acc
      else UB
    end
  end.

Definition extract_row (blob : list Z) : res (list row) :=
  let words_left := wrapS 32 (zlen blob) in
  if words_left =? 0 then Ok []
  else extract_loop (S (length blob)) blob words_left [].

(** C84: JSON documents. *)
From Verif Require Import Base P_Base M_Str S_Str S_Bigint M_Bigint T_Bigint P_BigStr S_Xml M_Xml P_Xml P_Xml2 S_Json M_Json P_Json.
From Coq Require Import ZifyBool ZifyNat.

(** With a library that reads what it writes: decoding the encoding of a dict gives the
    same dict, in the same order; only the types of integers may change.  So for lists. *)
Theorem C84_roundtrip write read (pretty as_string : bool) d :
  faithful (write pretty) read ->
  json_ok (if as_string then fun z => Z.abs z < 10 ^ 18 \/ 2 ^ 64 <= Z.abs z else big_ok) (VDict d) ->
  exists v, (do s <- encode write d pretty as_string; decode read s) = Ok v /\ same as_string (VDict d) v.
Proof.
  intros F H. destruct (value_trip as_string _ H) as (y & w & v & E & R & D & S & (l & L)). subst w.
  destruct (F _ _ R) as (t & Wt & Nt & Rt). exists v. split; [|exact S]. unfold encode. rewrite E. cbn [bindr]. rewrite Wt. cbn [bindr].
  unfold decode, to_str. cbn [sbytes]. rewrite !(cut_id t Nt), Rt. exact D.
Qed.
Print Assumptions C84_roundtrip.

Theorem C84_list_roundtrip write read (pretty as_string : bool) d :
  faithful (write pretty) read ->
  json_ok (if as_string then fun z => Z.abs z < 10 ^ 18 \/ 2 ^ 64 <= Z.abs z else big_ok) (VList d) ->
  exists v, (do s <- encode_list write d pretty as_string; decode_list read s) = Ok v /\ same as_string (VList d) v.
Proof.
  intros F H. destruct (value_trip as_string _ H) as (y & w & v & E & R & D & S & (l & L)). subst w.
  destruct (F _ _ R) as (t & Wt & Nt & Rt). exists v. split; [|exact S]. unfold encode_list. rewrite E. cbn [bindr]. rewrite Wt. cbn [bindr].
  unfold decode_list, to_str. cbn [sbytes]. rewrite !(cut_id t Nt), Rt. exact D.
Qed.
Print Assumptions C84_list_roundtrip.

(** A value of a type JSON does not have, however deep inside, raises ValueError; and
    otherwise there is a document. *)
Theorem C84_unsupported_refused write (pretty as_string : bool) d : printable (VDict d) -> unsupported (VDict d) ->
  encode write d pretty as_string = Exn ValueError.
Proof. intros P U. unfold encode. rewrite (proj1 (encode_total as_string _ P) U). reflexivity. Qed.
Print Assumptions C84_unsupported_refused.
Theorem C84_supported_encoded (as_string : bool) d : printable (VDict d) -> ~ unsupported (VDict d) ->
  exists y, encode_value as_string (VDict d) = Ok y.
Proof. intros P U. apply (encode_total as_string _ P). exact U. Qed.
Print Assumptions C84_supported_encoded.

(** Of members with the same name the last one counts; there are no others. *)
Theorem C84_last_member_counts read s l r :
  read (cut (sbytes s)) = Some (YObj l) -> Forall (fun e => no_nul (fst e)) l -> decode read s = Ok (VDict r) ->
  forall k v, get k r = Some v <->
    exists l1 y l2, l = l1 ++ (k, y) :: l2 /\ (forall y', ~ In (k, y') l2) /\ decode_value y = Ok v.
Proof.
  intros R N D k v. unfold decode in D. rewrite R in D.
  assert (E : dec_dict l [] = Ok r).
  { change (decode_value (YObj l)) with (do d <- dec_dict l []; Ok (VDict d)) in D. destruct (dec_dict l []); try discriminate. injection D as <-. reflexivity. }
  destruct (dec_dict_get l N [] r E k) as [[A B]|(l1 & y & l2 & v' & -> & A & B & C)].
  - split; [rewrite B; discriminate|]. intros (l1 & y & l2 & -> & _). exfalso. apply (A y). apply in_elt.
  - rewrite C. split.
    + intros K. injection K as <-. eauto 6.
    + intros (m1 & z & m2 & E2 & Z & Dz).
      assert (Same : (l1, y, l2) = (m1, z, m2)).
      { clear - E2 A Z. revert m1 E2. induction l1 as [|e l1 IH]; intros [|e' m1] E2; cbn [app] in E2; injection E2.
        - intros -> ->. reflexivity.
        - intros K1 K2. subst. exfalso. apply (A z). apply in_elt.
        - intros K1 K2. subst. exfalso. apply (Z y). apply in_elt.
        - intros K1 ->. specialize (IH _ K1). injection IH as -> -> ->. reflexivity. }
      injection Same as -> -> ->. rewrite B in Dz. injection Dz as ->. reflexivity.
Qed.
Print Assumptions C84_last_member_counts.

(** What is no JSON is refused, and so is by decode_list what is no array. *)
Theorem C84_no_array_refused read s : (forall l, read (cut (sbytes s)) <> Some (YArr l)) ->
  decode_list read s = Exn ValueError.
Proof. intros N. unfold decode_list. destruct (read (cut (sbytes s))) as [y|] eqn:R; [|reflexivity]. destruct y; try reflexivity. exfalso. exact (N _ eq_refl). Qed.
Print Assumptions C84_no_array_refused.
Theorem C84_no_json_refused read s : read (cut (sbytes s)) = None -> decode read s = Exn ValueError.
Proof. intros N. unfold decode. rewrite N. reflexivity. Qed.
Print Assumptions C84_no_json_refused.

(** ** What does not hold *)

(** A document that is not an object is taken for an empty one. *)
Theorem C84_other_root_refuted read s y : read (cut (sbytes s)) = Some y -> (forall l, y <> YObj l) ->
  decode read s = Ok (VDict []).
Proof. intros R N. unfold decode. rewrite R. destruct y; try reflexivity. exfalso. exact (N _ eq_refl). Qed.
Print Assumptions C84_other_root_refuted.

(** Infinities and NaNs: yyjson refuses to write them, and the code uses the result all the same. *)
Theorem C84_infinite_refuted write pretty as_string k r :
  (forall k, write pretty (YObj [(k, YReal r)]) = None) -> encode write [(k, VFloat r)] pretty as_string = UB.
Proof. intros W. unfold encode. cbn. rewrite W. reflexivity. Qed.
Print Assumptions C84_infinite_refuted.

(** Strings are cut at the character NUL. *)
Theorem C84_nul_refuted : encode_value false (VStr (Str 3 [97; 0; 98])) = encode_value false (VStr (Str 1 [97])).
Proof. reflexivity. Qed.
Print Assumptions C84_nul_refuted.

(** Big integers from 10^18 to 2^64 are written beyond a buffer; a negative number of 36
    digits comes back positive. *)
Theorem C84_bigint_refuted :
  (forall z b, 10 ^ 18 <= Z.abs z < 2 ^ 64 -> encode_value b (VBig z) = UB) /\
  (do y <- encode_value false (VBig (- 10 ^ 35)); decode_value y) = Ok (VBig (10 ^ 35)).
Proof.
  split; [|vm_compute; reflexivity]. intros z b H. cbn [encode_value]. unfold encode_bigint. rewrite (C59_str_refuted z H). reflexivity.
Qed.
Print Assumptions C84_bigint_refuted.

(** ** A library as required: tags, lengths and contents, as odd numbers. *)
Definition odd (z : Z) : Z := 2 * z + 1.
Fixpoint ser (y : yy) : list Z :=
  match y with
  | YNull => [0]
  | YBool b => [1; if b then 1 else 0]
  | YUint z | YSint z => [2; z]
  | YRaw s => 3 :: zlen s :: s
  | YReal r => [4; r]
  | YStr s => 5 :: zlen s :: s
  | YArr l => 6 :: zlen l :: (fix go l := match l with [] => [] | y :: l' => ser y ++ go l' end) l
  | YObj l => 7 :: zlen l :: (fix go l := match l with [] => [] | (k, y) :: l' => zlen k :: k ++ ser y ++ go l' end) l
  end.
Definition number (z : Z) : yy := if 0 <=? z then YUint z else YSint z.
Definition rawval (s : list Z) : Z := match s with c :: ds => if c =? 45 then - dv 10 ds else dv 10 s | [] => 0 end.
Definition in_word (z : Z) : bool := (- 2 ^ 63 <=? z) && (z <? 2 ^ 64).
Fixpoint parse (fuel : nat) (s : list Z) : option (yy * list Z) :=
  match fuel with
  | O => None
  | S f =>
      let arr := fix go (n : nat) (s : list Z) :=
        match n with
        | O => Some ([], s)
        | S n => match parse f s with Some (y, s) => match go n s with Some (l, s) => Some (y :: l, s) | None => None end | None => None end
        end in
      let obj := fix go (n : nat) (s : list Z) :=
        match n with
        | O => Some ([], s)
        | S n =>
            match s with
            | k :: s =>
                match parse f (skipn (Z.to_nat k) s) with
                | Some (y, s') => match go n s' with Some (l, s') => Some ((firstn (Z.to_nat k) s, y) :: l, s') | None => None end
                | None => None
                end
            | [] => None
            end
        end in
      match s with
      | t :: s =>
          if t =? 0 then Some (YNull, s)
          else match s with
               | x :: s =>
                   if t =? 1 then Some (YBool (x =? 1), s)
                   else if t =? 2 then Some (number x, s)
                   else if t =? 3 then
                     let r := firstn (Z.to_nat x) s in
                     Some (if in_word (rawval r) then number (rawval r) else YRaw r, skipn (Z.to_nat x) s)
                   else if t =? 4 then Some (YReal x, s)
                   else if t =? 5 then Some (YStr (firstn (Z.to_nat x) s), skipn (Z.to_nat x) s)
                   else if t =? 6 then match arr (Z.to_nat x) s with Some (l, s) => Some (YArr l, s) | None => None end
                   else if t =? 7 then match obj (Z.to_nat x) s with Some (l, s) => Some (YObj l, s) | None => None end
                   else None
               | [] => None
               end
      | [] => None
      end
  end.
Definition write_toy (_ : bool) (y : yy) : option (list Z) := Some (map odd (ser y)).
Definition read_toy (t : list Z) : option yy :=
  match parse (S (length t)) (map (fun z => (z - 1) / 2) t) with Some (y, []) => Some y | _ => None end.

Lemma decimal_rawval z s : decimal z s -> rawval s = z.
Proof.
  intros (ds & v & N & F & _ & C). apply numeral_iff in N; [|lia]. destruct N as (N & _ & ->).
  destruct C as [(_ & -> & ->)|(_ & -> & ->)]; [|reflexivity]. destruct ds as [|c ds]; [contradiction|]. unfold rawval.
  inversion F; subst. replace (c =? 45) with false by lia. reflexivity.
Qed.
Lemma firstn_len {A} (a b : list A) : firstn (length a) (a ++ b) = a.
Proof. rewrite firstn_app, Nat.sub_diag, firstn_all. apply app_nil_r. Qed.
Lemma to_nat_zlen {A} (l : list A) : Z.to_nat (zlen l) = length l.
Proof. unfold zlen. lia. Qed.
Lemma word_number z w : word z w -> number z = w /\ in_word z = true.
Proof. unfold number, in_word. intros [[H ->]|[H ->]]; [replace (0 <=? z) with true by lia|replace (0 <=? z) with false by lia]; split; try reflexivity; lia. Qed.

Lemma yy_ind2 (P : yy -> Prop) :
  (forall y, match y with YArr _ | YObj _ => False | _ => True end -> P y) ->
  (forall l, Forall P l -> P (YArr l)) -> (forall l, Forall (fun e => P (snd e)) l -> P (YObj l)) -> forall y, P y.
Proof.
  intros H1 H2 H3. fix IH 1. intros y. destruct y as [|b|z|z|r|s|s|l|l]; try (apply H1; exact I).
  - apply H2. induction l as [|v l IHl]; constructor; [apply IH|exact IHl].
  - apply H3. induction l as [|[k v] l IHl]; constructor; [apply IH|exact IHl].
Qed.
Lemma parse_ser y : forall w fuel rest, reads_as y w -> (length (ser y) <= fuel)%nat -> parse fuel (ser y ++ rest) = Some (w, rest).
Proof.
  induction y as [y A|l IH|l IH] using yy_ind2; intros w fuel rest R L.
  - destruct y as [|b|z|z|r|s|s|l|l]; try contradiction; (destruct fuel as [|fuel]; [cbn in L; lia|]); cbn [ser app parse].
    + inversion R; subst. reflexivity.
    + inversion R; subst. destruct b; reflexivity.
    + inversion R as [| |? ? W| | | | | | |]; subst. destruct (word_number _ _ W) as [-> _]. reflexivity.
    + inversion R as [| | |? ? W| | | | | |]; subst. destruct (word_number _ _ W) as [-> _]. reflexivity.
    + inversion R; subst. reflexivity.
    + inversion R; subst. change (5 =? 0) with false. change (5 =? 1) with false. change (5 =? 2) with false. change (5 =? 3) with false. change (5 =? 4) with false. change (5 =? 5) with true. cbv beta iota.
      rewrite to_nat_zlen, firstn_len, skipn_len. reflexivity.
    + change (3 =? 0) with false. change (3 =? 1) with false. change (3 =? 2) with false. change (3 =? 3) with true. cbv beta iota zeta.
      rewrite to_nat_zlen, firstn_len, skipn_len. inversion R as [| | | |z ? ? D W|z ? D B| | | |]; subst.
      * rewrite (decimal_rawval _ _ D). destruct (word_number _ _ W) as [-> ->]. reflexivity.
      * rewrite (decimal_rawval _ _ D). unfold in_word. replace (_ && _) with false by lia. reflexivity.
  - inversion R as [| | | | | | | |? m F|]; subst. destruct fuel as [|fuel]; [cbn in L; lia|]. cbn [ser app parse].
    change (6 =? 0) with false. change (6 =? 1) with false. change (6 =? 2) with false. change (6 =? 3) with false. change (6 =? 4) with false. change (6 =? 5) with false. change (6 =? 6) with true. cbv beta iota zeta.
    rewrite to_nat_zlen. cbn [ser length] in L.
    assert (L' : (length ((fix go l := match l with [] => [] | y :: l' => ser y ++ go l' end) l) <= fuel)%nat) by lia. clear L R.
    match goal with |- match ?e with _ => _ end = _ => assert (K : e = Some (m, rest)) end; [|rewrite K; reflexivity].
    revert m F L'. induction IH as [|y l Hy _ IHl]; intros m F L'; inversion F as [|? w ? ws Hw Hws]; subst; [reflexivity|].
    cbn [length] in *. rewrite app_length in L'. rewrite <- app_assoc. rewrite (Hy w fuel _ Hw) by lia. rewrite (IHl ws Hws) by lia. reflexivity.
  - inversion R as [| | | | | | | | |? m F]; subst. destruct fuel as [|fuel]; [cbn in L; lia|]. cbn [ser app parse].
    change (7 =? 0) with false. change (7 =? 1) with false. change (7 =? 2) with false. change (7 =? 3) with false. change (7 =? 4) with false. change (7 =? 5) with false. change (7 =? 6) with false. change (7 =? 7) with true. cbv beta iota zeta.
    rewrite to_nat_zlen. cbn [ser length] in L.
    assert (L' : (length ((fix go l := match l with [] => [] | (k, y) :: l' => zlen k :: k ++ ser y ++ go l' end) l) <= fuel)%nat) by lia. clear L R.
    match goal with |- match ?e with _ => _ end = _ => assert (K : e = Some (m, rest)) end; [|rewrite K; reflexivity].
    revert m F L'. induction IH as [|[k y] l Hy _ IHl]; intros m F L'; inversion F as [|? [k' w] ? ws [Hk [_ Hw]] Hws]; subst; [reflexivity|]. cbn [fst snd] in *. subst k'.
    cbn [length app] in *. rewrite !app_length in L'. rewrite <- !app_assoc. rewrite to_nat_zlen, skipn_len, firstn_len. rewrite (Hy w fuel _ Hw) by lia. rewrite (IHl ws Hws) by lia. reflexivity.
Qed.
Example C84_library : forall pretty, faithful (write_toy pretty) read_toy.
Proof.
  intros pretty v w R. exists (map odd (ser v)). split; [reflexivity|]. split.
  - apply Forall_map. apply Forall_forall. intros z _. unfold odd. lia.
  - unfold read_toy. rewrite map_map, map_length. replace (map (fun x => (odd x - 1) / 2) (ser v)) with (ser v).
    + pose proof (parse_ser v w (S (length (ser v))) [] R ltac:(lia)) as P. rewrite app_nil_r in P. rewrite P. reflexivity.
    + rewrite <- (map_id (ser v)) at 1. apply map_ext. intros z. unfold odd. replace (2 * z + 1 - 1) with (z * 2) by lia. symmetry. apply Z.div_mul. lia.
Qed.

(** {"a": [1, 10^20, null, "é"], "b": 200 as u8} *)
Definition sample : list (str * value) :=
  [(Str 1 [97], VList [VInt 1; VBig (10 ^ 20); VNone; VStr (Str 1 [195;169])]); (Str 1 [98], VFixed KU8 200)].
Example C84_sample : json_ok big_ok (VDict sample) /\
  (do s <- encode write_toy sample true false; decode read_toy s) =
  Ok (VDict [(Str 1 [97], VList [VInt 1; VBig (10 ^ 20); VNone; VStr (Str 1 [195;169])]); (Str 1 [98], VInt 200)]).
Proof.
  assert (C : forall c, uchar c -> c <> [0] -> cstring (Str 1 c)).
  { intros c Hc Hn. exists [c]. split; [constructor; [exact Hc|constructor]|]. split; [constructor; [exact Hn|constructor]|]. unfold ustr. cbn [concat]. rewrite app_nil_r. reflexivity. }
  split; [|vm_compute; reflexivity].
  apply J_dict; [repeat constructor; cbn; intuition discriminate|]. constructor; [|constructor; [|constructor]]; cbn [fst snd]; (split; [apply C; [cbn; lia|discriminate]|]).
  - apply J_list. constructor; [apply J_int; lia|]. constructor; [apply J_big; split; [right; vm_compute; discriminate|intros K; exfalso; vm_compute in K; discriminate]|].
    constructor; [constructor|]. constructor; [|constructor]. constructor. apply C; [cbn; unfold cont; lia|discriminate].
  - constructor. cbn. lia.
Qed.
Example C84_unsupported : printable (VDict [(Str 1 [97], VList [VInt 1; VOther])]) /\ unsupported (VDict [(Str 1 [97], VList [VInt 1; VOther])]).
Proof.
  split; [repeat (apply P_dict || apply P_list || apply P_atom || constructor)|]. apply U_dict. left. cbn. constructor. right. left. constructor.
Qed.

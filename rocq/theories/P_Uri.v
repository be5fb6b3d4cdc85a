(** Lemmas about uri.act. *)
From Verif Require Import Base P_Base P_Bmh S_Uri M_Uri.
From Coq Require Import Lia ZifyBool.
Open Scope Z_scope.

(** UTF-8. *)
Lemma iterate_utf8 c r : scalar c -> iterate (utf8 c ++ r) = Some (c, r).
Proof.
  intros H. unfold utf8, scalar in *.
  destruct (Z.ltb_spec c 128). { cbn. destruct (Z.ltb_spec c 128); [auto|lia]. }
  destruct (Z.ltb_spec c 2048).
  { cbn [app iterate]. pose proof (Z.div_mod c 64 ltac:(lia)). pose proof (Z.mod_pos_bound c 64 ltac:(lia)).
    unfold cont. assert (2 <= c / 64 < 32) by (split; [apply Z.div_le_lower_bound|apply Z.div_lt_upper_bound]; lia).
    set (q := c / 64) in *. set (m := c mod 64) in *.
    repeat match goal with |- context [?a <? ?b] => destruct (Z.ltb_spec a b); try lia
                         | |- context [?a <=? ?b] => destruct (Z.leb_spec a b); try lia end.
    cbn [andb]. do 2 f_equal. lia. }
  destruct (Z.ltb_spec c 65536).
  { cbn [app iterate]. pose proof (Z.div_mod c 64 ltac:(lia)). pose proof (Z.mod_pos_bound c 64 ltac:(lia)).
    replace (c / 4096) with (c / 64 / 64) by (rewrite Z.div_div by lia; auto).
    set (q := c / 64) in *. set (m := c mod 64) in *.
    pose proof (Z.div_mod q 64 ltac:(lia)). pose proof (Z.mod_pos_bound q 64 ltac:(lia)).
    assert (0 <= q / 64 < 16) by (split; [apply Z.div_le_lower_bound|apply Z.div_lt_upper_bound]; lia).
    set (q2 := q / 64) in *. set (m2 := q mod 64) in *. unfold cont.
    repeat match goal with |- context [?a <? ?b] => destruct (Z.ltb_spec a b); try lia
                         | |- context [?a <=? ?b] => destruct (Z.leb_spec a b); try lia end;
    cbn [andb negb]; do 2 f_equal; lia. }
  cbn [app iterate]. pose proof (Z.div_mod c 64 ltac:(lia)). pose proof (Z.mod_pos_bound c 64 ltac:(lia)).
  replace (c / 4096) with (c / 64 / 64) by (rewrite Z.div_div by lia; auto).
  replace (c / 262144) with (c / 64 / 64 / 64) by (rewrite !Z.div_div by lia; auto).
  set (q := c / 64) in *. set (m := c mod 64) in *.
  pose proof (Z.div_mod q 64 ltac:(lia)). pose proof (Z.mod_pos_bound q 64 ltac:(lia)).
  set (q2 := q / 64) in *. set (m2 := q mod 64) in *.
  pose proof (Z.div_mod q2 64 ltac:(lia)). pose proof (Z.mod_pos_bound q2 64 ltac:(lia)).
  assert (0 <= q2 / 64 < 5) by (split; [apply Z.div_le_lower_bound|apply Z.div_lt_upper_bound]; lia).
  set (q3 := q2 / 64) in *. set (m3 := q2 mod 64) in *. unfold cont.
  repeat match goal with |- context [?a <? ?b] => destruct (Z.ltb_spec a b); try lia
                       | |- context [?a <=? ?b] => destruct (Z.leb_spec a b); try lia end;
  cbn [andb negb]; do 2 f_equal; lia.
Qed.

Lemma div_u a b q r : 0 < b -> a = b * q + r -> 0 <= r < b -> a / b = q /\ a mod b = r.
Proof. intros. assert (a / b = q) by (symmetry; apply (Z.div_unique a b q r); lia). split; auto. rewrite Z.mod_eq by lia. lia. Qed.

Lemma iterate_inv bs c r : Forall (fun b => 0 <= b < 256) bs -> iterate bs = Some (c, r) -> scalar c /\ bs = utf8 c ++ r.
Proof.
  intros F. unfold iterate. destruct bs as [|b bs]; [discriminate|]. inversion F as [|? ? B F']; subst. unfold scalar, utf8.
  destruct (Z.ltb_spec b 128). { intros E. inversion E; subst. split. lia. destruct (Z.ltb_spec c 128); [auto|lia]. }
  destruct (Z.ltb_spec b 194). discriminate.
  destruct (Z.ltb_spec b 224).
  { destruct bs as [|b1 bs]; [discriminate|]. unfold cont. destruct (_ && _) eqn:C; [|discriminate]. intros E. inversion E; subst; clear E.
    set (c := (b - 192) * 64 + (b1 - 128)). destruct (div_u c 64 (b - 192) (b1 - 128)) as [-> ->]; try lia.
    split. lia. destruct (Z.ltb_spec c 128); [lia|]. destruct (Z.ltb_spec c 2048); [|lia]. cbn [app]. repeat f_equal; lia. }
  destruct (Z.ltb_spec b 240).
  { destruct bs as [|b1 [|b2 bs]]; try discriminate. unfold cont. destruct (_ && _) eqn:C; [|discriminate]. intros E. inversion E; subst; clear E.
    set (c := (b - 224) * 4096 + (b1 - 128) * 64 + (b2 - 128)) in *.
    destruct (div_u c 64 ((b - 224) * 64 + (b1 - 128)) (b2 - 128)) as [D1 M1]; try lia.
    destruct (div_u ((b - 224) * 64 + (b1 - 128)) 64 (b - 224) (b1 - 128)) as [D2 M2]; try lia.
    replace (c / 4096) with (c / 64 / 64) by (rewrite Z.div_div by lia; auto). rewrite D1, M1, D2, M2.
    split. lia. destruct (Z.ltb_spec c 128); [lia|]. destruct (Z.ltb_spec c 2048); [lia|]. destruct (Z.ltb_spec c 65536); [|lia]. cbn [app]. repeat f_equal; lia. }
  destruct (Z.ltb_spec b 245); [|discriminate].
  destruct bs as [|b1 [|b2 [|b3 bs]]]; try discriminate. unfold cont. destruct (_ && _) eqn:C; [|discriminate]. intros E. inversion E; subst; clear E.
  set (c := (b - 240) * 262144 + (b1 - 128) * 4096 + (b2 - 128) * 64 + (b3 - 128)) in *.
  destruct (div_u c 64 ((b - 240) * 4096 + (b1 - 128) * 64 + (b2 - 128)) (b3 - 128)) as [D1 M1]; try lia.
  destruct (div_u ((b - 240) * 4096 + (b1 - 128) * 64 + (b2 - 128)) 64 ((b - 240) * 64 + (b1 - 128)) (b2 - 128)) as [D2 M2]; try lia.
  destruct (div_u ((b - 240) * 64 + (b1 - 128)) 64 (b - 240) (b1 - 128)) as [D3 M3]; try lia.
  replace (c / 4096) with (c / 64 / 64) by (rewrite Z.div_div by lia; auto).
  replace (c / 262144) with (c / 64 / 64 / 64) by (rewrite !Z.div_div by lia; auto). rewrite D1, M1, D2, M2, D3.
  split. lia. destruct (Z.ltb_spec c 128); [lia|]. destruct (Z.ltb_spec c 2048); [lia|]. destruct (Z.ltb_spec c 65536); [lia|]. cbn [app]. repeat f_equal; lia.
Qed.

Lemma utf8_bytes c : scalar c -> Forall (fun b => 0 <= b < 256) (utf8 c).
Proof.
  intros H. unfold utf8, scalar in *.
  pose proof (Z.mod_pos_bound c 64 ltac:(lia)). pose proof (Z.mod_pos_bound (c / 64) 64 ltac:(lia)). pose proof (Z.mod_pos_bound (c / 4096) 64 ltac:(lia)).
  destruct (Z.ltb_spec c 128). repeat constructor; lia.
  destruct (Z.ltb_spec c 2048).
  { assert (0 <= c / 64 < 32) by (split; [apply Z.div_le_lower_bound|apply Z.div_lt_upper_bound]; lia). repeat constructor; lia. }
  destruct (Z.ltb_spec c 65536).
  { assert (0 <= c / 4096 < 16) by (split; [apply Z.div_le_lower_bound|apply Z.div_lt_upper_bound]; lia). repeat constructor; lia. }
  assert (0 <= c / 262144 < 5) by (split; [apply Z.div_le_lower_bound|apply Z.div_lt_upper_bound]; lia). repeat constructor; lia.
Qed.
Lemma utf8_head c : scalar c -> exists b l, utf8 c = b :: l /\ (b = 0 <-> c = 0).
Proof.
  intros H. unfold utf8, scalar in *. destruct (Z.ltb_spec c 128). eexists _, _; split; [reflexivity|lia].
  destruct (Z.ltb_spec c 2048). { eexists _, _; split; [reflexivity|]. assert (0 <= c / 64) by (apply Z.div_pos; lia). lia. }
  destruct (Z.ltb_spec c 65536). { eexists _, _; split; [reflexivity|]. assert (0 <= c / 4096) by (apply Z.div_pos; lia). lia. }
  eexists _, _; split; [reflexivity|]. assert (0 <= c / 262144) by (apply Z.div_pos; lia). lia.
Qed.
Lemma encode_bytes t : is_text t -> Forall (fun b => 0 <= b < 256) (bytes_of t).
Proof. unfold bytes_of. induction 1; cbn [flat_map]; auto. apply Forall_app. split; auto. apply utf8_bytes. auto. Qed.

(** Decoding. *)
Lemma decode_text t : forall fuel, is_text t -> ~ In 0 t -> (length (bytes_of t) < fuel)%nat -> decode fuel (bytes_of t) = Ok t.
Proof.
  unfold bytes_of. induction t as [|c t IH]; intros fuel H N L; cbn [flat_map]; destruct fuel; try lia; cbn [decode]; auto.
  inversion H as [|? ? Hc Ht]; subst. destruct (utf8_head c Hc) as (b & l & E & Z). cbn [flat_map] in L. rewrite E in L |- *. cbn [app].
  destruct (Z.eqb_spec b 0). { exfalso. apply N. left. tauto. }
  change (b :: l ++ flat_map utf8 t) with ((b :: l) ++ flat_map utf8 t). rewrite <- E. rewrite iterate_utf8 by auto.
  rewrite IH; auto. intros C. apply N. right. auto. cbn [app length] in L. rewrite app_length in L. lia.
Qed.
Lemma decode_inv fuel : forall bs, Forall (fun b => 0 <= b < 256) bs -> ~ In 0 bs -> (length bs < fuel)%nat ->
  (exists t, decode fuel bs = Ok t /\ is_text t /\ bytes_of t = bs) \/ decode fuel bs = Exn ValueError.
Proof.
  induction fuel as [|fuel IH]; intros bs F N L; [lia|]. cbn [decode]. destruct bs as [|b bs]. { left. exists []. repeat split; auto. constructor. }
  destruct (Z.eqb_spec b 0). { exfalso. apply N. left. auto. }
  destruct (iterate (b :: bs)) as [[c r]|] eqn:I; auto. apply iterate_inv in I as [Hc E]; auto.
  destruct (utf8_head c Hc) as (b' & l' & E' & _). assert (F' : Forall (fun b => 0 <= b < 256) r). { rewrite E in F. apply Forall_app in F. tauto. }
  destruct (IH r) as [(t & -> & T & B)| ->]; auto.
  - intros C. apply N. rewrite E. apply in_or_app. auto.
  - rewrite E, E' in L. cbn [app length] in L. rewrite app_length in L. lia.
  - left. exists (c :: t). split; auto. split. constructor; auto. unfold bytes_of in *. cbn [flat_map]. rewrite B, E. auto.
Qed.
Lemma bytes_inj t : forall t', is_text t -> is_text t' -> bytes_of t = bytes_of t' -> t = t'.
Proof.
  unfold bytes_of. induction t as [|c t IH]; intros [|c' t'] H H' E; auto.
  - inversion H'; subst. destruct (utf8_head c') as (b & l & Eb & _); auto. cbn in E. rewrite Eb in E. discriminate.
  - inversion H; subst. destruct (utf8_head c) as (b & l & Eb & _); auto. cbn in E. rewrite Eb in E. discriminate.
  - inversion H; inversion H'; subst. cbn [flat_map] in E. pose proof (iterate_utf8 c (flat_map utf8 t)) as I. rewrite E, iterate_utf8 in I by auto.
    specialize (I ltac:(auto)). inversion I; subst. f_equal. apply IH; auto.
Qed.

(** Digits and the unreserved set. *)
Lemma index_hex c : (index_of c HEX_DIGITS 0 = -1 /\ forall v, ~ upper_hex c v) \/
  (index_of c HEX_DIGITS 0 <> -1 /\ upper_hex c (index_of c HEX_DIGITS 0)).
Proof.
  unfold upper_hex, HEX_DIGITS. cbn [index_of Z.add Pos.add Pos.succ].
  repeat match goal with |- context [?a =? c] => destruct (Z.eqb_spec a c); [right; lia|] end.
  left. split; auto. intros v. lia.
Qed.
Lemma upper_hex_fun c v w : upper_hex c v -> upper_hex c w -> v = w.
Proof. unfold upper_hex. lia. Qed.
Lemma hex_fun c v w : hex c v -> hex c w -> v = w.
Proof. unfold hex. lia. Qed.
Lemma hex_range c v : hex c v -> 0 <= v < 16.
Proof. unfold hex. lia. Qed.

Lemma mem_in c l : mem c l = true <-> In c l.
Proof. unfold mem. rewrite existsb_exists. split. intros (x & I & E). apply Z.eqb_eq in E. subst. auto. intros I. exists c. split; auto. apply Z.eqb_refl. Qed.
Definition letterb (c : Z) : bool := ((65 <=? c) && (c <=? 90)) || ((97 <=? c) && (c <=? 122)).
Definition numberb (c : Z) : bool := (48 <=? c) && (c <=? 57).
Lemma by_table (l : list Z) (p : Z -> bool) : forallb (fun c => (0 <=? c) && (c <? 128)) l = true ->
  forallb (fun n => Bool.eqb (mem (Z.of_nat n) l) (p (Z.of_nat n))) (seq 0 128) = true ->
  (forall c, p c = true -> 0 <= c < 128) -> forall c, mem c l = p c.
Proof.
  intros H1 H2 H3 c. destruct (Z.ltb_spec c 0) as [L|L], (Z.ltb_spec c 128) as [L2|L2].
  2,1,4: (destruct (mem c l) eqn:M; [apply mem_in in M; rewrite forallb_forall in H1; specialize (H1 _ M); lia|];
    destruct (p c) eqn:P; auto; apply H3 in P; lia).
  rewrite forallb_forall in H2. specialize (H2 (Z.to_nat c)). rewrite Z2Nat.id in H2 by lia. apply Bool.eqb_prop. apply H2. apply in_seq. lia.
Qed.
Lemma unreserved_in c : In c UNRESERVED <-> unreserved c.
Proof.
  rewrite <- mem_in. rewrite (by_table UNRESERVED (fun c => letterb c || numberb c || (c =? 45) || (c =? 46) || (c =? 95) || (c =? 126))).
  - unfold unreserved, letter, number, letterb, numberb. lia.
  - reflexivity.
  - vm_compute. reflexivity.
  - unfold letterb, numberb. lia.
Qed.
Lemma valid_in c : mem c VALID = true <-> letter c \/ number c \/ c = 43 \/ c = 45 \/ c = 46.
Proof.
  rewrite (by_table VALID (fun c => letterb c || numberb c || (c =? 43) || (c =? 45) || (c =? 46))).
  - unfold letter, number, letterb, numberb. lia.
  - reflexivity.
  - vm_compute. reflexivity.
  - unfold letterb, numberb. lia.
Qed.

Lemma hex_get n : 0 <= n < 16 -> exists d, zget HEX_DIGITS n = Some d /\ upper_hex d n.
Proof.
  intros H. unfold upper_hex.
  assert (C : n = 0 \/ n = 1 \/ n = 2 \/ n = 3 \/ n = 4 \/ n = 5 \/ n = 6 \/ n = 7 \/ n = 8 \/ n = 9 \/ n = 10 \/ n = 11 \/ n = 12 \/ n = 13 \/ n = 14 \/ n = 15) by lia.
  repeat (destruct C as [->|C]; [eexists; split; [reflexivity|lia]|]). subst. eexists; split; [reflexivity|lia].
Qed.
Lemma quote_byte_ok b : 0 <= b < 256 -> exists h l, quote_byte b = Ok [37; h; l] /\ upper_hex h (b / 16) /\ upper_hex l (b mod 16).
Proof.
  intros H. unfold quote_byte. destruct (hex_get (b / 16)) as (h & -> & Hh). { split; [apply Z.div_pos|apply Z.div_lt_upper_bound]; lia. }
  destruct (hex_get (b mod 16)) as (l & -> & Hl). { apply Z.mod_pos_bound. lia. } eauto.
Qed.
Lemma quote_ok safe bs : Forall (fun b => 0 <= b < 256) bs ->
  exists t, quote_loop (UNRESERVED ++ safe) bs = Ok t /\ escaped (fun c => unreserved c \/ In c safe) bs t.
Proof.
  induction 1 as [|b bs Hb _ (t & E & I)]; cbn [quote_loop]. exists []. split; auto. constructor.
  destruct ((b <? 128) && mem b (UNRESERVED ++ safe)) eqn:C; cbn [bindr]; rewrite ?E; cbn [bindr].
  - apply andb_prop in C as [C1 C2]. apply mem_in in C2. exists (b :: t). split; auto. constructor; auto. lia.
    apply in_app_iff in C2. rewrite unreserved_in in C2. auto.
  - destruct (quote_byte_ok b Hb) as (h & l & -> & Hh & Hl). cbn [bindr]. exists (37 :: h :: l :: t). split; auto.
    econstructor; eauto.
    + intros [L S]. assert (mem b (UNRESERVED ++ safe) = true). { apply mem_in, in_app_iff. rewrite unreserved_in. auto. }
      rewrite H in C. lia.
    + pose proof (Z.div_mod b 16). lia.
Qed.

(** Unquoting. *)
Section U.
Variable upper : Z -> Z.
Hypothesis upper_ok : forall c v, upper_hex (upper c) v <-> hex c v.
Lemma hex_value_ok c : (exists v, hex_value upper c = Ok v /\ hex c v) \/ (hex_value upper c = Exn ValueError /\ forall v, ~ hex c v).
Proof.
  unfold hex_value. destruct (index_hex (upper c)) as [[-> N]|[N H]].
  - right. split; auto. intros v C. apply upper_ok in C. apply (N _ C).
  - left. destruct (Z.eqb_spec (index_of (upper c) HEX_DIGITS 0) (-1)); [lia|]. eexists. split; eauto. apply upper_ok. auto.
Qed.
Lemma unquote_loop_ok fuel : forall t acc, (length t < fuel)%nat ->
  (exists bs, unquote_loop upper fuel t acc = Ok (acc ++ bs) /\ writes t bs) \/
  (unquote_loop upper fuel t acc = Exn ValueError /\ forall bs, ~ writes t bs).
Proof.
  induction fuel as [|fuel IH]; intros t acc L; [lia|]. cbn [unquote_loop]. destruct t as [|c t]. { left. exists []. rewrite app_nil_r. split; auto. constructor. }
  cbn [length] in L. destruct (Z.eqb_spec c 37) as [->|N]; cbn [negb].
  - destruct t as [|h [|l t]]; try (right; split; auto; intros bs C; inversion C; subst; congruence).
    destruct (hex_value_ok h) as [(x & -> & Hx)|[-> Nx]]; cbn [bindr].
    2: { right. split; auto. intros bs C. inversion C; subst; [congruence|]. eapply Nx; eauto. }
    destruct (hex_value_ok l) as [(y & -> & Hy)|[-> Ny]]; cbn [bindr].
    2: { right. split; auto. intros bs C. inversion C; subst; [congruence|]. eapply Ny; eauto. }
    pose proof (hex_range _ _ Hx). pose proof (hex_range _ _ Hy). rewrite Z.mod_small by lia.
    replace (x * 16 + y) with (16 * x + y) by lia.
    destruct (IH t (acc ++ [16 * x + y])) as [(bs & -> & W)|[-> W]]. cbn in L; lia.
    + left. exists (16 * x + y :: bs). split. rewrite <- app_assoc. auto. constructor; auto.
    + right. split; auto. intros bs C. inversion C; subst; [congruence|]. eapply W; eauto.
  - destruct (IH t (acc ++ utf8 c)) as [(bs & -> & W)|[-> W]]. lia.
    + left. exists (utf8 c ++ bs). split. rewrite <- app_assoc. auto. constructor; auto.
    + right. split; auto. intros bs C. inversion C; subst. eapply W; eauto. congruence.
Qed.
End U.
Lemma writes_fun t bs : writes t bs -> forall bs', writes t bs' -> bs = bs'.
Proof.
  induction 1; intros bs' H'.
  - inversion H'; auto.
  - inversion H'; subst; [|congruence]. f_equal. auto.
  - inversion H'; subst; [congruence|]. repeat match goal with A : hex ?c ?v, B : hex ?c ?w |- _ => rewrite (hex_fun _ _ _ A B) in *; clear A end. f_equal. auto.
Qed.
Lemma escaped_writes safe bs t : escaped safe bs t -> ~ safe 37 -> Forall (fun b => 0 <= b) bs -> writes t bs.
Proof.
  induction 1; intros N F; [constructor| |]; inversion F; subst.
  - replace (b :: bs) with (utf8 b ++ bs). constructor; auto. congruence. unfold utf8. destruct (Z.ltb_spec b 128); [auto|lia].
  - constructor; auto. unfold upper_hex, hex in *. lia. unfold upper_hex, hex in *. lia.
Qed.
Lemma writes_bytes t bs : is_text t -> writes t bs -> Forall (fun b => 0 <= b < 256) bs.
Proof.
  intros T W. induction W; auto; repeat match goal with H : is_text (_ :: _) |- _ => inversion H; clear H; subst end.
  - apply Forall_app. split; auto. apply utf8_bytes. auto.
  - constructor; auto. pose proof (hex_range _ _ H). pose proof (hex_range _ _ H0). lia.
    apply IHW. repeat match goal with H : Forall _ (_ :: _) |- _ => inversion H; clear H; subst end. auto.
Qed.
Lemma in_zero_bytes t : is_text t -> In 0 (bytes_of t) -> In 0 t.
Proof.
  unfold bytes_of. induction 1 as [|c t Hc Ht IH]; cbn [flat_map]; auto. intros I. apply in_app_iff in I as [I|I]; [left|right; auto].
  unfold utf8, scalar in *.
  pose proof (Z.mod_pos_bound c 64 ltac:(lia)). pose proof (Z.mod_pos_bound (c / 64) 64 ltac:(lia)). pose proof (Z.mod_pos_bound (c / 4096) 64 ltac:(lia)).
  destruct (Z.ltb_spec c 128). { cbn in I. lia. }
  assert (0 <= c / 64) by (apply Z.div_pos; lia). assert (0 <= c / 4096) by (apply Z.div_pos; lia). assert (0 <= c / 262144) by (apply Z.div_pos; lia).
  destruct (Z.ltb_spec c 2048). { cbn [In] in I. lia. } destruct (Z.ltb_spec c 65536); cbn [In] in I; lia.
Qed.

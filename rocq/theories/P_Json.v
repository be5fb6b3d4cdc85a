(** Lemmas for the JSON theorems. *)
From Verif Require Import Base P_Base M_Str S_Str S_Bigint M_Bigint T_Bigint S_Xml M_Xml P_Xml P_Xml2 S_Json M_Json.
From Coq Require Import ZifyBool ZifyNat.

Lemma value_ind2 (P : value -> Prop) :
  (forall v, match v with VList _ | VDict _ => False | _ => True end -> P v) ->
  (forall l, Forall P l -> P (VList l)) -> (forall l, Forall (fun e => P (snd e)) l -> P (VDict l)) -> forall v, P v.
Proof.
  intros H1 H2 H3. fix IH 1. intros v. destruct v as [|b|z|k z|r|s|z|l|l|]; try (apply H1; exact I).
  - apply H2. induction l as [|v l IHl]; constructor; [apply IH|exact IHl].
  - apply H3. induction l as [|[k v] l IHl]; constructor; [apply IH|exact IHl].
Qed.

Definition enc_list (b : bool) : list value -> res (list yy) :=
  fix go l := match l with [] => Ok [] | v :: l' => do y <- encode_value b v; do ys <- go l'; Ok (y :: ys) end.
Definition enc_dict (b : bool) : list (str * value) -> res (list (list Z * yy)) :=
  fix go l := match l with [] => Ok [] | (k, v) :: l' => do y <- encode_value b v; do ys <- go l'; Ok ((cut (sbytes k), y) :: ys) end.
Definition dec_list : list yy -> res (list value) :=
  fix go l := match l with [] => Ok [] | y :: l' => do v <- decode_value y; do vs <- go l'; Ok (v :: vs) end.
Definition dec_dict : list (list Z * yy) -> list (str * value) -> res (list (str * value)) :=
  fix go l d := match l with [] => Ok d | (k, y) :: l' => do v <- decode_value y; go l' (setitem (to_str k) v d) end.
Lemma enc_list_cons b v l : enc_list b (v :: l) = do y <- encode_value b v; do ys <- enc_list b l; Ok (y :: ys).
Proof. reflexivity. Qed.
Lemma enc_dict_cons b k v l : enc_dict b ((k, v) :: l) = do y <- encode_value b v; do ys <- enc_dict b l; Ok ((cut (sbytes k), y) :: ys).
Proof. reflexivity. Qed.
Lemma dec_list_cons y l : dec_list (y :: l) = do v <- decode_value y; do vs <- dec_list l; Ok (v :: vs).
Proof. reflexivity. Qed.
Lemma dec_dict_cons k y l d : dec_dict ((k, y) :: l) d = do v <- decode_value y; dec_dict l (setitem (to_str k) v d).
Proof. reflexivity. Qed.

(** ** Strings *)
Lemma nul_nz cs : text cs -> nulfree cs -> Forall (fun c => c <> 0) (concat cs).
Proof.
  induction 1 as [|c cs Hc _ IH]; intros N; [constructor|]. inversion N as [|? ? Nc Ncs]; subst. cbn [concat]. apply Forall_app. split; [|apply IH; exact Ncs].
  destruct c as [|a [|b [|x [|y [|]]]]]; cbn [uchar] in Hc; unfold cont in Hc; try contradiction; repeat constructor; try lia.
  intros ->. apply Nc. reflexivity.
Qed.
Lemma cstring_ok s : cstring s -> is_text s /\ Forall (fun c => c <> 0) (sbytes s) /\ to_str (sbytes s) = s /\ cut (sbytes s) = sbytes s /\ is_utf8 (sbytes s).
Proof.
  intros (cs & H & N & ->). pose proof (nul_nz _ H N) as Z. assert (T : is_text (ustr cs)) by (exists cs; auto).
  split; [exact T|]. split; [exact Z|]. split; [apply to_str_back; assumption|]. split; [apply cut_id; exact Z|]. exists cs. auto.
Qed.

(** ** Integers *)
Lemma decimal_chars z s : decimal z s -> Forall (fun c => 48 <= c <= 57 \/ c = 45) s.
Proof.
  intros (ds & v & _ & F & _ & C). assert (G : Forall (fun c => 48 <= c <= 57 \/ c = 45) ds) by (eapply Forall_impl; [|exact F]; cbn; auto).
  destruct C as [(_ & _ & ->)|(_ & _ & ->)]; [exact G|]. constructor; [auto|exact G].
Qed.
Lemma integer_word z : - 2 ^ 63 <= z < 2 ^ 64 -> exists w, word z w /\ decode_value w = Ok (an_integer z).
Proof.
  intros H. destruct (Z.lt_ge_cases z 0).
  - exists (YSint z). split; [right; split; [lia|reflexivity]|]. cbn [decode_value]. unfold an_integer. replace (_ && _) with true by lia. reflexivity.
  - exists (YUint z). split; [left; split; [lia|reflexivity]|]. cbn [decode_value]. unfold an_integer, decode_uint.
    destruct (2 ^ 63 - 1 <? z) eqn:E.
    + replace ((- 2 ^ 63 <=? z) && (z <? 2 ^ 63)) with false by lia. replace (_ && _) with true by lia. reflexivity.
    + replace ((- 2 ^ 63 <=? z) && (z <? 2 ^ 63)) with true by lia. reflexivity.
Qed.
Lemma range_word k z : range k z -> - 2 ^ 63 <= z < 2 ^ 64.
Proof. destruct k; cbn; lia. Qed.
Lemma an_int z : - 2 ^ 63 <= z < 2 ^ 63 -> an_integer z = VInt z.
Proof. intros H. unfold an_integer. replace (_ && _) with true by lia. reflexivity. Qed.

Lemma raw_back z s : get_str z = Ok s -> decimal z s -> (z < 0 -> (zlen s - 1) mod 18 <> 0) -> decode_raw s = Ok (VBig z).
Proof.
  intros E D M. unfold decode_raw.
  replace (existsb _ s) with false.
  - rewrite (C59_round_trip_partial z s E M). reflexivity.
  - symmetry. pose proof (decimal_chars _ _ D) as C. destruct (existsb _ s) eqn:X; [|reflexivity].
    apply existsb_exists in X as (c & Hc & K). rewrite Forall_forall in C. specialize (C _ Hc). lia.
Qed.
Lemma big_back z : big_ok z -> exists s w, get_str z = Ok s /\ decimal z s /\ reads_as (YRaw s) w /\ decode_value w = Ok (an_integer z).
Proof.
  intros [R M]. destruct (C59_str_partial z R) as (s & E & D). exists s.
  destruct (Z_le_dec (- 2 ^ 63) z); [destruct (Z_lt_dec z (2 ^ 64))|].
  - destruct (integer_word z ltac:(lia)) as (w & I & Dw). exists w. repeat split; try assumption. eapply R_raw; eassumption.
  - exists (YRaw s). split; [exact E|]. split; [exact D|]. split; [eapply R_rawbig; [exact D|lia]|]. cbn [decode_value].
    rewrite (raw_back z s E D) by lia. unfold an_integer. replace ((- 2 ^ 63 <=? z) && (z <? 2 ^ 63)) with false by lia. replace (_ && _) with false by lia. reflexivity.
  - exists (YRaw s). split; [exact E|]. split; [exact D|]. split; [eapply R_rawbig; [exact D|lia]|]. cbn [decode_value].
    rewrite (raw_back z s E D) by (intros K; apply (M K); exact D). unfold an_integer. replace ((- 2 ^ 63 <=? z) && (z <? 2 ^ 63)) with false by lia. replace (_ && _) with false by lia. reflexivity.
Qed.

(** ** Dicts *)
Lemma setitem_new k v d : (forall e, In e d -> sbytes (fst e) <> sbytes k) -> setitem k v d = d ++ [(k, v)].
Proof.
  induction d as [|[k' v'] d IH]; intros H; [reflexivity|]. cbn [setitem app]. unfold streqb.
  replace (beqb (sbytes k) (sbytes k')) with false.
  - rewrite IH; [reflexivity|]. intros e He. apply H. right. exact He.
  - symmetry. apply beqb_no. intros E. apply (H (k', v')); [left; reflexivity|]. symmetry. exact E.
Qed.
Lemma dec_dict_new b l m : Forall2 (fun (a : str * value) c => fst c = sbytes (fst a) /\ to_str (fst c) = fst a /\ exists v', decode_value (snd c) = Ok v' /\ same b (snd a) v') l m ->
  NoDup (map (fun a => sbytes (fst a)) l) ->
  forall d, (forall e a, In e d -> In a l -> sbytes (fst e) <> sbytes (fst a)) ->
  exists r, dec_dict m d = Ok (d ++ r) /\ Forall2 (fun a c => fst a = fst c /\ same b (snd a) (snd c)) l r.
Proof.
  induction 1 as [|[k v] [k' y] l m (E1 & E2 & v' & E3 & Sv) _ IH]; intros N d D.
  - exists []. rewrite app_nil_r. split; [reflexivity|constructor].
  - cbn [fst snd] in *. inversion N as [|? ? Nk Nl]; subst. cbn [fst snd] in Nk. rewrite dec_dict_cons, E3. cbn [bindr]. rewrite E2. rewrite setitem_new.
    + destruct (IH Nl (d ++ [(k, v')])) as (r & Er & Fr).
      * intros e a He Ha. apply in_app_or in He as [He|[<-|[]]]; [apply D; [exact He|right; exact Ha]|]. cbn [fst]. intros K. apply Nk. rewrite K. apply in_map_iff. exists a. auto.
      * exists ((k, v') :: r). rewrite Er, <- app_assoc. split; [reflexivity|]. constructor; [auto|exact Fr].
    + intros e He. apply (D e (k, v)); [exact He|left; reflexivity].
Qed.

(** ** Round trip *)
Lemma value_trip (b : bool) v : json_ok (if b then fun z => Z.abs z < 10 ^ 18 \/ 2 ^ 64 <= Z.abs z else big_ok) v ->
  exists y w v', encode_value b v = Ok y /\ reads_as y w /\ decode_value w = Ok v' /\ same b v v' /\
    (match v with VList _ => exists l, w = YArr l | VDict _ => exists l, w = YObj l | _ => True end).
Proof.
  induction v as [v A|l IH|l IH] using value_ind2; intros H.
  - destruct v as [|x|z|k z|r|s|z|l|l|]; try contradiction; cbn [encode_value].
    + exists YNull, YNull, VNone. repeat split; constructor.
    + exists (YBool x), (YBool x), (VBool x). repeat split; constructor.
    + inversion H; subst. destruct (integer_word z ltac:(lia)) as (w & I & D). exists (YSint z), w, (VInt z). rewrite an_int in D by lia. repeat split; try constructor; assumption.
    + inversion H; subst. destruct (integer_word z (range_word _ _ ltac:(eassumption))) as (w & I & D).
      exists (match k with KI8 | KI16 | KI32 | KI64 => YSint z | _ => YUint z end), w, (an_integer z).
      split; [destruct k; reflexivity|]. split; [destruct k; constructor; exact I|]. split; [exact D|]. split; [constructor|exact Logic.I].
    + inversion H; subst. exists (YReal r), (YReal r), (VFloat r). repeat split; constructor. assumption.
    + inversion H; subst. destruct (cstring_ok s ltac:(assumption)) as (_ & _ & B & C & U). exists (YStr (sbytes s)), (YStr (sbytes s)), (VStr s). rewrite C.
      split; [reflexivity|]. split; [constructor; exact U|]. split; [cbn [decode_value]; rewrite B; reflexivity|]. split; [constructor|exact Logic.I].
    + inversion H as [| | | | | |? Hz| |]; subst. unfold encode_bigint. destruct b.
      * destruct (C59_str_partial z Hz) as (s & E & D). rewrite E. cbn [bindr].
        assert (Asc : Forall (fun c => 0 <= c < 128) s) by (eapply Forall_impl; [|exact (decimal_chars _ _ D)]; cbn; intros; lia).
        assert (Nz : Forall (fun c => c <> 0) s) by (eapply Forall_impl; [|exact (decimal_chars _ _ D)]; cbn; intros; lia).
        exists (YStr s), (YStr s), (VStr (tstr s)). split; [reflexivity|]. split; [constructor; exact (utext_ascii _ Asc)|].
        split; [cbn [decode_value]; rewrite to_str_id by exact Nz; reflexivity|]. split; [|exact Logic.I]. apply E_bigstr; [reflexivity|exact D|].
        cbn [tstr nchars sbytes]. clear - Asc. unfold char_count. induction Asc as [|c s Hc _ IH]; [reflexivity|]. cbn [filter]. replace (_ && _) with false by lia. cbn [negb]. unfold zlen in *. cbn [length]. lia.
      * destruct (big_back z Hz) as (s & w & E & D & I & Dw). rewrite E. cbn [bindr]. exists (YRaw s), w, (an_integer z).
        split; [reflexivity|]. split; [exact I|]. split; [exact Dw|]. split; [constructor; reflexivity|exact Logic.I].
    + inversion H.
  - inversion H as [| | | | | | |? Hl|]; subst.
    assert (K : exists ys ws vs, enc_list b l = Ok ys /\ Forall2 reads_as ys ws /\ dec_list ws = Ok vs /\ Forall2 (same b) l vs).
    { clear H. induction IH as [|v l Hv _ IHl]; [exists [], [], []; repeat split; constructor|]. inversion Hl as [|? ? H1 H2]; subst.
      destruct (Hv H1) as (y & w & v' & E1 & E2 & E3 & E4 & _). destruct (IHl H2) as (ys & ws & vs & F1 & F2 & F3 & F4).
      exists (y :: ys), (w :: ws), (v' :: vs). rewrite enc_list_cons, E1. cbn [bindr]. rewrite F1. rewrite dec_list_cons, E3. cbn [bindr]. rewrite F3. repeat split; constructor; assumption. }
    destruct K as (ys & ws & vs & F1 & F2 & F3 & F4). exists (YArr ys), (YArr ws), (VList vs).
    split; [cbn [encode_value]; change ((fix go l := match l with [] => Ok [] | v :: l' => do y <- encode_value b v; do ys <- go l'; Ok (y :: ys) end) l) with (enc_list b l); rewrite F1; reflexivity|].
    split; [constructor; exact F2|]. split; [|split; [constructor; exact F4|eauto]].
    cbn [decode_value]. change ((fix go l := match l with [] => Ok [] | y :: l' => do v <- decode_value y; do vs <- go l'; Ok (v :: vs) end) ws) with (dec_list ws). rewrite F3. reflexivity.
  - inversion H as [| | | | | | | |? Nd Hl]; subst.
    assert (K : exists ys ws, enc_dict b l = Ok ys /\ Forall2 (fun a c => fst a = fst c /\ is_utf8 (fst a) /\ reads_as (snd a) (snd c)) ys ws /\
      Forall2 (fun (a : str * value) c => fst c = sbytes (fst a) /\ to_str (fst c) = fst a /\ exists v', decode_value (snd c) = Ok v' /\ same b (snd a) v') l ws).
    { clear H Nd. induction IH as [|[k v] l Hv _ IHl]; [exists [], []; repeat split; constructor|]. inversion Hl as [|? ? [Hk H1] H2]; subst. cbn [fst snd] in *.
      destruct (Hv H1) as (y & w & v' & E1 & E2 & E3 & E4 & _). destruct (IHl H2) as (ys & ws & F1 & F2 & F3).
      destruct (cstring_ok k Hk) as (_ & _ & B & C & U).
      exists ((sbytes k, y) :: ys), ((sbytes k, w) :: ws). rewrite enc_dict_cons, E1. cbn [bindr]. rewrite F1. cbn [bindr]. rewrite C.
      split; [reflexivity|]. split; constructor; cbn [fst snd]; auto. split; [reflexivity|]. split; [exact B|]. exists v'. auto. }
    destruct K as (ys & ws & F1 & F2 & F3).
    assert (Nb : NoDup (map (fun a => sbytes (fst a)) l)).
    { assert (C : Forall (fun a => is_text (fst a)) l) by (eapply Forall_impl; [|exact Hl]; intros a [Ha _]; apply (cstring_ok _ Ha)).
      clear - Nd C. induction C as [|a l Ha C IHl]; [constructor|]. cbn [map] in *. inversion Nd as [|? ? N1 N2]; subst. constructor; [|apply IHl; exact N2].
      intros K. apply N1. apply in_map_iff in K as (c & E & Hc). apply in_map_iff. exists c. split; [|exact Hc].
      rewrite Forall_forall in C. destruct (text_tstr _ (C _ Hc)) as [-> _]. destruct (text_tstr _ Ha) as [-> _]. rewrite E. reflexivity. }
    destruct (dec_dict_new b l ws F3 Nb [] ltac:(intros e a [])) as (r & Er & Fr).
    exists (YObj ys), (YObj ws), (VDict r).
    split; [cbn [encode_value]; change ((fix go l := match l with [] => Ok [] | (k, v) :: l' => do y <- encode_value b v; do ys <- go l'; Ok ((cut (sbytes k), y) :: ys) end) l) with (enc_dict b l); rewrite F1; reflexivity|].
    split; [constructor; exact F2|]. split; [|split; [constructor; exact Fr|eauto]].
    cbn [decode_value]. change ((fix go l d := match l with [] => Ok d | (k, y) :: l' => do v <- decode_value y; go l' (setitem (to_str k) v d) end) ws []) with (dec_dict ws []). rewrite Er. reflexivity.
Qed.

(** ** Unsupported values *)
Lemma encode_total b v : printable v -> (unsupported v -> encode_value b v = Exn ValueError) /\ (~ unsupported v -> exists y, encode_value b v = Ok y) /\ (unsupported v \/ ~ unsupported v).
Proof.
  induction v as [v A|l IH|l IH] using value_ind2; intros P.
  - destruct v as [|x|z|k z|r|s|z|l|l|]; try contradiction; cbn [encode_value];
      try (split; [intros U; inversion U|]; split; [eauto|right; intros U; inversion U]; fail).
    + split; [intros U; inversion U|]. split; [destruct k; eauto|right; intros U; inversion U].
    + inversion P as [? C|? Hz| |]; subst; [contradiction|]. split; [intros U; inversion U|]. split; [|right; intros U; inversion U]. intros _.
      destruct (C59_str_partial z Hz) as (s & E & _). unfold encode_bigint. rewrite E. cbn [bindr]. destruct b; eauto.
    + split; [reflexivity|]. split; [intros K; exfalso; apply K; constructor|left; constructor].
  - inversion P as [? C| |? Hl|]; subst; [contradiction|].
    assert (K : (Exists unsupported l -> enc_list b l = Exn ValueError) /\ (~ Exists unsupported l -> exists ys, enc_list b l = Ok ys) /\ (Exists unsupported l \/ ~ Exists unsupported l)).
    { clear P. induction IH as [|v l Hv _ IHl]; [split; [intros U; inversion U|split; [exists []; reflexivity|right; intros U; inversion U]]|].
      inversion Hl as [|? ? H1 H2]; subst. destruct (Hv H1) as (A1 & A2 & A3). destruct (IHl H2) as (B1 & B2 & B3). rewrite enc_list_cons.
      split; [|split].
      - intros U. destruct A3 as [A3|A3]; [rewrite (A1 A3); reflexivity|]. destruct (A2 A3) as [y ->]. cbn [bindr]. inversion U; subst; [contradiction|]. rewrite B1 by assumption. reflexivity.
      - intros U. destruct A2 as [y ->]; [intros K; apply U; left; exact K|]. cbn [bindr]. destruct B2 as [ys ->]; [intros K; apply U; right; exact K|]. eexists. reflexivity.
      - destruct A3 as [A3|A3]; [left; left; exact A3|]. destruct B3 as [B3|B3]; [left; right; exact B3|]. right. intros U. inversion U; subst; contradiction. }
    destruct K as (K1 & K2 & K3). change (encode_value b (VList l)) with (do ys <- enc_list b l; Ok (YArr ys)).
    split; [intros U; inversion U; subst; rewrite K1 by assumption; reflexivity|]. split.
    + intros U. destruct K2 as [ys ->]; [intros K; apply U; constructor; exact K|]. eexists. reflexivity.
    + destruct K3 as [K3|K3]; [left; constructor; exact K3|right; intros U; inversion U; contradiction].
  - inversion P as [? C| | |? Hl]; subst; [contradiction|].
    assert (K : (Exists (fun e => unsupported (snd e)) l -> enc_dict b l = Exn ValueError) /\ (~ Exists (fun e => unsupported (snd e)) l -> exists ys, enc_dict b l = Ok ys) /\
      (Exists (fun e => unsupported (snd e)) l \/ ~ Exists (fun e => unsupported (snd e)) l)).
    { clear P. induction IH as [|[k v] l Hv _ IHl]; [split; [intros U; inversion U|split; [exists []; reflexivity|right; intros U; inversion U]]|].
      inversion Hl as [|? ? H1 H2]; subst. destruct (Hv H1) as (A1 & A2 & A3). destruct (IHl H2) as (B1 & B2 & B3). rewrite enc_dict_cons. cbn [fst snd] in *.
      split; [|split].
      - intros U. destruct A3 as [A3|A3]; [rewrite (A1 A3); reflexivity|]. destruct (A2 A3) as [y ->]. cbn [bindr]. inversion U as [? ? K|? ? K]; subst; [cbn in K; contradiction|]. rewrite B1 by assumption. reflexivity.
      - intros U. destruct A2 as [y ->]; [intros K; apply U; left; exact K|]. cbn [bindr]. destruct B2 as [ys ->]; [intros K; apply U; right; exact K|]. eexists. reflexivity.
      - destruct A3 as [A3|A3]; [left; left; exact A3|]. destruct B3 as [B3|B3]; [left; right; exact B3|]. right. intros U. inversion U as [? ? K|? ? K]; subst; [cbn in K|]; contradiction. }
    destruct K as (K1 & K2 & K3). change (encode_value b (VDict l)) with (do ys <- enc_dict b l; Ok (YObj ys)).
    split; [intros U; inversion U; subst; rewrite K1 by assumption; reflexivity|]. split.
    + intros U. destruct K2 as [ys ->]; [intros K; apply U; constructor; exact K|]. eexists. reflexivity.
    + destruct K3 as [K3|K3]; [left; constructor; exact K3|right; intros U; inversion U; contradiction].
Qed.

(** ** Repeated names *)
Fixpoint get (k : list Z) (d : list (str * value)) : option value :=
  match d with [] => None | (k', v) :: d' => if beqb k (sbytes k') then Some v else get k d' end.
Lemma get_setitem k v d k0 : get k0 (setitem k v d) = if beqb k0 (sbytes k) then Some v else get k0 d.
Proof.
  induction d as [|[k' v'] d IH]; cbn [setitem get]; [reflexivity|]. unfold streqb. destruct (beqb (sbytes k) (sbytes k')) eqn:E; cbn [get].
  - apply beqb_ok in E. rewrite <- E. destruct (beqb k0 (sbytes k)); reflexivity.
  - rewrite IH. destruct (beqb k0 (sbytes k')) eqn:E2; [|reflexivity]. apply beqb_ok in E2. subst k0.
    replace (beqb (sbytes k') (sbytes k)) with false; [reflexivity|]. symmetry. apply beqb_no. apply beqb_no in E. congruence.
Qed.
Lemma dec_dict_get l : Forall (fun e => no_nul (fst e)) l -> forall d r, dec_dict l d = Ok r -> forall k,
  (forall y, ~ In (k, y) l) /\ get k r = get k d \/
  exists l1 y l2 v, l = l1 ++ (k, y) :: l2 /\ (forall y', ~ In (k, y') l2) /\ decode_value y = Ok v /\ get k r = Some v.
Proof.
  induction 1 as [|[k' y'] l Hk _ IH]; intros d r E k.
  - injection E as <-. left. split; [intros y []|reflexivity].
  - rewrite dec_dict_cons in E. destruct (decode_value y') as [v'| | |] eqn:Dv; try discriminate. cbn [bindr] in E. cbn [fst] in Hk.
    destruct (IH _ _ E k) as [[N G]|(l1 & y & l2 & v & -> & N & D & G)].
    + rewrite get_setitem in G. unfold to_str in G. cbn [sbytes] in G. rewrite cut_id in G by exact Hk. destruct (beqb k k') eqn:B.
      * apply beqb_ok in B. subst k'. right. exists [], y', l, v'. repeat split; auto.
      * left. split; [|exact G]. intros y [K|K]; [|exact (N y K)]. injection K as -> _. rewrite beqb_refl in B. discriminate.
    + right. exists ((k', y') :: l1), y, l2, v. repeat split; auto.
Qed.

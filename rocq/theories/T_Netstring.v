(** C29, C30, C60: netstrings and the monitor socket. *)
From Verif Require Import Base S_Bigint M_Bigint S_Netstring M_Netstring P_Bigint P_Netstring.
Local Open Scope Z_scope.

(** * C29 Round trip *)

(** The encoding of a byte string is its netstring, and decoding it, followed by anything, gives the byte
    string and what follows.  (g: what fresh memory contains.) *)
Theorem C29_round_trip : forall g d rest, zlen d < ns_limit ->
  exists s, netstring d s /\ netstring_add_ex g None d = Ok (s ++ [0], zlen s) /\ netstring_buffer_size (zlen d) = zlen s /\
  exists start next remaining, netstring_read (s ++ rest) = Ok (NsOk start (zlen d) next remaining) /\
    sub_bytes (s ++ rest) start (zlen d) = d /\ sub_bytes (s ++ rest) next remaining = rest.
Proof.
  intros g d rest L. assert (L2 : zlen d < 10 ^ 16) by (unfold ns_limit in L; lia).
  destruct (add_ok g None [] d eq_refl L2) as (s & N & B & E). exists s. split; auto. split; [rewrite E; reflexivity|]. split; auto.
  destruct (read_bytes d s rest N L) as (st & R & A & C). exists st, (zlen s), (zlen rest). auto.
Qed.
Print Assumptions C29_round_trip.

(** Adding strings one after another gives the concatenation of their netstrings if only the last contains a
    byte 0; they are counted right and decoded one by one. *)
Theorem C29_list_partial : forall g l, l <> [] -> Forall (fun d => zlen d < ns_limit) l -> Forall (fun d => ~ In 0 d) (removelast l) ->
  exists ss, Forall2 netstring l ss /\ add_all g None 0 l = Ok (Some (concat ss ++ [0]), zlen (concat ss)) /\
  netstring_list_count (concat ss) = Ok (0, zlen l) /\ netstring_list_size (concat ss) = Ok (0, zlen (concat ss)) /\
  mon_requests (S (length (concat ss))) (concat ss) = Ok (l, []).
Proof.
  intros g l Ne L N. assert (L2 : Forall (fun d => zlen d < 10 ^ 16) l) by (eapply Forall_impl; [|exact L]; cbn; unfold ns_limit; intros; lia).
  destruct (add_all_ok g l None [] eq_refl L2 N Ne) as (ss & F & E). exists ss. split; auto. split; [exact E|]. split; [unfold netstring_list_count; rewrite (count_ok l ss); auto|]. split.
  - unfold netstring_list_size. pose proof (size_ok l ss (S (length (concat ss))) None (zlen (concat ss)) [] 0 F L) as H. rewrite app_nil_r in H. rewrite H; auto. do 2 f_equal. change (zlen (@nil Z)) with 0. lia.
  - destruct (requests_ok l ss (concat ss) [] (S (length (concat ss))) F L (app_nil_r _) ltac:(lia)) as (rs1 & rs2 & ss1 & ss2 & rest & A1 & A2 & A3 & A4 & A5 & A6 & A7 & A8).
    rewrite app_nil_r in A6. rewrite A5. destruct A8 as [->|A8].
    + inversion A4; subst. cbn [concat]. now rewrite app_nil_r.
    + exfalso. destruct ss2 as [|s ss2]; [cbn in A8; pose proof (zlen_nonneg rest); cbn in *; lia|]. cbn [hd concat] in *. rewrite A6, zlen_app in A8. pose proof (zlen_nonneg (concat ss2)). lia.
Qed.
Print Assumptions C29_list_partial.

(** Otherwise strings are lost: after "\0x" is added, adding "y" overwrites.  A string of 10^9 bytes or more is encoded
    but not decoded.  Counting in an empty buffer uses an uninitialised variable. *)
Theorem C29_list_refuted :
  (forall g, add_all g None 0 [[0; 120]; [121]] = Ok (Some [50; 58; 49; 58; 121; 44; 0], 6)) /\
  (forall d s rest, netstring d s -> ns_limit <= zlen d -> netstring_read (s ++ rest) = Ok (NsErr NS_TOO_LONG)) /\
  netstring_list_count [] = UB /\ netstring_list_size [] = UB.
Proof.
  split; [reflexivity|]. split; [|split; reflexivity]. exact read_too_long.
Qed.
Print Assumptions C29_list_refuted.

Example C29_case : netstring [104; 105] [50; 58; 104; 105; 44] /\ netstring_list_count [50; 58; 104; 105; 44; 48; 58; 44] = Ok (0, 2).
Proof.
  split; [|vm_compute; reflexivity]. exists [50]. split; [|reflexivity]. exact (isdec_decimal' [50] eq_refl).
Qed.

(** * C30 Safety and soundness of decoding *)

(** No byte outside of the buffer is read: the outcome is a result for every buffer. *)
Theorem C30_safe : forall buf, exists r, netstring_read buf = Ok r.
Proof. exact read_safe. Qed.
Print Assumptions C30_safe.

(** Success means that the buffer begins with a netstring, and the result is its content and the rest. *)
Theorem C30_sound : forall buf start len next remaining, netstring_read buf = Ok (NsOk start len next remaining) ->
  exists d s rest, buf = s ++ rest /\ netstring d s /\ zlen d < ns_limit /\ sub_bytes buf start len = d /\ sub_bytes buf next remaining = rest /\
    0 <= start /\ start + len <= zlen buf /\ 0 <= next /\ next + remaining = zlen buf.
Proof.
  intros buf st len nx rem R. destruct (read_sub _ _ _ _ _ R) as (d & s & rest & E & N & L & A & B).
  destruct (read_sound _ _ _ _ _ R) as (d' & s' & rest' & ds & E' & N' & L' & Es & -> & -> & -> & ->).
  assert (Ar : 0 <= zlen ds + 1 /\ zlen ds + 1 + zlen d' <= zlen buf /\ 0 <= zlen s' /\ zlen s' + zlen rest' = zlen buf).
  { rewrite E', Es, !zlen_app. change (zlen [58]) with 1. change (zlen [44]) with 1. pose proof (zlen_nonneg ds). pose proof (zlen_nonneg d'). pose proof (zlen_nonneg rest'). lia. }
  exists d, s, rest. tauto.
Qed.
Print Assumptions C30_sound.

(** Appending data never changes a successful result, and no netstring is the beginning of another. *)
Theorem C30_prefix_free : forall d s r d' s' r', netstring d s -> netstring d' s' -> zlen d < ns_limit -> zlen d' < ns_limit ->
  s ++ r = s' ++ r' -> d = d' /\ s = s' /\ r = r'.
Proof. exact ns_unique. Qed.
Print Assumptions C30_prefix_free.

Example C30_case : netstring_read [49; 58; 120; 44; 55] = Ok (NsOk 2 1 4 1) /\ netstring_read [49; 58; 120; 120] = Ok (NsErr NS_NO_COMMA) /\ netstring_read [57; 57; 57] = Ok (NsErr NS_TOO_SHORT).
Proof. vm_compute. auto. Qed.

(** * C60 Requests on the monitor socket *)

(** However the stream of requests is cut into pieces by the network, the requests handled are the requests sent, in order:
    all of them if each is at most 64 bytes long as a netstring... *)
Theorem C60_framing : forall rs ss chunks, Forall2 netstring rs ss -> Forall (fun s => zlen s <= 64) ss ->
  concat chunks = concat ss -> mon_run chunks = Ok rs.
Proof.
  intros rs ss chunks F S E. assert (L : Forall (fun d => zlen d < ns_limit) rs).
  { clear E. induction F; constructor; inversion S; subst; auto. pose proof (ns_data _ _ H). unfold ns_limit. lia. }
  rewrite (mon_run_ok rs ss chunks F L E). f_equal. apply fitting_all; auto. clear L E S. induction F; cbn; congruence.
Qed.
Print Assumptions C60_framing.

(** ... and those before the first longer one otherwise (the connection is then closed). *)
Theorem C60_too_long : forall rs1 ss1 r s rs2 ss2 chunks, Forall2 netstring rs1 ss1 -> Forall (fun s => zlen s <= 64) ss1 ->
  netstring r s -> 64 < zlen s -> Forall2 netstring rs2 ss2 -> Forall (fun d => zlen d < ns_limit) (r :: rs2) ->
  concat chunks = concat (ss1 ++ s :: ss2) -> mon_run chunks = Ok rs1.
Proof.
  intros rs1 ss1 r s rs2 ss2 chunks F S N B F2 L2 E. assert (L : Forall (fun d => zlen d < ns_limit) rs1).
  { clear E. induction F; constructor; inversion S; subst; auto. pose proof (ns_data _ _ H). unfold ns_limit. lia. }
  rewrite (mon_run_ok (rs1 ++ r :: rs2) (ss1 ++ s :: ss2) chunks).
  - rewrite fitting_app; auto; [|clear - F; induction F; cbn; congruence]. cbn [fitting]. unfold mon_size. destruct (Z.leb_spec (zlen s) 64); [lia|]. now rewrite app_nil_r.
  - apply Forall2_app; auto.
  - apply Forall_app; auto.
  - auto.
Qed.
Print Assumptions C60_too_long.

(** A request is answered by what it names, and by nothing if it names nothing, unless it is the beginning of a name
    or a name followed by a byte 0. *)
Theorem C60_answers_partial : forall req,
  (forall t, name_actors = req ++ t -> t = []) -> (forall t, name_wts = req ++ t -> t = []) ->
  (forall t, req <> name_actors ++ 0 :: t) -> (forall t, req <> name_wts ++ 0 :: t) ->
  (req = name_actors -> mon_answers req = Ok [ActorsJson]) /\ (req = name_wts -> mon_answers req = Ok [StatsJson]) /\
  (req <> name_actors -> req <> name_wts -> mon_answers req = Ok []).
Proof.
  intros req P1 P2 Q1 Q2. unfold mon_answers.
  destruct (memcmp_lit name_actors req) as (a & Ea & Ba); auto; [cbn; intros H; repeat (destruct H as [H|H]; [discriminate|]); destruct H|].
  destruct (memcmp_lit name_wts req) as (w & Ew & Bw); auto; [cbn; intros H; repeat (destruct H as [H|H]; [discriminate|]); destruct H|].
  change lit_actors with (name_actors ++ [0]). change lit_wts with (name_wts ++ [0]). rewrite Ea, Ew. cbn [bindr].
  split; [|split].
  - intros ->. destruct a; [|destruct Ba as [_ Ba]; discriminate (Ba eq_refl)]. destruct w; [destruct Bw as [Bw _]; discriminate (Bw eq_refl)|reflexivity].
  - intros ->. destruct w; [|destruct Bw as [_ Bw]; discriminate (Bw eq_refl)]. destruct a; [destruct Ba as [Ba _]; discriminate (Ba eq_refl)|reflexivity].
  - intros N1 N2. destruct a; [destruct (N1 (proj1 Ba eq_refl))|]. destruct w; [destruct (N2 (proj1 Bw eq_refl))|]. reflexivity.
Qed.
Print Assumptions C60_answers_partial.

(** Those exceptions are wrong: every proper beginning of a name is answered, the empty request by both; "actors\0" too, and more bytes
    after it make the server read past the end of its constant. *)
Theorem C60_answers_refuted :
  mon_answers [] = Ok [ActorsJson; StatsJson] /\ mon_answers [97] = Ok [ActorsJson] /\ mon_answers [87; 84] = Ok [StatsJson] /\
  mon_answers (name_actors ++ [0]) = Ok [ActorsJson] /\ (forall x t, mon_answers (name_actors ++ 0 :: x :: t) = UB).
Proof. repeat split; reflexivity. Qed.
Print Assumptions C60_answers_refuted.

Example C60_case : mon_run [[54; 58; 97]; [99; 116; 111; 114; 115; 44; 51; 58]; [87]; []; [84; 83; 44]] = Ok [name_actors; name_wts].
Proof. vm_compute. reflexivity. Qed.

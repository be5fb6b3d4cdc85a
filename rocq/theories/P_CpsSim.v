(** The machine follows the specification, statement by statement. *)
From Coq Require Import List Bool Arith Lia.
From Verif Require Import S_Cps M_Cps P_Cps.
Import ListNotations.

Section Sim.
Variable L : lang.
Variable body : proc L -> suite L.
Notation locals := (locals L).
Notation config := (config L).
Notation step := (step L body).
Notation steps := (steps L body).
Notation Run := (Run L). Notation App := (App L). Notation Fail := (Fail L).
Notation cps := (cps L). Notation cps_last := (cps_last L).
Notation Env := (Env L).
Notation env := (env L).
Notation glob := (glob L).

(** ** Runs of the machine. *)
Definition leads (n : nat) (c c' : config) : Prop := exists m, steps n m c = Some c'.
Definition idle (n : nat) (c : config) : Prop := final L c = false /\ (step n c = None -> blocked L n c).
Definition long (n j : nat) (c : config) : Prop := forall m c', m <= j -> steps n m c = Some c' -> idle n c'.
Lemma steps_app : forall n a b c, steps n (a + b) c = match steps n a c with Some c' => steps n b c' | None => None end.
Proof. intros n. induction a as [|a IH]; intros b c; [reflexivity|]. cbn [plus M_Cps.steps]. destruct (step n c); [apply IH|reflexivity]. Qed.
Lemma leads_refl : forall n c, leads n c c. Proof. intros n c. exists 0. reflexivity. Qed.
Lemma leads_trans : forall n a b c, leads n a b -> leads n b c -> leads n a c.
Proof. intros n a b c (x & X) (y & Y). exists (x + y). rewrite steps_app, X. exact Y. Qed.
Lemma leads_step : forall n a b c, step n a = Some b -> leads n b c -> leads n a c.
Proof. intros n a b c S (x & X). exists (Datatypes.S x). cbn [M_Cps.steps]. rewrite S. exact X. Qed.
Lemma final_step : forall n c, final L c = true -> step n c = None.
Proof. intros n [t E r l G|k v G|x G|v w|x w] F; try discriminate F; reflexivity. Qed.
Lemma long_S : forall n j c c', step n c = Some c' -> long n j c' -> long n (S j) c.
Proof.
  intros n j c c' E H [|m] d M R.
  - injection R as R. subst d. split; [|intros Q; rewrite Q in E; discriminate E].
    destruct (final L c) eqn:F; [|reflexivity]. rewrite (final_step n c F) in E. discriminate E.
  - cbn [M_Cps.steps] in R. rewrite E in R. apply (H m d); [lia|exact R].
Qed.
Lemma long_weak : forall n j j' c, j <= j' -> long n j' c -> long n j c.
Proof. intros n j j' c H K m d M. apply K. lia. Qed.
Lemma long_step : forall n j c c', step n c = Some c' -> long n j c' -> long n j c.
Proof. intros n j c c' E H. apply (long_weak n j (S j)); [lia|]. eapply long_S; eassumption. Qed.
Lemma long_leads : forall n j c c', leads n c c' -> long n j c' -> long n j c.
Proof.
  intros n j c c' (m & M). revert c M. induction m as [|m IH]; intros c M H.
  - injection M as M. subst c'. exact H.
  - cbn [M_Cps.steps] in M. destruct (step n c) as [c1|] eqn:E; [|discriminate M]. eapply long_step; [exact E|]. apply IH; assumption.
Qed.
Lemma long_stuck : forall n j c, step n c = None -> blocked L n c -> long n j c.
Proof.
  intros n j c E B [|m] d M R; [|cbn [M_Cps.steps] in R; rewrite E in R; discriminate R]. injection R as R. subst d.
  split; [|intros _; exact B]. destruct c; try contradiction B. reflexivity.
Qed.
Lemma long_O : forall n c, idle n c -> long n 0 c.
Proof. intros n c H m c' M R. replace m with 0 in R by lia. injection R as R. subst c'. exact H. Qed.

(** ** Scopes. *)
Definition ext (F F' : list (tcode L)) : Prop := exists pre, F' = pre ++ F.
Lemma ext_refl : forall F, ext F F. Proof. intros F. exists []. reflexivity. Qed.
Lemma ext_trans : forall A B C, ext A B -> ext B C -> ext A C.
Proof. intros A B C (p & P) (q & Q). exists (q ++ p). rewrite Q, P, app_assoc. reflexivity. Qed.
Lemma ext_cons : forall t F, ext F (t :: F). Proof. intros t F. exists [t]. reflexivity. Qed.
Lemma ext_len : forall F F', ext F F' -> length F <= length F'.
Proof. intros F F' (p & ->). rewrite app_length. lia. Qed.
Lemma scope_ext : forall F F' k, ext F F' -> k < length F -> scope L k F' = scope L k F.
Proof.
  intros F F' k (p & ->) K. unfold scope. rewrite app_length.
  replace (length p + length F - S k) with (length p + (length F - S k)) by lia.
  generalize (length F - S k) as q. intros q. clear K. induction p as [|t p IH]; [reflexivity|]. cbn. exact IH.
Qed.
Lemma scope_top : forall t F, scope L (length F) (t :: F) = t :: F.
Proof. intros t F. unfold scope. cbn [length]. rewrite Nat.sub_diag. reflexivity. Qed.
Definition level (f : frame) : nat := match f with FSeq k | FLoop k => k end.
Definition ctx_ok (d : nat) (ctx : list frame) : Prop := Forall (fun f => level f < d) ctx.
Lemma ctx_weak : forall d d' ctx, d <= d' -> ctx_ok d ctx -> ctx_ok d' ctx.
Proof. intros d d' ctx H. apply Forall_impl. intros f F. lia. Qed.

(** ** What is to be shown of a statement. *)
Definition with_fs (E : env) (F : list (tcode L)) : env := Env F (ret_ L E) (act_ L E) (vl_ L E).
Definition kept (a : nat) (G G' : glob) : Prop :=
  nxt L G <= nxt L G' /\ forall b, b < nxt L G -> b <> a -> cells L G' b = cells L G b.
Definition sees (E : env) (l : locals) (G : glob) (ls : locals) : Prop := same L (view L E l G) ls.
Definition sees_cells (E : env) (G : glob) (ls : locals) : Prop := forall x, mem x (vl_ L E) = true -> cells L G (act_ L E) x = ls x.
Fixpoint ldrops (m : list mark) : nat := match m with DROP :: m => S (ldrops m) | _ => 0 end.
Fixpoint pdrops (m : list mark) : nat := match m with DROP :: m => S (pdrops m) | LOOP :: m => pdrops m | [] => 0 end.
Definition after (rest : nsuite L) (ctx : list frame) (E : env) (r : val L) (l : locals) (G : glob) : config :=
  match rest with
  | NNil _ => App (kont_of L E l (seqcont ctx)) r G
  | _ => Run (cps rest (length (fs_ L E)) ctx) E r l G
  end.
Definition arrives (n : nat) (c : config) (E : env) (ctx : list frame) (m : list mark) (rest : nsuite L) (G : glob)
    (ls : locals) (w : world L) (o : out L) : Prop :=
  exists F l r G', ext (fs_ L E) F /\ kept (act_ L E) G G' /\ wd L G' = w /\
  let E' := with_fs E F in
  match o with
  | ONext => sees E' l G' ls /\ catchers L G' = catchers L G /\ leads n c (after rest ctx E' r l G')
  | OBreak => sees E' l G' ls /\ catchers L G' = skipn (ldrops m) (catchers L G) /\
              forall j, brkcont ctx = Some j -> leads n c (App (kont_of L E' l j) r G')
  | OContinue => sees E' l G' ls /\ catchers L G' = skipn (ldrops m) (catchers L G) /\
              forall j, cntcont ctx = Some j -> leads n c (App (kont_of L E' l j) r G')
  | OReturn v => catchers L G' = skipn (pdrops m) (catchers L G) /\ leads n c (App (ret_ L E) v G')
  | ORaise x => sees_cells E G' ls /\ catchers L G' = catchers L G /\ leads n c (Fail x G')
  end.
Definition result (n J : nat) (c : config) E ctx m rest G (r : res L) : Prop :=
  match r with
  | None => long n J c
  | Some (ls, w, o) => arrives n c E ctx m rest G ls w o
  end.
(** ** Small facts. *)
Lemma kept_refl : forall a G, kept a G G. Proof. intros a G. split; [lia|]. reflexivity. Qed.
Lemma kept_trans : forall a G1 G2 G3, kept a G1 G2 -> kept a G2 G3 -> kept a G1 G3.
Proof. intros a G1 G2 G3 (A & B) (C & D). split; [lia|]. intros b B1 B2. rewrite D; [apply B; assumption|lia|exact B2]. Qed.
Lemma kept_fresh : forall a G G', kept (nxt L G) G G' -> kept a G G'.
Proof. intros a G G' (A & B). split; [exact A|]. intros b B1 _. apply B; [exact B1|lia]. Qed.
Lemma kept_call : forall a G G', a < nxt L G -> kept (nxt L G) G G' -> cells L G' a = cells L G a.
Proof. intros a G G' A (_ & B). apply B; lia. Qed.
Lemma kept_set : forall a l G w, kept a G (set_cells L a l G w).
Proof. intros a l G w. split; [cbn; lia|]. intros b _ B. cbn. destruct (Nat.eqb_spec b a); [contradiction|reflexivity]. Qed.
Lemma kept_catchers : forall a G k, kept a G (set_catchers L k G).
Proof. intros. split; [cbn; lia|]. reflexivity. Qed.
Lemma kept_world : forall a G w, kept a G (set_world L w G).
Proof. intros. split; [cbn; lia|]. reflexivity. Qed.
Lemma view_set : forall E l G w, sees E l (set_cells L (act_ L E) l G w) l.
Proof. intros E l G w x. unfold view, set_cells; cbn. rewrite Nat.eqb_refl. destruct (mem x _); reflexivity. Qed.
Lemma cells_set : forall E l G w, sees_cells E (set_cells L (act_ L E) l G w) l.
Proof. intros E l G w x _. cbn. rewrite Nat.eqb_refl. reflexivity. Qed.
Lemma sees_sees_cells : forall E l G ls, sees E l G ls -> sees_cells E G ls.
Proof. intros E l G ls H x X. specialize (H x). unfold view in H. rewrite X in H. exact H. Qed.
Lemma sees_same : forall E l G ls ls', sees E l G ls -> same L ls ls' -> sees E l G ls'.
Proof. intros E l G ls ls' H K. eapply same_trans; eassumption. Qed.
Lemma sees_cells_eq : forall E E' l G G' ls, vl_ L E' = vl_ L E -> act_ L E' = act_ L E -> cells L G' (act_ L E) = cells L G (act_ L E) ->
  sees E l G ls -> sees E' l G' ls.
Proof. intros E E' l G G' ls V A C H x. specialize (H x). unfold view in *. rewrite V, A, C. exact H. Qed.
Lemma napp_nil : forall a, napp L a (NNil L) = a.
Proof. induction a using nsuite_ind; [reflexivity|]. cbn. rewrite IHa. reflexivity. Qed.
Lemma napp_assoc : forall a b c, napp L (napp L a b) c = napp L a (napp L b c).
Proof. intros a b c. induction a using nsuite_ind; [reflexivity|]. cbn. rewrite IHa. reflexivity. Qed.
Lemma with_fs_id : forall E, with_fs E (fs_ L E) = E. Proof. intros []. reflexivity. Qed.

Variable f : call L -> list (val L) -> world L -> option (world L * (val L + exc L)).
Variables n J : nat.
Hypothesis JN : J <= n.
Definition ready (E : env) (l : locals) (G : glob) (ctx : list frame) (ls : locals) (v : list name) : Prop :=
  (forall x, In x v -> mem x (vl_ L E) = true) /\ ctx_ok (length (fs_ L E)) ctx /\ act_ L E < nxt L G /\ sees E l G ls.
Definition good_stmt (s : stmt L) : Prop := forall m rest E r l G ctx ls, ready E l G ctx ls (vol L s) ->
  result n J (Run (cps (napp L (lower_stmt L m s) rest) (length (fs_ L E)) ctx) E r l G) E ctx m rest G (exec_stmt f n s ls (wd L G)).
Definition good (ss : suite L) : Prop := forall m rest E r l G ctx ls, ready E l G ctx ls (vols L ss) ->
  result n J (Run (cps (napp L (lower L m ss) rest) (length (fs_ L E)) ctx) E r l G) E ctx m rest G (exec f n ss ls (wd L G)).
Definition good_last (ns : list mark -> nstmt L) (s : stmt L) : Prop := forall m E r l G ctx ls, ready E l G ctx ls (vol L s) ->
  result n J (Run (cps_last (ns m) (length (fs_ L E)) ctx) E r l G) E ctx m (NNil L) G (exec_stmt f n s ls (wd L G)).
Hypothesis Hf : forall ch j E r l G ls, act_ L E < nxt L G -> sees E l G ls ->
  let c := Run (TCall L ch j) E r l G in
  match f ch (map ls (args L ch)) (wd L G) with
  | None => long n J c
  | Some (w, inl v) => exists G', kept (nxt L G) G G' /\ wd L G' = w /\ catchers L G' = catchers L G /\ leads n c (App (kont_of L E l j) v G')
  | Some (w, inr x) => exists G', kept (nxt L G) G G' /\ wd L G' = w /\ catchers L G' = catchers L G /\ leads n c (Fail x G')
  end.

Lemma arrives_from : forall c c1 E F1 ctx m rest G G1 ls w o, leads n c c1 -> ext (fs_ L E) F1 -> kept (act_ L E) G G1 ->
  catchers L G1 = catchers L G -> arrives n c1 (with_fs E F1) ctx m rest G1 ls w o -> arrives n c E ctx m rest G ls w o.
Proof.
  intros c c1 E F1 ctx m rest G G1 ls w o S X K C (F & l & r & G' & A1 & A2 & A3 & A4).
  exists F, l, r, G'. split; [eapply ext_trans; eassumption|]. split; [eapply kept_trans; [exact K|exact A2]|]. split; [exact A3|].
  cbn in A4. cbn. destruct o; rewrite C in A4.
  - destruct A4 as (B1 & B2 & B3). repeat split; try assumption. eapply leads_trans; eassumption.
  - destruct A4 as (B1 & B2 & B3). repeat split; try assumption. intros j Q. eapply leads_trans; [exact S|apply B3; exact Q].
  - destruct A4 as (B1 & B2 & B3). repeat split; try assumption. intros j Q. eapply leads_trans; [exact S|apply B3; exact Q].
  - destruct A4 as (B2 & B3). split; [assumption|]. eapply leads_trans; eassumption.
  - destruct A4 as (B1 & B2 & B3). repeat split; try assumption. eapply leads_trans; eassumption.
Qed.
Lemma result_from : forall c c1 E F1 ctx m rest G G1 x, leads n c c1 -> ext (fs_ L E) F1 -> kept (act_ L E) G G1 ->
  catchers L G1 = catchers L G -> result n J c1 (with_fs E F1) ctx m rest G1 x -> result n J c E ctx m rest G x.
Proof.
  intros c c1 E F1 ctx m rest G G1 [[[ls w] o]|] S X K C R; cbn [result] in *; [|eapply long_leads; eassumption].
  eapply arrives_from; eassumption.
Qed.
Lemma one_step : forall a b, step n a = Some b -> leads n a b.
Proof. intros a b S. eapply leads_step; [exact S|apply leads_refl]. Qed.
Lemma run_after : forall rest ctx E r l G, exists r', leads n (Run (cps rest (length (fs_ L E)) ctx) E r l G) (after rest ctx E r' l G).
Proof.
  intros [|s rest] ctx E r l G.
  - exists (none L). apply one_step. reflexivity.
  - exists r. apply leads_refl.
Qed.
Lemma good_nil : good (Nil).
Proof.
  intros m rest E r l G ctx ls (R1 & R2 & R3 & R4). cbn [exec result]. destruct (run_after rest ctx E r l G) as (r' & H).
  exists (fs_ L E), l, r', G. split; [apply ext_refl|]. split; [apply kept_refl|]. split; [reflexivity|]. rewrite with_fs_id.
  split; [exact R4|]. split; [reflexivity|exact H].
Qed.
(** Statements that are left alone. *)
Lemma lower_plain : forall m s, need L false s = false -> lower_stmt L m s = one L (NSimple L s).
Proof. intros m s N. destruct s; cbn [lower_stmt]; rewrite ?N; reflexivity. Qed.
Lemma good_plain : forall s, need L false s = false -> good_stmt s.
Proof.
  intros s N m rest E r l G ctx ls (R1 & R2 & R3 & R4). rewrite (lower_plain m s N). cbn [one napp M_Cps.cps].
  destruct (proj1 (exec_plain L f (nocall L) n) s false ls (wd L G) N) as (P1 & P2). rewrite P1.
  pose proof (proj1 (exec_like L (nocall L) n) s _ _ (wd L G) R4) as P3.
  set (c := Run _ E r l G).
  assert (S : step n c = match exec_stmt (nocall L) n s (view L E l G) (wd L G) with
          | Some (l1, w1, ONext) => Some (Run (cps rest (length (fs_ L E)) ctx) E r l1 (set_cells L (act_ L E) l1 G w1))
          | Some (l1, w1, ORaise x) => Some (Fail x (set_cells L (act_ L E) l1 G w1))
          | _ => None end) by reflexivity.
  destruct (exec_stmt (nocall L) n s (view L E l G) (wd L G)) as [[[l1 w1] o]|] eqn:B0, (exec_stmt (nocall L) n s ls (wd L G)) as [[[l2 w2] o2]|]; cbn [like] in P3; try contradiction.
  2: { apply long_stuck; [exact S|exact B0]. }
  destruct P3 as (Q1 & Q2 & Q3). subst w2 o2. destruct o; cbn [tame_out] in P2; try discriminate P2; try contradiction; cbn [result].
  - destruct (run_after rest ctx E r l1 (set_cells L (act_ L E) l1 G w1)) as (r' & H).
    exists (fs_ L E), l1, r', (set_cells L (act_ L E) l1 G w1). split; [apply ext_refl|]. split; [apply kept_set|]. split; [reflexivity|].
    rewrite with_fs_id. split; [eapply sees_same; [apply view_set|exact Q1]|]. split; [reflexivity|]. eapply leads_step; [exact S|exact H].
  - exists (fs_ L E), l1, r, (set_cells L (act_ L E) l1 G w1). split; [apply ext_refl|]. split; [apply kept_set|]. split; [reflexivity|].
    split; [|split; [reflexivity|apply one_step; exact S]]. intros y Y. rewrite (cells_set E l1 G w1 y Y). apply Q1.
Qed.
(** Leaving. *)
Lemma glob_id : forall G, set_catchers L (catchers L G) G = G. Proof. intros []. reflexivity. Qed.
Lemma loop_drops : forall m s rest E r l G ctx,
  leads n (Run (cps (napp L (leave_loop L m s) rest) (length (fs_ L E)) ctx) E r l G)
          (Run (cps (NCons L s rest) (length (fs_ L E)) ctx) E r l (set_catchers L (skipn (ldrops m) (catchers L G)) G)).
Proof.
  induction m as [|[] m IH]; intros s rest E r l G ctx; cbn [leave_loop ldrops].
  - cbn [skipn one napp]. rewrite glob_id. apply leads_refl.
  - cbn [napp]. eapply leads_step; [reflexivity|]. destruct G as [w cl nx [|k K]]; cbn [catchers tl].
    + specialize (IH s rest E r l (set_catchers L [] (Glob L w cl nx [])) ctx). cbn in IH. rewrite skipn_nil in IH. exact IH.
    + exact (IH s rest E r l (set_catchers L K (Glob L w cl nx (k :: K))) ctx).
  - cbn [skipn one napp]. rewrite glob_id. apply leads_refl.
Qed.
Lemma proc_drops : forall m s rest E r l G ctx,
  leads n (Run (cps (napp L (leave_proc L m s) rest) (length (fs_ L E)) ctx) E r l G)
          (Run (cps (NCons L s rest) (length (fs_ L E)) ctx) E r l (set_catchers L (skipn (pdrops m) (catchers L G)) G)).
Proof.
  induction m as [|[] m IH]; intros s rest E r l G ctx; cbn [leave_proc pdrops].
  - cbn [skipn one napp]. rewrite glob_id. apply leads_refl.
  - cbn [napp]. eapply leads_step; [reflexivity|]. destruct G as [w cl nx [|k K]]; cbn [catchers tl].
    + specialize (IH s rest E r l (set_catchers L [] (Glob L w cl nx [])) ctx). cbn in IH. rewrite skipn_nil in IH. exact IH.
    + exact (IH s rest E r l (set_catchers L K (Glob L w cl nx (k :: K))) ctx).
  - apply IH.
Qed.
Lemma good_break : good_stmt Break.
Proof.
  intros m rest E r l G ctx ls (R1 & R2 & R3 & R4). cbn [exec_stmt result].
  exists (fs_ L E), l, (none L), (set_catchers L (skipn (ldrops m) (catchers L G)) G).
  split; [apply ext_refl|]. split; [apply kept_catchers|]. split; [reflexivity|]. rewrite with_fs_id. split; [exact R4|]. split; [reflexivity|].
  intros j Q. eapply leads_trans; [apply loop_drops|]. apply one_step. cbn [M_Cps.cps]. rewrite Q. reflexivity.
Qed.
Lemma good_continue : good_stmt Continue.
Proof.
  intros m rest E r l G ctx ls (R1 & R2 & R3 & R4). cbn [exec_stmt result].
  exists (fs_ L E), l, (none L), (set_catchers L (skipn (ldrops m) (catchers L G)) G).
  split; [apply ext_refl|]. split; [apply kept_catchers|]. split; [reflexivity|]. rewrite with_fs_id. split; [exact R4|]. split; [reflexivity|].
  intros j Q. eapply leads_trans; [apply loop_drops|]. apply one_step. cbn [M_Cps.cps]. rewrite Q. reflexivity.
Qed.
Lemma good_return : forall e, good_stmt (Return e).
Proof.
  intros [e|] m rest E r l G ctx ls (R1 & R2 & R3 & R4); cbn [exec_stmt].
  - set (c := Run _ E r l G).
    assert (S : step n c = match eval e (view L E l G) (wd L G) with
      | (w1, inl v) => Some (Run (cps (napp L (leave_proc L m (NRet L)) rest) (length (fs_ L E)) ctx) E v l (set_world L w1 G))
      | (w1, inr x) => Some (Fail x (set_world L w1 G)) end) by reflexivity.
    rewrite (same_eval L e _ _ (wd L G) R4) in S. destruct (eval e ls (wd L G)) as [w1 [v|x]]; cbn [result].
    + exists (fs_ L E), l, v, (set_catchers L (skipn (pdrops m) (catchers L G)) (set_world L w1 G)).
      split; [apply ext_refl|]. split; [apply kept_trans with (set_world L w1 G); [apply kept_world|apply kept_catchers]|]. split; [reflexivity|].
      split; [reflexivity|]. eapply leads_step; [exact S|]. eapply leads_trans; [apply proc_drops|]. apply one_step. reflexivity.
    + exists (fs_ L E), l, r, (set_world L w1 G). split; [apply ext_refl|]. split; [apply kept_world|]. split; [reflexivity|].
      split; [apply (sees_sees_cells E l); exact R4|]. split; [reflexivity|]. apply one_step. exact S.
  - cbn [result]. exists (fs_ L E), l, (none L), (set_catchers L (skipn (pdrops m) (catchers L G)) G).
    split; [apply ext_refl|]. split; [apply kept_catchers|]. split; [reflexivity|]. split; [reflexivity|].
    eapply leads_trans; [apply proc_drops|]. apply one_step. reflexivity.
Qed.
(** Calls. *)
Lemma no_drop_pdrops : forall m, no_drop m = true -> pdrops m = 0.
Proof. induction m as [|[] m IH]; intros H; [reflexivity|discriminate H|apply IH; exact H]. Qed.
Lemma leave_proc_cons : forall m s, exists s' ss, leave_proc L m s = NCons L s' ss.
Proof. induction m as [|[] m IH]; intros s; cbn; try (do 2 eexists; reflexivity). apply IH. Qed.
Lemma sees_call : forall E F l G G' ls, act_ L E < nxt L G -> kept (nxt L G) G G' -> sees E l G ls -> sees (with_fs E F) l G' ls.
Proof. intros E F l G G' ls A K S. apply (sees_cells_eq E (with_fs E F) l G G' ls); [reflexivity|reflexivity|apply kept_call; assumption|exact S]. Qed.
(** A call whose continuation is the function just defined. *)
Lemma call_def : forall ch t E r l G ls, act_ L E < nxt L G -> sees E l G ls ->
  let c := Run (TDef L t (TCall L ch (JFun (length (fs_ L E))))) E r l G in
  let E1 := with_fs E (t :: fs_ L E) in
  match f ch (map ls (args L ch)) (wd L G) with
  | None => long n J c
  | Some (w, inl v) => exists G', kept (nxt L G) G G' /\ wd L G' = w /\ catchers L G' = catchers L G /\ leads n c (Run t E1 v l G')
  | Some (w, inr x) => exists G', kept (nxt L G) G G' /\ wd L G' = w /\ catchers L G' = catchers L G /\ leads n c (Fail x G')
  end.
Proof.
  intros ch t E r l G ls A S c E1.
  assert (S1 : step n c = Some (Run (TCall L ch (JFun (length (fs_ L E)))) E1 r l G)) by reflexivity.
  pose proof (Hf ch (JFun (length (fs_ L E))) E1 r l G ls A S) as H. cbv zeta in H.
  destruct (f ch (map ls (args L ch)) (wd L G)) as [[w1 [v|x]]|].
  - destruct H as (G' & H1 & H2 & H3 & H4). exists G'. split; [exact H1|]. split; [exact H2|]. split; [exact H3|].
    eapply leads_step; [exact S1|]. eapply leads_trans; [exact H4|]. apply one_step. cbn [M_Cps.step kont_of E1 with_fs fs_ enter]. rewrite scope_top. reflexivity.
  - destruct H as (G' & H1 & H2 & H3 & H4). exists G'. split; [exact H1|]. split; [exact H2|]. split; [exact H3|]. eapply leads_step; eassumption.
  - eapply long_step; eassumption.
Qed.
Lemma good_returncall : forall ch, good_stmt (ReturnCall ch).
Proof.
  intros ch m rest E r l G ctx ls (R1 & R2 & R3 & R4). cbn [exec_stmt].
  change (lower_stmt L m (ReturnCall ch)) with (if no_drop m then one L (NTail L ch) else NCons L (NCall L None ch) (leave_proc L m (NRet L))).
  destruct (no_drop m) eqn:D.
  - pose proof (Hf ch JMeth E r l G ls R3 R4) as H. cbv zeta in H. cbn [one napp M_Cps.cps].
    destruct (f ch (map ls (args L ch)) (wd L G)) as [[w1 [v|x]]|]; cbn [result]; [| |exact H].
    + destruct H as (G' & H1 & H2 & H3 & H4). exists (fs_ L E), l, r, G'. split; [apply ext_refl|]. split; [apply kept_fresh; exact H1|].
      split; [exact H2|]. rewrite (no_drop_pdrops m D). split; [exact H3|exact H4].
    + destruct H as (G' & H1 & H2 & H3 & H4). exists (fs_ L E), l, r, G'. split; [apply ext_refl|]. split; [apply kept_fresh; exact H1|].
      split; [exact H2|]. split; [apply (sees_sees_cells E l); rewrite <- (with_fs_id E); apply sees_call with G; assumption|]. split; [exact H3|exact H4].
  - cbn [napp M_Cps.cps].
    assert (Q : match napp L (leave_proc L m (NRet L)) rest with NNil _ => TCall L ch (seqcont ctx)
       | NCons _ _ _ => TDef L (bind_res L None (cps (napp L (leave_proc L m (NRet L)) rest) (S (length (fs_ L E))) ctx)) (TCall L ch (JFun (length (fs_ L E)))) end
       = TDef L (cps (napp L (leave_proc L m (NRet L)) rest) (S (length (fs_ L E))) ctx) (TCall L ch (JFun (length (fs_ L E))))).
    { destruct (leave_proc_cons m (NRet L)) as (s' & ss & E1). rewrite E1. reflexivity. }
    rewrite Q. clear Q. set (t := cps (napp L (leave_proc L m (NRet L)) rest) (S (length (fs_ L E))) ctx).
    pose proof (call_def ch t E r l G ls R3 R4) as H. cbv zeta in H.
    destruct (f ch (map ls (args L ch)) (wd L G)) as [[w1 [v|x]]|]; cbn [result]; [| |exact H].
    + destruct H as (G' & H1 & H2 & H3 & H4). exists (t :: fs_ L E), l, v, (set_catchers L (skipn (pdrops m) (catchers L G')) G').
      split; [apply ext_cons|]. split; [eapply kept_trans; [apply kept_fresh; exact H1|apply kept_catchers]|].
      split; [exact H2|]. split; [cbn; rewrite H3; reflexivity|]. eapply leads_trans; [exact H4|].
      eapply leads_trans; [exact (proc_drops m (NRet L) rest (with_fs E (t :: fs_ L E)) v l G' ctx)|]. apply one_step. reflexivity.
    + destruct H as (G' & H1 & H2 & H3 & H4). exists (fs_ L E), l, r, G'. split; [apply ext_refl|]. split; [apply kept_fresh; exact H1|].
      split; [exact H2|]. split; [apply (sees_sees_cells E l); rewrite <- (with_fs_id E); apply sees_call with G; assumption|]. split; [exact H3|exact H4].
Qed.
Lemma good_call : forall x ch, good_stmt (Call x ch).
Proof.
  intros x ch m rest E r l G ctx ls (R1 & R2 & R3 & R4). cbn [exec_stmt].
  change (lower_stmt L m (Call x ch)) with (one L (NCall L x ch)). cbn [one napp].
  assert (D : (x = None /\ rest = NNil L) \/
     cps (NCons L (NCall L x ch) rest) (length (fs_ L E)) ctx = TDef L (bind_res L x (cps rest (S (length (fs_ L E))) ctx)) (TCall L ch (JFun (length (fs_ L E))))).
  { destruct x as [x|]; [right; reflexivity|]. destruct rest; [left; split; reflexivity|right; reflexivity]. }
  destruct D as [(-> & ->)|D].
  - pose proof (Hf ch (seqcont ctx) E r l G ls R3 R4) as H. cbv zeta in H. cbn [M_Cps.cps].
    destruct (f ch (map ls (args L ch)) (wd L G)) as [[w1 [v|y]]|]; cbn [result]; [| |exact H].
    + destruct H as (G' & H1 & H2 & H3 & H4). exists (fs_ L E), l, v, G'. split; [apply ext_refl|]. split; [apply kept_fresh; exact H1|].
      split; [exact H2|]. split; [apply sees_call with G; assumption|]. split; [exact H3|]. rewrite with_fs_id. exact H4.
    + destruct H as (G' & H1 & H2 & H3 & H4). exists (fs_ L E), l, r, G'. split; [apply ext_refl|]. split; [apply kept_fresh; exact H1|].
      split; [exact H2|]. split; [apply (sees_sees_cells E l); rewrite <- (with_fs_id E); apply sees_call with G; assumption|]. split; [exact H3|exact H4].
  - rewrite D. clear D. set (t := bind_res L x (cps rest (S (length (fs_ L E))) ctx)).
    pose proof (call_def ch t E r l G ls R3 R4) as H. cbv zeta in H.
    destruct (f ch (map ls (args L ch)) (wd L G)) as [[w1 [v|y]]|]; cbn [result]; [| |exact H].
    + destruct H as (G' & H1 & H2 & H3 & H4). set (E1 := with_fs E (t :: fs_ L E)) in *.
      assert (SE : sees E1 l G' ls) by (apply sees_call with G; assumption).
      destruct x as [x|]; cbn [bind_res bindopt] in *.
      * set (l1 := set (view L E1 l G') x v). set (G2 := set_cells L (act_ L E1) l1 G' (wd L G')).
        destruct (run_after rest ctx E1 v l1 G2) as (r' & H5). exists (t :: fs_ L E), l1, r', G2.
        split; [apply ext_cons|]. split; [eapply kept_trans; [apply kept_fresh; exact H1|apply kept_set]|]. split; [exact H2|].
        split; [eapply sees_same; [apply (view_set E1)|apply same_set; exact SE]|]. split; [exact H3|].
        eapply leads_trans; [exact H4|]. eapply leads_step; [reflexivity|exact H5].
      * destruct (run_after rest ctx E1 v l G') as (r' & H5). exists (t :: fs_ L E), l, r', G'.
        split; [apply ext_cons|]. split; [apply kept_fresh; exact H1|]. split; [exact H2|]. split; [exact SE|]. split; [exact H3|].
        eapply leads_trans; [exact H4|exact H5].
    + destruct H as (G' & H1 & H2 & H3 & H4). exists (fs_ L E), l, r, G'. split; [apply ext_refl|]. split; [apply kept_fresh; exact H1|].
      split; [exact H2|]. split; [apply (sees_sees_cells E l); rewrite <- (with_fs_id E); apply sees_call with G; assumption|]. split; [exact H3|exact H4].
Qed.
(** Compound statements. *)
Definition compound (s : nstmt L) : Prop := match s with NIf _ _ _ _ | NWhile _ _ | NTry _ _ _ => True | _ => False end.
Lemma good_wrap : forall ns s, (forall m, lower_stmt L m s = one L (ns m)) -> (forall m, compound (ns m)) -> good_last ns s -> good_stmt s.
Proof.
  intros ns s Lo C H m rest E r l G ctx ls R. rewrite Lo. cbn [one napp]. destruct rest as [|s1 rest].
  - replace (cps (NCons L (ns m) (NNil L)) (length (fs_ L E)) ctx) with (cps_last (ns m) (length (fs_ L E)) ctx).
    + apply H. exact R.
    + specialize (C m). destruct (ns m); try contradiction; reflexivity.
  - set (t := cps (NCons L s1 rest) (S (length (fs_ L E))) ctx). set (E1 := with_fs E (t :: fs_ L E)).
    replace (cps (NCons L (ns m) (NCons L s1 rest)) (length (fs_ L E)) ctx)
      with (TDef L t (cps_last (ns m) (S (length (fs_ L E))) (FSeq (length (fs_ L E)) :: ctx))).
    2: { specialize (C m). destruct (ns m); try contradiction; reflexivity. }
    set (c := Run _ E r l G). set (c1 := Run (cps_last (ns m) (S (length (fs_ L E))) (FSeq (length (fs_ L E)) :: ctx)) E1 r l G).
    assert (S1 : step n c = Some c1) by reflexivity. destruct R as (R1 & R2 & R3 & R4).
    assert (R' : ready E1 l G (FSeq (length (fs_ L E)) :: ctx) ls (vol L s)).
    { split; [exact R1|]. split; [|split; [exact R3|exact R4]]. constructor; [cbn; lia|]. eapply ctx_weak; [|exact R2]. cbn. lia. }
    specialize (H m E1 r l G _ ls R').
    change (result n J c1 E1 (FSeq (length (fs_ L E)) :: ctx) m (NNil L) G (exec_stmt f n s ls (wd L G))) in H.
    destruct (exec_stmt f n s ls (wd L G)) as [[[l2 w2] o]|]; cbn [result] in *; [|eapply long_step; eassumption].
    destruct H as (F & l' & r' & G' & A1 & A2 & A3 & A4). cbn in A1, A2, A4.
    assert (A1' : ext (fs_ L E) F) by (eapply ext_trans; [apply ext_cons|exact A1]).
    destruct o.
    + destruct A4 as (B1 & B2 & B3). exists (t :: fs_ L E), l', r', G'. split; [apply ext_cons|]. split; [exact A2|]. split; [exact A3|].
      split; [exact B1|]. split; [exact B2|]. eapply leads_step; [exact S1|]. eapply leads_trans; [exact B3|]. apply one_step.
      cbn [M_Cps.step kont_of with_fs fs_ enter]. rewrite (scope_ext _ _ _ A1); [|cbn; lia]. rewrite scope_top. reflexivity.
    + destruct A4 as (B1 & B2 & B3). exists F, l', r', G'. repeat split; try assumption; try apply A2. intros j Q. eapply leads_step; [exact S1|]. apply B3. exact Q.
    + destruct A4 as (B1 & B2 & B3). exists F, l', r', G'. repeat split; try assumption; try apply A2. intros j Q. eapply leads_step; [exact S1|]. apply B3. exact Q.
    + destruct A4 as (B2 & B3). exists F, l', r', G'. repeat split; try assumption; try apply A2. eapply leads_step; eassumption.
    + destruct A4 as (B1 & B2 & B3). exists F, l', r', G'. repeat split; try assumption; try apply A2. eapply leads_step; eassumption.
Qed.
Lemma good_nilrest : forall ss, good ss -> forall m E r l G ctx ls, ready E l G ctx ls (vols L ss) ->
  result n J (Run (cps (lower L m ss) (length (fs_ L E)) ctx) E r l G) E ctx m (NNil L) G (exec f n ss ls (wd L G)).
Proof. intros ss H m E r l G ctx ls R. specialize (H m (NNil L) E r l G ctx ls R). rewrite napp_nil in H. exact H. Qed.
Lemma ready_weak : forall E l G ctx ls v v', (forall x, In x v' -> In x v) -> ready E l G ctx ls v -> ready E l G ctx ls v'.
Proof. intros E l G ctx ls v v' H (R1 & R2 & R3 & R4). split; [|split; [exact R2|split; assumption]]. intros x X. apply R1, H, X. Qed.
Lemma good_if : forall e b els, good b -> good els -> good_stmt (If e b els).
Proof.
  intros e b els GB GE. destruct (need L false (If e b els)) eqn:N; [|apply good_plain; exact N].
  apply (good_wrap (fun m => NIf L e (lower L m b) (lower L m els))).
  - intros m. cbn [lower_stmt]. rewrite N. reflexivity.
  - intros m. exact I.
  - intros m E r l G ctx ls R. rewrite ex_if. destruct R as (R1 & R2 & R3 & R4).
    set (c := Run _ E r l G).
    assert (S : step n c = match eval e (view L E l G) (wd L G) with
        | (w1, inl v) => Some (Run (if truth L v then cps (lower L m b) (length (fs_ L E)) ctx else cps (lower L m els) (length (fs_ L E)) ctx) E r l (set_world L w1 G))
        | (w1, inr x) => Some (Fail x (set_world L w1 G)) end) by reflexivity.
    rewrite (same_eval L e _ _ (wd L G) R4) in S. destruct (eval e ls (wd L G)) as [w1 [v|x]].
    + apply one_step in S. apply (result_from c _ E (fs_ L E) ctx m (NNil L) G (set_world L w1 G) _ S); [apply ext_refl|apply kept_world|reflexivity|].
      rewrite with_fs_id. destruct (truth L v).
      * apply (good_nilrest b GB m E r l (set_world L w1 G) ctx ls). split; [|split; [exact R2|split; [exact R3|exact R4]]].
        intros x X. apply R1. apply in_or_app. left. exact X.
      * apply (good_nilrest els GE m E r l (set_world L w1 G) ctx ls). split; [|split; [exact R2|split; [exact R3|exact R4]]].
        intros x X. apply R1. apply in_or_app. right. exact X.
    + cbn [result]. exists (fs_ L E), l, r, (set_world L w1 G). split; [apply ext_refl|]. split; [apply kept_world|]. split; [reflexivity|].
      split; [apply (sees_sees_cells E l); exact R4|]. split; [reflexivity|]. apply one_step. exact S.
Qed.
Lemma lower_stmt_cons : forall m s, exists s' ss, lower_stmt L m s = NCons L s' ss.
Proof.
  intros m s. destruct (need L false s) eqn:N; [|rewrite (lower_plain m s N); do 2 eexists; reflexivity].
  destruct s; cbn [lower_stmt]; rewrite ?N; try (do 2 eexists; reflexivity).
  - destruct e as [e|]; [do 2 eexists; reflexivity|]. apply leave_proc_cons.
  - destruct (no_drop m); do 2 eexists; reflexivity.
  - destruct m as [|[] m]; do 2 eexists; reflexivity.
  - destruct m as [|[] m]; do 2 eexists; reflexivity.
Qed.
Lemma good_cons : forall s ss, good_stmt s -> good ss -> good (Cons s ss).
Proof.
  intros s ss GS GSS m rest E r l G ctx ls R. rewrite ex_cons. change (lower L m (Cons s ss)) with (napp L (lower_stmt L m s) (lower L m ss)).
  rewrite napp_assoc. set (rest' := napp L (lower L m ss) rest).
  assert (R1 : ready E l G ctx ls (vol L s)) by (eapply ready_weak; [|exact R]; intros x X; apply in_or_app; left; exact X).
  specialize (GS m rest' E r l G ctx ls R1). set (c := Run _ E r l G) in *.
  destruct (exec_stmt f n s ls (wd L G)) as [[[l2 w2] o]|]; [|exact GS]. cbn [result] in GS.
  destruct o; cbn [result].
  2-5: destruct GS as (F & l' & r' & G' & A1 & A2 & A3 & A4); exists F, l', r', G'; repeat (split; [assumption|]); exact A4.
  destruct GS as (F & l' & r' & G' & A1 & A2 & A3 & B1 & B2 & B3).
  assert (D : (ss = Nil /\ rest = NNil L) \/ after rest' ctx (with_fs E F) r' l' G' = Run (cps rest' (length F) ctx) (with_fs E F) r' l' G').
  { unfold rest'. destruct ss as [|s1 ss]; [destruct rest; [left; split; reflexivity|right; reflexivity]|].
    right. change (lower L m (Cons s1 ss)) with (napp L (lower_stmt L m s1) (lower L m ss)). destruct (lower_stmt_cons m s1) as (a & b & Q). rewrite Q. reflexivity. }
  destruct D as [(D1 & D2)|D].
  - subst ss rest. cbn [exec result]. exists F, l', r', G'. split; [exact A1|]. split; [exact A2|]. split; [exact A3|]. split; [exact B1|]. split; [exact B2|exact B3].
  - rewrite D in B3. apply (result_from c _ E F ctx m rest G G' _ B3 A1 A2 B2). subst w2.
    apply (GSS m rest (with_fs E F) r' l' G' ctx l2). destruct R as (Q1 & Q2 & Q3 & Q4). split; [|split; [|split]].
    + intros x X. apply Q1. apply in_or_app. right. exact X.
    + eapply ctx_weak; [|exact Q2]. apply ext_len. exact A1.
    + destruct A2 as (A2 & _). cbn. lia.
    + exact B1.
Qed.
Lemma good_try : forall b els x h, good b -> good els -> good h -> good_stmt (Try b els x h).
Proof.
  intros b els x h GB GE GH. destruct (need L false (Try b els x h)) eqn:N; [|apply good_plain; exact N].
  apply (good_wrap (fun m => NTry L (napp L (lower L (DROP :: m) b) (NCons L (NDrop L) (lower L m els))) (NCons L (NPop L x) (lower L m h)))).
  { intros m. cbn [lower_stmt]. rewrite N. reflexivity. }
  { intros m. exact I. }
  intros m E r l G ctx ls R. rewrite ex_try. destruct R as (R1 & R2 & R3 & R4).
  cbn [vol] in R1. rewrite N in R1.
  set (B := napp L (lower L (DROP :: m) b) (NCons L (NDrop L) (lower L m els))).
  set (d := length (fs_ L E)). set (t := TIfRes L (cps B (S d) ctx) (TPop L x (cps (lower L m h) (S d) ctx))).
  set (E1 := with_fs E (t :: fs_ L E)). set (k := kont_of L E1 l (JFun d)).
  set (G1 := set_catchers L ((k, None) :: catchers L G) G).
  set (c := Run _ E r l G).
  assert (Ek : forall v g, enter L k v g = Some (Run t E1 v l g)).
  { intros v g. unfold k. cbn [kont_of E1 with_fs fs_ enter]. unfold d. rewrite scope_top. reflexivity. }
  assert (S1 : leads n c (Run (cps B (S d) ctx) E1 (yes L) l G1)).
  { eapply leads_step; [reflexivity|]. eapply leads_step; [reflexivity|]. eapply leads_step; [exact (Ek (yes L) G1)|].
    eapply leads_step; [reflexivity|]. rewrite truth_yes. apply leads_refl. }
  assert (RB : ready E1 l G1 ctx ls (vols L b)).
  { split; [|split; [|split; [exact R3|exact R4]]].
    - intros y Y. apply R1. apply in_or_app. right. apply in_or_app. left. exact Y.
    - eapply ctx_weak; [|exact R2]. cbn. lia. }
  pose proof (GB (DROP :: m) (NCons L (NDrop L) (lower L m els)) E1 (yes L) l G1 ctx ls RB) as H.
  change (wd L G1) with (wd L G) in H.
  change (result n J (Run (cps B (S d) ctx) E1 (yes L) l G1) E1 ctx (DROP :: m) (NCons L (NDrop L) (lower L m els)) G1 (exec f n b ls (wd L G))) in H.
  pose proof (proj2 (exec_only L f n) b ls (wd L G)) as ON.
  destruct (exec f n b ls (wd L G)) as [[[l2 w2] o]|]; [|cbn [result] in *; eapply long_leads; eassumption].
  cbn [result] in H. destruct H as (F & l' & r' & G' & A1 & A2 & A3 & A4). cbn in A1.
  assert (A1' : ext (fs_ L E) F) by (eapply ext_trans; [apply ext_cons|exact A1]).
  assert (K1 : kept (act_ L E) G G') by (eapply kept_trans; [apply (kept_catchers _ G)|exact A2]).
  destruct o.
  - destruct A4 as (B1 & B2 & B3). set (G2 := set_catchers L (catchers L G) G').
    assert (S2 : leads n c (Run (cps (lower L m els) (length F) ctx) (with_fs E F) r' l' G2)).
    { eapply leads_trans; [exact S1|]. eapply leads_trans; [exact B3|]. apply one_step. cbn [after M_Cps.cps M_Cps.step]. rewrite B2. reflexivity. }
    apply (result_from c _ E F ctx m (NNil L) G G2 _ S2 A1'); [eapply kept_trans; [exact K1|apply kept_catchers]|reflexivity|].
    subst w2. apply (good_nilrest els GE m (with_fs E F) r' l' G2 ctx l2). split; [|split; [|split]].
    + intros y Y. apply R1. apply in_or_app. right. apply in_or_app. right. apply in_or_app. left. exact Y.
    + eapply ctx_weak; [|exact R2]. apply ext_len. exact A1'.
    + destruct K1 as (K1 & _). cbn. lia.
    + exact B1.
  - cbn [result]. destruct A4 as (B1 & B2 & B3). exists F, l', r', G'. split; [exact A1'|]. split; [exact K1|]. split; [exact A3|]. split; [exact B1|]. split; [exact B2|].
    intros j Q. eapply leads_trans; [exact S1|apply B3; exact Q].
  - cbn [result]. destruct A4 as (B1 & B2 & B3). exists F, l', r', G'. split; [exact A1'|]. split; [exact K1|]. split; [exact A3|]. split; [exact B1|]. split; [exact B2|].
    intros j Q. eapply leads_trans; [exact S1|apply B3; exact Q].
  - cbn [result]. destruct A4 as (B2 & B3). exists F, l', r', G'. split; [exact A1'|]. split; [exact K1|]. split; [exact A3|]. split; [exact B2|].
    eapply leads_trans; eassumption.
  - destruct A4 as (B1 & B2 & B3).
    assert (V : sees E1 l G' l2).
    { intros y. unfold view. cbn [E1 with_fs vl_ act_]. destruct (mem y (vl_ L E)) eqn:M; [apply B1; exact M|].
      cbn [only] in ON. rewrite (ON y).
      - specialize (R4 y). unfold view in R4. rewrite M in R4. exact R4.
      - intros Y. rewrite R1 in M; [discriminate M|]. apply in_or_app. left. apply in_or_app. left. exact Y. }
    set (l3 := set (view L E1 l G') x (caught L x0)).
    set (G3 := set_catchers L (catchers L G) (set_cells L (act_ L E1) l3 G' (wd L G'))).
    assert (S2 : leads n c (Run (cps (lower L m h) (S d) ctx) E1 (no L) l3 G3)).
    { eapply leads_trans; [exact S1|]. eapply leads_trans; [exact B3|].
      eapply leads_step; [cbn [M_Cps.step]; rewrite B2; reflexivity|]. eapply leads_step; [exact (Ek _ _)|].
      eapply leads_step; [reflexivity|]. rewrite truth_no. eapply leads_step; [reflexivity|]. apply leads_refl. }
    apply (result_from c _ E (t :: fs_ L E) ctx m (NNil L) G G3 _ S2); [apply ext_cons| |reflexivity|].
    { eapply kept_trans; [exact K1|]. eapply kept_trans; [apply (kept_set (act_ L E) l3 G' (wd L G'))|apply kept_catchers]. }
    subst w2. apply (good_nilrest h GH m E1 (no L) l3 G3 ctx (set l2 x (caught L x0))). split; [|split; [|split]].
    + intros y Y. apply R1. apply in_or_app. right. apply in_or_app. right. apply in_or_app. right. exact Y.
    + eapply ctx_weak; [|exact R2]. cbn. lia.
    + destruct K1 as (K1 & _). cbn. lia.
    + eapply sees_same; [exact (view_set E1 l3 G' (wd L G'))|]. apply same_set. exact V.
Qed.
Definition test (e : expr L) : stmt L := If e Nil (Cons Break Nil).
Lemma good_while : forall e b, good b -> good_stmt (While e b).
Proof.
  intros e b GB. destruct (need L false (While e b)) eqn:N; [|apply good_plain; exact N].
  apply (good_wrap (fun m => NWhile L (lower L (LOOP :: m) (Cons (test e) b)))).
  { intros m. cbn [lower_stmt]. rewrite N. reflexivity. }
  { intros m. exact I. }
  intros m E r l G ctx ls R. rewrite ex_while.
  set (d := length (fs_ L E)). set (t := cps (lower L (LOOP :: m) (Cons (test e) b)) (S d) (FLoop d :: ctx)).
  set (E1 := with_fs E (t :: fs_ L E)). set (c := Run _ E r l G).
  assert (GT : good (Cons (test e) b)).
  { apply good_cons; [|exact GB]. apply good_if; [exact good_nil|]. apply good_cons; [exact good_break|exact good_nil]. }
  assert (Lp : forall j r l G ls, ready E1 l G (FLoop d :: ctx) ls (vols L b) ->
     result n (min J j) (Run t E1 r l G) E ctx m (NNil L) G (while_ j e (exec f n b) ls (wd L G))).
  { clear r l G ls R c. induction j as [|j IH]; intros r l G ls R.
    - cbn [while_ result]. rewrite Nat.min_0_r. apply long_O. split; [reflexivity|]. intros Q. exfalso. revert Q. unfold t.
      change (lower L (LOOP :: m) (Cons (test e) b)) with (NCons L (NIf L e (NNil L) (one L (NBreak L))) (lower L (LOOP :: m) b)). cbn [M_Cps.cps].
      destruct (lower L (LOOP :: m) b); [|discriminate]. cbn [M_Cps.cps_last M_Cps.step]. destruct (eval e _ _) as [? []]; discriminate.
    - pose proof (good_nilrest _ GT (LOOP :: m) E1 r l G (FLoop d :: ctx) ls) as H.
      change (vols L (Cons (test e) b)) with (vols L b) in H. specialize (H R).
      change (result n J (Run t E1 r l G) E1 (FLoop d :: ctx) (LOOP :: m) (NNil L) G (exec f n (Cons (test e) b) ls (wd L G))) in H.
      rewrite ex_cons in H. unfold test in H. rewrite ex_if in H. cbn [while_]. set (c := Run t E1 r l G) in *.
      assert (Again : forall l2 w2 F l' r' G', ext (t :: fs_ L E) F -> kept (act_ L E) G G' -> wd L G' = w2 -> sees (with_fs E1 F) l' G' l2 ->
        catchers L G' = catchers L G -> leads n c (App (kont_of L (with_fs E1 F) l' (JFun d)) r' G') ->
        result n (min J (S j)) c E ctx m (NNil L) G (while_ j e (exec f n b) l2 w2)).
      { intros l2 w2 F l' r' G' X K W V C S2.
        assert (S3 : step n (App (kont_of L (with_fs E1 F) l' (JFun d)) r' G') = Some (Run t E1 r' l' G')).
        { cbn [M_Cps.step kont_of with_fs fs_ enter]. rewrite (scope_ext _ _ _ X); [|cbn; unfold d; lia]. unfold d. rewrite scope_top. reflexivity. }
        destruct R as (R1 & R2 & R3 & R4).
        assert (R' : ready E1 l' G' (FLoop d :: ctx) l2 (vols L b)).
        { split; [exact R1|]. split; [exact R2|]. split; [destruct K as (K & _); cbn; cbn in R3; lia|exact V]. }
        specialize (IH r' l' G' l2 R'). rewrite W in IH.
        destruct (while_ j e (exec f n b) l2 w2) as [[[l3 w3] o3]|]; cbn [result] in *.
        - apply (arrives_from c (Run t E1 r' l' G') E (fs_ L E) ctx m (NNil L) G G');
            [eapply leads_trans; [exact S2|apply one_step; exact S3]|apply ext_refl|exact K|exact C|]. rewrite with_fs_id. exact IH.
        - eapply long_leads; [exact S2|]. apply (long_weak n _ (S (min J j))); [lia|]. eapply long_S; [exact S3|exact IH]. }
      destruct (eval e ls (wd L G)) as [w1 [v|x]].
      2: { cbn [result] in *. destruct H as (F & l' & r' & G' & A1 & A2 & A3 & B1 & B2 & B3).
           exists F, l', r', G'. split; [eapply ext_trans; [apply ext_cons|exact A1]|]. split; [exact A2|]. split; [exact A3|]. split; [exact B1|]. split; [exact B2|exact B3]. }
      destruct (truth L v).
      2: { cbn in H. destruct H as (F & l' & r' & G' & A1 & A2 & A3 & B1 & B2 & B3). cbn [result].
           exists F, l', r', G'. split; [eapply ext_trans; [apply ext_cons|exact A1]|]. split; [exact A2|]. split; [exact A3|]. split; [exact B1|]. split; [exact B2|].
           exact (B3 _ eq_refl). }
      cbn [exec] in H. destruct (exec f n b ls w1) as [[[l2 w2] o]|]; [|cbn [result] in *; eapply long_weak; [|exact H]; lia].
      cbn [result] in H. destruct H as (F & l' & r' & G' & A1 & A2 & A3 & A4).
      assert (A1' : ext (fs_ L E) F) by (eapply ext_trans; [apply ext_cons|exact A1]).
      destruct o; cbn [after_body].
      + destruct A4 as (B1 & B2 & B3). apply (Again l2 w2 F l' r' G'); assumption.
      + cbn [result]. destruct A4 as (B1 & B2 & B3). exists F, l', r', G'. split; [exact A1'|]. split; [exact A2|]. split; [exact A3|]. split; [exact B1|]. split; [exact B2|].
        exact (B3 _ eq_refl).
      + destruct A4 as (B1 & B2 & B3). apply (Again l2 w2 F l' r' G'); try assumption. exact (B3 _ eq_refl).
      + cbn [result]. destruct A4 as (B2 & B3). exists F, l', r', G'. split; [exact A1'|]. split; [exact A2|]. split; [exact A3|]. split; [exact B2|exact B3].
      + cbn [result]. destruct A4 as (B1 & B2 & B3). exists F, l', r', G'. split; [exact A1'|]. split; [exact A2|]. split; [exact A3|]. split; [exact B1|]. split; [exact B2|exact B3]. }
  assert (S1 : leads n c (Run t E1 (none L) l G)).
  { eapply leads_step; [reflexivity|]. apply one_step. cbn [M_Cps.step kont_of enter fs_ ret_ act_ vl_]. fold d. fold t. unfold d. rewrite scope_top. reflexivity. }
  destruct R as (R1 & R2 & R3 & R4).
  assert (R' : ready E1 l G (FLoop d :: ctx) ls (vols L b)).
  { split; [exact R1|]. split; [|split; [exact R3|exact R4]]. constructor; [cbn; unfold d; lia|]. eapply ctx_weak; [|exact R2]. cbn. lia. }
  apply (result_from c (Run t E1 (none L) l G) E (fs_ L E) ctx m (NNil L) G G); [exact S1|apply ext_refl|apply kept_refl|reflexivity|].
  rewrite with_fs_id. specialize (Lp n (none L) l G ls R'). rewrite (Nat.min_l J n JN) in Lp. exact Lp.
Qed.
Lemma all_good : (forall s, good_stmt s) /\ (forall ss, good ss).
Proof.
  apply stmt_suite_ind.
  - intros e. apply good_plain. reflexivity.
  - intros x e. apply good_plain. reflexivity.
  - intros e. apply good_plain. reflexivity.
  - exact good_call.
  - exact good_return.
  - exact good_returncall.
  - exact good_break.
  - exact good_continue.
  - intros e b IB els IE. apply good_if; assumption.
  - intros e b IB. apply good_while. exact IB.
  - intros b IB els IE x h IH. apply good_try; assumption.
  - exact good_nil.
  - intros s IS ss ISS. apply good_cons; assumption.
Qed.
Lemma mem_in : forall x vl, In x vl -> mem x vl = true.
Proof. intros x vl H. unfold mem. apply existsb_exists. exists x. split; [exact H|apply Nat.eqb_refl]. Qed.
(** A whole procedure. *)
Lemma proc_good : forall p k a l r G, closed (body p) = true -> a < nxt L G -> cells L G a = l ->
  let c := Run (compile L (body p)) (Env [] k a (vols L (body p))) r l G in
  match finish (exec f n (body p) l (wd L G)) with
  | None => long n J c
  | Some (w, inl v) => exists G', kept a G G' /\ wd L G' = w /\ catchers L G' = catchers L G /\ leads n c (App k v G')
  | Some (w, inr x) => exists G', kept a G G' /\ wd L G' = w /\ catchers L G' = catchers L G /\ leads n c (Fail x G')
  end.
Proof.
  intros p k a l r G C A Ce c. set (E := Env [] k a (vols L (body p))) in *.
  assert (R : ready E l G [] l (vols L (body p))).
  { split; [intros x X; apply mem_in; exact X|]. split; [constructor|]. split; [exact A|]. intros x. unfold view, E. cbn [vl_ act_]. rewrite Ce. destruct (mem x (vols L (body p))); reflexivity. }
  assert (H : result n J c E [] [] (if falls L (body p) then one L (NRetNone L) else NNil L) G (exec f n (body p) l (wd L G))).
  { unfold c, compile, lower_proc. destruct (falls L (body p)).
    - exact (proj2 all_good (body p) [] (one L (NRetNone L)) E r l G [] l R).
    - exact (good_nilrest _ (proj2 all_good (body p)) [] E r l G [] l R). }
  pose proof (fun l' w' F => proj2 (exec_falls L f n) (body p) l (wd L G) l' w' F) as NF.
  pose proof (proj2 (exec_closed L f n) (body p) l (wd L G) C) as NC.
  destruct (exec f n (body p) l (wd L G)) as [[[l2 w2] o]|]; [|exact H]. cbn [result] in H.
  destruct H as (F & l' & r' & G' & A1 & A2 & A3 & A4). destruct o; cbn [no_loop_out] in NC; try contradiction; cbn [finish].
  - destruct (falls L (body p)) eqn:Q; [|exfalso; exact (NF l2 w2 eq_refl eq_refl)].
    destruct A4 as (B1 & B2 & B3). exists G'. split; [exact A2|]. split; [exact A3|]. split; [exact B2|].
    eapply leads_trans; [exact B3|]. apply one_step. reflexivity.
  - destruct A4 as (B2 & B3). exists G'. split; [exact A2|]. split; [exact A3|]. split; [exact B2|exact B3].
  - destruct A4 as (B1 & B2 & B3). exists G'. split; [exact A2|]. split; [exact A3|]. split; [exact B2|exact B3].
Qed.
End Sim.

(** ** The whole program. *)
Section Program.
Variable L : lang.
Variable body : proc L -> suite L.
Hypothesis closed_bodies : forall p, closed (body p) = true.
Lemma calls_good : forall d n ch j E r l G ls, act_ L E < nxt L G -> sees L E l G ls ->
  let c := Run L (TCall L ch j) E r l G in
  match calls body d n ch (map ls (args L ch)) (wd L G) with
  | None => long L body n (min d n) c
  | Some (w, inl v) => exists G', kept L (nxt L G) G G' /\ wd L G' = w /\ catchers L G' = catchers L G /\ leads L body n c (App L (kont_of L E l j) v G')
  | Some (w, inr x) => exists G', kept L (nxt L G) G G' /\ wd L G' = w /\ catchers L G' = catchers L G /\ leads L body n c (Fail L x G')
  end.
Proof.
  induction d as [|d IH]; intros n ch j E r l G ls A V c.
  - cbn [calls min]. apply long_O. split; [reflexivity|]. unfold c. cbn [M_Cps.step blocked].
    destruct (callee L ch _ _) as [[p l0]|[[w1 [v|x]]|]]; intros Q; try discriminate Q. reflexivity.
  - cbn [calls].
    assert (ST : step L body n c = match callee L ch (map (view L E l G) (args L ch)) (wd L G) with
          | inl (p, l0) =>
              Some (Run L (compile L (body p)) (Env L [] (kont_of L E l j) (nxt L G) (vols L (body p))) (none L) l0
                        (Glob L (wd L G) (fun b => if b =? nxt L G then l0 else cells L G b) (S (nxt L G)) (catchers L G)))
          | inr (Some (w1, inl v)) => Some (App L (kont_of L E l j) v (set_world L w1 G))
          | inr (Some (w1, inr x)) => Some (Fail L x (set_world L w1 G))
          | inr None => None
          end) by reflexivity.
    rewrite (same_map L _ _ (args L ch) V) in ST.
    destruct (callee L ch (map ls (args L ch)) (wd L G)) as [[p l0]|[[w1 [v|x]]|]] eqn:CE.
    + set (G1 := Glob L (wd L G) (fun b => if b =? nxt L G then l0 else cells L G b) (S (nxt L G)) (catchers L G)) in *.
      assert (K0 : kept L (nxt L G) G G1).
      { split; [cbn; lia|]. intros b B1 B2. cbn. destruct (Nat.eqb_spec b (nxt L G)); [contradiction|reflexivity]. }
      pose proof (proc_good L body (calls body d n) n (min d n) ltac:(lia) (IH n) p (kont_of L E l j) (nxt L G) l0 (none L) G1 (closed_bodies p)) as H.
      specialize (H ltac:(cbn; lia) ltac:(cbn; rewrite Nat.eqb_refl; reflexivity)). cbv zeta in H. change (wd L G1) with (wd L G) in H.
      destruct (finish (exec (calls body d n) n (body p) l0 (wd L G))) as [[w1 [v|x]]|].
      * destruct H as (G' & H1 & H2 & H3 & H4). exists G'. split; [eapply kept_trans; [exact K0|exact H1]|]. split; [exact H2|]. split; [exact H3|].
        eapply leads_step; [exact ST|exact H4].
      * destruct H as (G' & H1 & H2 & H3 & H4). exists G'. split; [eapply kept_trans; [exact K0|exact H1]|]. split; [exact H2|]. split; [exact H3|].
        eapply leads_step; [exact ST|exact H4].
      * apply (long_weak L body n _ (Datatypes.S (min d n))); [lia|]. eapply long_S; [exact ST|exact H].
    + exists (set_world L w1 G). split; [apply kept_world|]. split; [reflexivity|]. split; [reflexivity|]. eapply one_step. exact ST.
    + exists (set_world L w1 G). split; [apply kept_world|]. split; [reflexivity|]. split; [reflexivity|]. eapply one_step. exact ST.
    + apply long_stuck; [exact ST|]. unfold c. cbn [blocked]. rewrite (same_map L _ _ (args L ch) V). exact CE.
Qed.
Lemma run_good : forall d n p l w,
  match run_proc body d n p l w with
  | None => long L body n (min d n) (start L body p l w)
  | Some (w', inl v) => exists m, steps L body n m (start L body p l w) = Some (Done L v w')
  | Some (w', inr x) => exists m, steps L body n m (start L body p l w) = Some (Uncaught L x w')
  end.
Proof.
  intros d n p l w. unfold run_proc.
  pose proof (proc_good L body (calls body d n) n (min d n) ltac:(lia) (calls_good d n) p (KTop L) 0 l (none L) (Glob L w (fun _ => l) 1 []) (closed_bodies p)) as H.
  specialize (H ltac:(cbn; lia) eq_refl). cbv zeta in H. cbn [wd] in H. fold (start L body p l w) in H.
  destruct (finish (exec (calls body d n) n (body p) l w)) as [[w1 [v|x]]|]; [| |exact H].
  - destruct H as (G' & _ & H2 & _ & H4). subst w1. apply (leads_trans L body n _ _ _ H4). apply one_step. reflexivity.
  - destruct H as (G' & _ & H2 & H3 & H4). subst w1. apply (leads_trans L body n _ _ _ H4). apply one_step. cbn [M_Cps.step]. rewrite H3. reflexivity.
Qed.
End Program.

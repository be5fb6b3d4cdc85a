(** Invariant of the runtime, part 4: exception handlers and creation of messages. *)
From Verif Require Import Base S_Rts M_Rts P_RtsTok.
Local Open Scope nat_scope.

(** All transitions, one goal each. *)
Ltac step_cases St :=
  destruct St as [t q a r Ht Hs Hq|t x a m c v s' Ht Ha E|t i rest s' Ht E|t B c Ht|t m r Ht E|d Hd];
  [ | destruct x as [B c'|d c'|c'| |j|r]; cbn [run_act] in E
    | destruct i; cbn [exec] in E; try discriminate E | | | ].

Section L2.
Context {U V : Type}.
Variable vfalse vdone : V.
Variable shared : nat.
Notation instr := (instr U V).
Notation state := (state U V).
Notation step := (step vfalse vdone shared).

Record book (s : state) : Prop := {
  bk_catch : forall a, catch s a = handlers a (log s);
  bk_new : forall m, m < next s -> exists c, created m (mto s m) c (log s);
  bk_old : forall m B c, created m B c (log s) -> m < next s /\ mto s m = B
}.

Lemma created_cons m B c e (h : list (event U V)) :
  created m B c (e :: h) <->
  created m B c h \/ (exists A, e = EAsync A B m c) \/ (exists d, e = EAfter B m d c) \/ (exists n, e = EExt B m n c).
Proof.
  unfold created. split.
  - intros [(A & [->|H])|[(d & [->|H])|(n & [->|H])]]; eauto 10.
  - intros [[(A & H)|[(d & H)|(n & H)]]|[(A & ->)|[(d & ->)|(n & ->)]]]; eauto 10 using in_eq, in_cons.
Qed.
Lemma created_mono m B c (h h' : list (event U V)) : incl h h' -> created m B c h -> created m B c h'.
Proof. intros I [(A & H)|[(d & H)|(n & H)]]; unfold created; eauto 10. Qed.

Definition not_create (e : event U V) : Prop :=
  match e with EAsync _ _ _ _ | EAfter _ _ _ _ | EExt _ _ _ _ => False | _ => True end.

Lemma created_quiet m B c e (h : list (event U V)) : not_create e -> created m B c (e :: h) <-> created m B c h.
Proof.
  intros Q. rewrite created_cons. split; [|tauto].
  intros [H|[(? & ->)|[(? & ->)|(? & ->)]]]; [assumption|destruct Q..].
Qed.

(** Steps that log at most one event, which creates nothing. *)
Lemma book_quiet (s s' : state) e :
  book s -> next s' = next s -> mto s' = mto s ->
  log s' = e :: log s -> not_create e ->
  (forall a, catch s' a = handlers a (e :: log s)) -> book s'.
Proof.
  intros [B1 B2 B3] En Em El Q Hc. constructor; rewrite ?En, ?Em, ?El; [assumption| |].
  - intros m Hm. destruct (B2 m Hm) as [c H]. exists c. now apply created_quiet.
  - intros m B c H. apply created_quiet in H; eauto.
Qed.
Lemma book_same (s s' : state) :
  book s -> next s' = next s -> mto s' = mto s -> log s' = log s -> catch s' = catch s -> book s'.
Proof.
  intros [B1 B2 B3] En Em El Ec. constructor; rewrite ?En, ?Em, ?El, ?Ec; assumption.
Qed.
Lemma book_new (s s' : state) e B c :
  book s -> next s' = S (next s) -> mto s' = upd (mto s) (next s) B ->
  log s' = e :: log s -> (forall a, catch s' a = catch s a) ->
  (exists A, e = EAsync A B (next s) c) \/ (exists d, e = EAfter B (next s) d c) \/ (exists n, e = EExt B (next s) n c) ->
  book s'.
Proof.
  intros [B1 B2 B3] En Em El Hc He. constructor; rewrite ?En, ?Em, ?El.
  - intros a. rewrite Hc, B1. destruct He as [(? & ->)|[(? & ->)|(? & ->)]]; reflexivity.
  - intros m Hm. destruct (Nat.eq_dec m (next s)) as [->|N].
    + exists c. rewrite upd_same, created_cons. right. exact He.
    + rewrite upd_other by assumption. destruct (B2 m) as [c' H]; [lia|]. exists c'. rewrite created_cons. now left.
  - intros m B' c' H. rewrite created_cons in H.
    destruct H as [H|[(? & ->)|[(? & ->)|(? & ->)]]].
    + apply B3 in H. destruct H. split; [lia|]. rewrite upd_other by lia. assumption.
    + destruct He as [(? & E)|[(? & E)|(? & E)]]; inversion E; subst; split; [lia|apply upd_same].
    + destruct He as [(? & E)|[(? & E)|(? & E)]]; inversion E; subst; split; [lia|apply upd_same].
    + destruct He as [(? & E)|[(? & E)|(? & E)]]; inversion E; subst; split; [lia|apply upd_same].
Qed.

Lemma book_init v0 t0 aff0 : book (init v0 t0 aff0).
Proof. constructor; cbn; intros; [reflexivity|lia|]. destruct H as [(? & [])|[(? & [])|(? & [])]]. Qed.

Lemma book_enq (s : state) t m rest : book s -> book (enq_msg t m rest s).
Proof.
  intros K. eapply (book_quiet s); [exact K|reflexivity|reflexivity|reflexivity|exact I|]. intros a. apply (bk_catch _ K).
Qed.

Ltac bq s K := eapply (book_quiet s); [exact K|reflexivity|reflexivity|reflexivity|exact I|intros b; proj; cbn [handlers]].
Ltac bs s K := apply (book_same s); [exact K|reflexivity..].

Lemma book_step s l s' : book s -> step s l s' -> book s'.
Proof.
  intros K St. step_cases St; try (injection E as <-); try (bs s K; fail).
  - destruct (mbox s a) as [|m0 r0]; [bs s K|]. eapply (book_new s _ _ B c'); [exact K|reflexivity|reflexivity|reflexivity|reflexivity|eauto].
  - destruct (mbox s a) as [|m0 r0]; [bs s K|]. eapply (book_new s _ _ a c'); [exact K|reflexivity|reflexivity|reflexivity|reflexivity|eauto].
  - bq s K. unfold upd. rewrite (Nat.eqb_sym a b). destruct (Nat.eqb_spec b a) as [->|N]; rewrite (bk_catch _ K); reflexivity.
  - destruct (catch s a) as [|[c' x] tl] eqn:Ec; [discriminate|]. injection E as <-.
    bq s K. unfold upd. rewrite (Nat.eqb_sym a b). destruct (Nat.eqb_spec b a) as [->|N]; rewrite <- (bk_catch _ K); [now rewrite Ec|reflexivity].
  - destruct r as [w|c' w|e|c' x]; unfold on_return; try (bq s K; apply (bk_catch _ K)).
    proj. pose proof (bk_catch _ K a) as Ea. destruct (catch s a) as [|[c' x] tl] eqn:Ec.
    + bq s K. rewrite (bk_catch _ K). destruct (Nat.eqb_spec a b) as [<-|N]; [now rewrite <- Ea|reflexivity].
    + bq s K. unfold upd. rewrite (Nat.eqb_sym a b). destruct (Nat.eqb_spec b a) as [->|N]; [now rewrite <- Ea|apply (bk_catch _ K)].
  - destruct (mbox s a) as [|m r]; [bs s K|]. destruct (mcnt s m); try (bs s K; fail). bq s K. apply (bk_catch _ K).
  - destruct (mbox s a) as [|m0 r]; [bs s K|]. destruct (mbase s m =? mbase s m0)%Z; [now apply book_enq|].
    bq s K. apply (bk_catch _ K).
  - now apply book_enq.
  - bq s K. apply (bk_catch _ K).
  - destruct (mbox s b); [bs s K|]. destruct o; bs s K.
  - destruct (mbox s a) as [|m0 [|m1 r]]; bs s K.
  - destruct (frozen (mcnt s x)); bs s K.
  - destruct (mcnt s x); bs s K.
  - eapply (book_new s _ _ B c); [exact K|reflexivity|reflexivity|reflexivity|reflexivity|eauto].
  - bq s K. apply (bk_catch _ K).
Qed.

End L2.

(** Lemmas for the glob theorems. *)
From Verif Require Import Base P_Base S_Glob M_Glob.

(** ** Splitting at a character *)
Lemma find_none c l : find_char c l = None <-> ~ In c l.
Proof.
  induction l as [|x l IH]; cbn [find_char In]; [tauto|].
  destruct (x =? c) eqn:E.
  - split; [discriminate|]. intros H. exfalso. apply H. left. lia.
  - destruct (find_char c l); split; intros H; try discriminate.
    + exfalso. assert (~ In c l) by tauto. apply IH in H0. discriminate.
    + apply proj1 in IH. specialize (IH eq_refl). intros [G|G]; [lia|contradiction].
    + reflexivity.
Qed.

Lemma find_at c a b : ~ In c a -> find_char c (a ++ c :: b) = Some (zlen a).
Proof.
  induction a as [|x a IH]; cbn [app find_char In]; intros H.
  - rewrite Z.eqb_refl. reflexivity.
  - destruct (x =? c) eqn:E; [exfalso; apply H; left; lia|]. rewrite IH by tauto. f_equal. unfold zlen. cbn. lia.
Qed.

Lemma firstn_at {B} (a : list B) b : firstn (Z.to_nat (zlen a)) (a ++ b) = a.
Proof. unfold zlen. rewrite Nat2Z.id, firstn_app, firstn_all, Nat.sub_diag. cbn. apply app_nil_r. Qed.
Lemma skipn_at {B} (a : list B) x b : skipn (S (Z.to_nat (zlen a))) (a ++ x :: b) = b.
Proof.
  unfold zlen. rewrite Nat2Z.id. replace (S (length a)) with (length (a ++ [x])) by (rewrite app_length; cbn; lia).
  replace (a ++ x :: b) with ((a ++ [x]) ++ b) by (rewrite <- app_assoc; reflexivity).
  rewrite skipn_app, skipn_all, Nat.sub_diag. reflexivity.
Qed.

Lemma in_split_first (c : Z) l : In c l -> exists a b, l = a ++ c :: b /\ ~ In c a.
Proof.
  induction l as [|x l IH]; intros H; [destruct H|].
  destruct (Z.eq_dec x c) as [->|N].
  - exists [], l. split; [reflexivity|]. intros [].
  - destruct H as [->|H]; [contradiction|]. destruct (IH H) as (a & b & -> & G).
    exists (x :: a), b. split; [reflexivity|]. intros [E|E]; [congruence|contradiction].
Qed.

Lemma first_unique (c : Z) a b a' b' : ~ In c a -> ~ In c a' -> a ++ c :: b = a' ++ c :: b' -> a = a' /\ b = b'.
Proof.
  revert a'. induction a as [|x a IH]; intros [|y a'] H H' E; cbn in *.
  - injection E as <-. auto.
  - injection E as -> _. exfalso. apply H'. left. reflexivity.
  - injection E as -> _. exfalso. apply H. left. reflexivity.
  - injection E as -> E. destruct (IH a') as [-> ->]; tauto.
Qed.

(** ** Commas *)
Lemma split_ne s : split_commas s <> [].
Proof.
  destruct s as [|c s]; cbn; [discriminate|].
  destruct (split_commas s); [discriminate|]. destruct (c =? 44); discriminate.
Qed.

Lemma split_app x l : ~ In 44 x -> split_commas (x ++ 44 :: l) = x :: split_commas l.
Proof.
  induction x as [|c x IH]; intros H; cbn [app split_commas].
  - pose proof (split_ne l). destruct (split_commas l); [contradiction|]. reflexivity.
  - cbn in H. rewrite IH by tauto. destruct (c =? 44) eqn:E; [exfalso; apply H; left; lia|]. reflexivity.
Qed.

Lemma split_one x : ~ In 44 x -> split_commas x = [x].
Proof.
  induction x as [|c x IH]; intros H; cbn [split_commas]; [reflexivity|].
  cbn in H. rewrite IH by tauto. destruct (c =? 44) eqn:E; [exfalso; apply H; left; lia|]. reflexivity.
Qed.

Lemma pieces_split x ps : pieces x ps -> ps = split_commas x.
Proof.
  induction 1 as [x H|x l ps H _ IH].
  - rewrite split_one by assumption. reflexivity.
  - rewrite split_app by assumption. congruence.
Qed.

Lemma split_pieces x : pieces x (split_commas x).
Proof.
  assert (G : forall n x, (length x <= n)%nat -> pieces x (split_commas x)).
  { induction n as [|n IH]; intros y Hy.
    - destruct y; [|cbn in Hy; lia]. apply P_last. intros [].
    - destruct (in_dec Z.eq_dec 44 y) as [H|H].
      + destruct (in_split_first 44 y H) as (a & b & -> & Ha). rewrite split_app by assumption.
        apply P_more; [assumption|]. apply IH. rewrite app_length in Hy. cbn in Hy. lia.
      + rewrite split_one by assumption. apply P_last. assumption. }
  apply (G (length x)). lia.
Qed.

Lemma pieces_in x ps o c : pieces x ps -> In o ps -> In c o -> In c x.
Proof.
  induction 1 as [x H|x l ps H _ IH]; intros Ho Hc.
  - destruct Ho as [<-|[]]. assumption.
  - apply in_or_app. destruct Ho as [<-|Ho]; [left; assumption|]. right. right. auto.
Qed.

Lemma pieces_len x ps o : pieces x ps -> In o ps -> (length o <= length x)%nat.
Proof.
  induction 1 as [x H|x l ps H _ IH]; intros Ho.
  - destruct Ho as [<-|[]]. lia.
  - rewrite app_length. cbn [length]. destruct Ho as [<-|Ho]; [lia|]. specialize (IH Ho). lia.
Qed.

(** ** Classes *)
Lemma class_loop_ok cls c : class_loop cls c = true <-> member c cls.
Proof.
  assert (G : forall n cls, (length cls <= n)%nat -> (class_loop cls c = true <-> member c cls)).
  { induction n as [|n IH]; intros l Hl.
    - destruct l; [|cbn in Hl; lia]. cbn. split; [discriminate|]. intros H. inversion H.
    - destruct l as [|a r]; [cbn; split; [discriminate|intros H; inversion H]|].
      cbn in Hl.
      assert (One : (forall b r', r <> 45 :: b :: r') ->
        ((if a =? c then true else class_loop r c) = true <-> member c (a :: r))).
      { intros N. destruct (a =? c) eqn:E.
        - assert (a = c) by lia. subst. split; [intros _; apply in_char; assumption|reflexivity].
        - rewrite (IH r) by lia. split; [apply past_char; assumption|].
          intros H. inversion H; subst; try (exfalso; eapply N; reflexivity); [lia|assumption]. }
      cbn [class_loop]. destruct r as [|d r1]; [apply One; discriminate|].
      destruct r1 as [|b r']; [apply One; discriminate|].
      destruct (d =? 45) eqn:E.
      + assert (d = 45) by lia. subst d. destruct ((a <=? c) && (c <=? b)) eqn:E2.
        * split; [intros _; apply in_range; lia|reflexivity].
        * cbn [length] in Hl. rewrite (IH r') by lia. split; [apply past_range|].
          intros H. inversion H; subst; try (lia); try assumption;
            match goal with N : forall _ _, _ <> _ |- _ => exfalso; eapply N; reflexivity end.
      + apply One. intros b' r'' G. injection G as -> _ _. lia. }
  apply (G (length cls)). lia.
Qed.

Lemma class_match_ok cls c s sep :
  class_match cls c = true <-> exists m, takes sep (class_tok cls) (c :: s) m.
Proof.
  unfold class_match, class_tok. destruct cls as [|x r].
  - cbn. split; [discriminate|]. intros (m & c' & _ & H). inversion H.
  - destruct ((x =? 33) || (x =? 94)) eqn:E; cbn [tl takes].
    + rewrite negb_true_iff. split.
      * intros H. exists s, c. split; [reflexivity|]. rewrite <- class_loop_ok. congruence.
      * intros (m & c' & G & H). injection G as <- <-. rewrite <- class_loop_ok in H.
        destruct (class_loop r c); [contradiction|reflexivity].
    + rewrite class_loop_ok. split.
      * intros H. exists s, c. split; [reflexivity|assumption].
      * intros (m & c' & G & H). injection G as <- <-. assumption.
Qed.

Lemma class_takes sep cls s m : takes sep (class_tok cls) s m -> exists c, s = c :: m.
Proof.
  unfold class_tok. destruct cls as [|x r]; [|destruct ((x =? 33) || (x =? 94))];
    cbn [takes]; intros (c & -> & _); eauto.
Qed.

(** ** Reading *)
Lemma reads_suffix sep p ts r : reads sep p ts r -> exists q, p = q ++ r /\ (ts = [] -> q = []).
Proof.
  induction 1 as [ |c p ts r H IH|p ts r H IH|p ts r N H IH|p ts r N H IH|p ts r H IH|cls p ts r N H IH
                  |p ts r N H IH|inner post N|p ts r N H IH| |c p ts r N H IH];
    try (exists []; split; [reflexivity|auto]; fail);
    try (destruct IH as (q & -> & _)).
  - exists (92 :: c :: q). split; [reflexivity|discriminate].
  - exists (42 :: 42 :: sep :: q). split; [reflexivity|discriminate].
  - exists (42 :: 42 :: q). split; [reflexivity|discriminate].
  - exists (42 :: q). split; [reflexivity|discriminate].
  - exists (63 :: q). split; [reflexivity|discriminate].
  - exists (91 :: cls ++ 93 :: q). split; [cbn [app]; rewrite <- app_assoc; reflexivity|discriminate].
  - exists (91 :: q). split; [reflexivity|discriminate].
  - exists (123 :: q). split; [reflexivity|discriminate].
  - exists [92]. split; [reflexivity|discriminate].
  - exists (c :: q). split; [reflexivity|discriminate].
Qed.

Lemma reads_total sep p : exists ts r, reads sep p ts r.
Proof.
  assert (G : forall n p, (length p <= n)%nat -> exists ts r, reads sep p ts r).
  { induction n as [|n IH]; intros l Hl.
    { destruct l; [|cbn in Hl; lia]. exists [], []. constructor. }
    destruct l as [|c l]; [exists [], []; constructor|]. cbn in Hl.
    destruct (Z.eq_dec c 92) as [->|N1].
    { destruct l as [|d l]; [exists [TLit 92], []; constructor|]. cbn in Hl.
      destruct (IH l) as (ts & r & H); [lia|]. exists (TLit d :: ts), r. constructor. assumption. }
    destruct (Z.eq_dec c 42) as [->|N2].
    { destruct l as [|d l].
      - destruct (IH []) as (ts & r & H); [cbn; lia|]. exists (TStar :: ts), r. apply R_star; [discriminate|assumption].
      - destruct (Z.eq_dec d 42) as [->|N].
        + cbn in Hl. destruct l as [|x l].
          * exists [TDeep], []. apply R_deep; [discriminate|constructor].
          * destruct (Z.eq_dec x sep) as [->|N].
            -- cbn in Hl. destruct (IH l) as (ts & r & H); [lia|]. exists (TDeep :: ts), r. apply R_dirs. assumption.
            -- destruct (IH (x :: l)) as (ts & r & H); [cbn in *; lia|]. exists (TDeep :: ts), r.
               apply R_deep; [congruence|assumption].
        + destruct (IH (d :: l)) as (ts & r & H); [cbn in *; lia|]. exists (TStar :: ts), r.
          apply R_star; [congruence|assumption]. }
    destruct (Z.eq_dec c 63) as [->|N3].
    { destruct (IH l) as (ts & r & H); [lia|]. exists (TAny :: ts), r. apply R_any. assumption. }
    destruct (Z.eq_dec c 91) as [->|N4].
    { destruct (in_dec Z.eq_dec 93 l) as [Hi|Hi].
      - destruct (in_split_first 93 l Hi) as (a & b & -> & Ha). rewrite app_length in Hl. cbn in Hl.
        destruct (IH b) as (ts & r & H); [lia|]. exists (class_tok a :: ts), r. apply R_class; assumption.
      - destruct (IH l) as (ts & r & H); [lia|]. exists (TLit 91 :: ts), r. apply R_open; assumption. }
    destruct (Z.eq_dec c 123) as [->|N5].
    { destruct (in_dec Z.eq_dec 125 l) as [Hi|Hi].
      - destruct (in_split_first 125 l Hi) as (a & b & -> & Ha). exists [], (123 :: a ++ 125 :: b). apply R_brace. assumption.
      - destruct (IH l) as (ts & r & H); [lia|]. exists (TLit 123 :: ts), r. apply R_curly; assumption. }
    destruct (IH l) as (ts & r & H); [lia|]. exists (TLit c :: ts), r. apply R_lit; [|assumption].
    unfold special. lia. }
  apply (G (length p)). lia.
Qed.

(** A pattern is read in one way only. *)
Lemma reads_det sep p ts r : reads sep p ts r -> forall ts' r', reads sep p ts' r' -> ts' = ts /\ r' = r.
Proof.
  induction 1 as [ |c p ts r H IH|p ts r H IH|p ts r N H IH|p ts r N H IH|p ts r H IH|cls p ts r N H IH
                  |p ts r N H IH|inner post N|p ts r N H IH| |c p ts r N H IH]; intros ts' r' G.
  - inversion G; auto.
  - inversion G; subst; try (match goal with E : special _ = false |- _ => vm_compute in E; discriminate end).
    match goal with K : reads sep p _ _ |- _ => destruct (IH _ _ K) as [-> ->]; split; reflexivity end.
  - inversion G; subst; try (match goal with E : special _ = false |- _ => vm_compute in E; discriminate end);
      try (match goal with E : forall _, _ <> _ |- _ => exfalso; eapply E; reflexivity end).
    match goal with K : reads sep p _ _ |- _ => destruct (IH _ _ K) as [-> ->]; split; reflexivity end.
  - inversion G; subst; try (match goal with E : special _ = false |- _ => vm_compute in E; discriminate end);
      try (exfalso; eapply N; reflexivity);
      try (match goal with E : forall _, 42 :: _ <> _ |- _ => exfalso; eapply E; reflexivity end).
    match goal with K : reads sep p _ _ |- _ => destruct (IH _ _ K) as [-> ->]; split; reflexivity end.
  - inversion G; subst; try (match goal with E : special _ = false |- _ => vm_compute in E; discriminate end);
      try (exfalso; eapply N; reflexivity).
    match goal with K : reads sep p _ _ |- _ => destruct (IH _ _ K) as [-> ->]; split; reflexivity end.
  - inversion G; subst; try (match goal with E : special _ = false |- _ => vm_compute in E; discriminate end).
    match goal with K : reads sep p _ _ |- _ => destruct (IH _ _ K) as [-> ->]; split; reflexivity end.
  - inversion G; subst; try (match goal with E : special _ = false |- _ => vm_compute in E; discriminate end).
    + match goal with E : _ ++ 93 :: _ = _ ++ 93 :: _ |- _ => apply first_unique in E; [destruct E as [-> ->]|assumption|assumption] end.
      match goal with K : reads sep p _ _ |- _ => destruct (IH _ _ K) as [-> ->]; split; reflexivity end.
    + match goal with E : ~ In 93 (_ ++ _) |- _ => exfalso; apply E, in_or_app; right; left; reflexivity end.
  - inversion G; subst; try (match goal with E : special _ = false |- _ => vm_compute in E; discriminate end).
    + exfalso. apply N, in_or_app. right. left. reflexivity.
    + match goal with K : reads sep p _ _ |- _ => destruct (IH _ _ K) as [-> ->]; split; reflexivity end.
  - inversion G; subst; try (match goal with E : special _ = false |- _ => vm_compute in E; discriminate end).
    + auto.
    + match goal with E : ~ In 125 (_ ++ _) |- _ => exfalso; apply E, in_or_app; right; left; reflexivity end.
  - inversion G; subst; try (match goal with E : special _ = false |- _ => vm_compute in E; discriminate end).
    + exfalso. apply N, in_or_app. right. left. reflexivity.
    + match goal with K : reads sep p _ _ |- _ => destruct (IH _ _ K) as [-> ->]; split; reflexivity end.
  - inversion G; subst; try (match goal with E : special _ = false |- _ => vm_compute in E; discriminate end). auto.
  - inversion G; subst; try (vm_compute in N; discriminate).
    match goal with K : reads sep p _ _ |- _ => destruct (IH _ _ K) as [-> ->]; split; reflexivity end.
Qed.

(** ** The beginning of a pattern that matches with a brace replaced also matches *)
Lemma reach sep p ts B : reads sep p ts B ->
  forall q inner post r ts' r' s s'', B = 123 :: inner ++ 125 :: post -> p = q ++ B ->
  (In 93 r -> In 93 B) -> reads sep (q ++ r) ts' r' -> takes_all sep ts' s s'' ->
  exists s', takes_all sep ts s s'.
Proof.
  induction 1 as [ |c p ts B H IH|p ts B H IH|p ts B N H IH|p ts B N H IH|p ts B H IH|cls p ts B N H IH
                  |p ts B N H IH|inner0 post0 N|p ts B N H IH| |c p ts B N H IH];
    intros q inner post r ts' r' s s'' HB Hq H93 G T; try discriminate;
    try (destruct (reads_suffix _ _ _ _ H) as (q0 & E0 & _); subst p).
  - (* esc *) change (92 :: c :: q0 ++ B) with ((92 :: c :: q0) ++ B) in Hq. apply app_inv_tail in Hq. subst q.
    cbn [app] in G. inversion G; subst; try (match goal with E : special _ = false |- _ => vm_compute in E; discriminate end).
    destruct T as (m & T1 & T2). edestruct IH as (s' & Hs); [reflexivity|reflexivity|eassumption|eassumption|eassumption|].
    exists s', m. auto.
  - change (42 :: 42 :: sep :: q0 ++ B) with ((42 :: 42 :: sep :: q0) ++ B) in Hq. apply app_inv_tail in Hq. subst q.
    cbn [app] in G. inversion G; subst; try (match goal with E : special _ = false |- _ => vm_compute in E; discriminate end);
      try (match goal with E : forall _, _ <> _ |- _ => exfalso; eapply E; reflexivity end).
    destruct T as (m & T1 & T2). edestruct IH as (s' & Hs); [reflexivity|reflexivity|eassumption|eassumption|eassumption|].
    exists s', m. auto.
  - change (42 :: 42 :: q0 ++ B) with ((42 :: 42 :: q0) ++ B) in Hq. apply app_inv_tail in Hq. subst q.
    destruct q0 as [|x q0].
    + assert (ts = []).
      { cbn [app] in H. subst B. inversion H; subst; try (match goal with E : special _ = false |- _ => vm_compute in E; discriminate end).
        - reflexivity.
        - match goal with E : ~ In 125 (_ ++ _) |- _ => exfalso; apply E, in_or_app; right; left; reflexivity end. }
      subst ts. exists s, s. split; [exists []; reflexivity|reflexivity].
    + cbn [app] in G. inversion G; subst; try (match goal with E : special _ = false |- _ => vm_compute in E; discriminate end);
        try (match goal with E : forall _, 42 :: _ <> _ |- _ => exfalso; eapply E; reflexivity end).
      * exfalso. eapply N. cbn. reflexivity.
      * destruct T as (m & T1 & T2). edestruct IH as (s' & Hs); [reflexivity|reflexivity|eassumption|eassumption|eassumption|].
        exists s', m. auto.
  - change (42 :: q0 ++ B) with ((42 :: q0) ++ B) in Hq. apply app_inv_tail in Hq. subst q.
    destruct q0 as [|x q0].
    + assert (ts = []).
      { cbn [app] in H. subst B. inversion H; subst; try (match goal with E : special _ = false |- _ => vm_compute in E; discriminate end).
        - reflexivity.
        - match goal with E : ~ In 125 (_ ++ _) |- _ => exfalso; apply E, in_or_app; right; left; reflexivity end. }
      subst ts. exists s, s. split; [exists []; split; [reflexivity|intros []]|reflexivity].
    + cbn [app] in G. inversion G; subst; try (match goal with E : special _ = false |- _ => vm_compute in E; discriminate end);
        try (exfalso; eapply N; cbn; reflexivity).
      destruct T as (m & T1 & T2). edestruct IH as (s' & Hs); [reflexivity|reflexivity|eassumption|eassumption|eassumption|].
      exists s', m. auto.
  - change (63 :: q0 ++ B) with ((63 :: q0) ++ B) in Hq. apply app_inv_tail in Hq. subst q.
    cbn [app] in G. inversion G; subst; try (match goal with E : special _ = false |- _ => vm_compute in E; discriminate end).
    destruct T as (m & T1 & T2). edestruct IH as (s' & Hs); [reflexivity|reflexivity|eassumption|eassumption|eassumption|].
    exists s', m. auto.
  - replace (91 :: cls ++ 93 :: q0 ++ B) with ((91 :: cls ++ 93 :: q0) ++ B) in Hq by (cbn [app]; rewrite <- app_assoc; reflexivity).
    apply app_inv_tail in Hq. subst q. cbn [app] in G. rewrite <- app_assoc in G. cbn [app] in G.
    inversion G; subst; try (match goal with E : special _ = false |- _ => vm_compute in E; discriminate end).
    + match goal with E : _ ++ 93 :: _ = _ ++ 93 :: _ |- _ => apply first_unique in E; [destruct E as [-> ->]|assumption|assumption] end.
      destruct T as (m & T1 & T2). edestruct IH as (s' & Hs); [reflexivity|reflexivity|eassumption|eassumption|eassumption|].
      exists s', m. auto.
    + match goal with E : ~ In 93 (_ ++ _) |- _ => exfalso; apply E, in_or_app; right; left; reflexivity end.
  - change (91 :: q0 ++ B) with ((91 :: q0) ++ B) in Hq. apply app_inv_tail in Hq. subst q.
    cbn [app] in G. inversion G; subst; try (match goal with E : special _ = false |- _ => vm_compute in E; discriminate end).
    + exfalso. match goal with E : _ ++ 93 :: _ = q0 ++ r |- _ => assert (I : In 93 (q0 ++ r)) by (rewrite <- E; apply in_or_app; right; left; reflexivity) end.
      apply N. apply in_or_app. apply in_app_or in I as [I|I]; [left; assumption|right; auto].
    + destruct T as (m & T1 & T2). edestruct IH as (s' & Hs); [reflexivity|reflexivity|eassumption|eassumption|eassumption|].
      exists s', m. auto.
  - exists s. reflexivity.
  - exfalso. apply N. apply in_or_app. right. subst B. right. apply in_or_app. right. left. reflexivity.
  - change (c :: q0 ++ B) with ((c :: q0) ++ B) in Hq. apply app_inv_tail in Hq. subst q.
    cbn [app] in G. inversion G; subst; try (vm_compute in N; discriminate).
    destruct T as (m & T1 & T2). edestruct IH as (s' & Hs); [reflexivity|reflexivity|eassumption|eassumption|eassumption|].
    exists s', m. auto.
Qed.

(** ** Results *)
Definition says (r : res bool) (P : Prop) : Prop := exists b, r = Ok b /\ (b = true <-> P).

Lemma says_iff r P Q : says r P -> (P <-> Q) -> says r Q.
Proof. intros (b & -> & H) G. exists b. split; [reflexivity|]. rewrite H. exact G. Qed.

Lemma says_false P : ~ P -> says (Ok false) P.
Proof. intros H. exists false. split; [reflexivity|]. split; [discriminate|contradiction]. Qed.

Lemma says_orr a b P Q : says a P -> says b Q -> says (orr a b) (P \/ Q).
Proof.
  intros (x & -> & H) (y & -> & G). destruct x; cbn [orr].
  - exists true. split; [reflexivity|]. tauto.
  - exists y. split; [reflexivity|]. rewrite G. split; [right; assumption|]. intros [K|K]; [|assumption].
    apply H in K. discriminate.
Qed.

Lemma says_any_rest f (P : list Z -> Prop) s :
  (forall s', (length s' <= length s)%nat -> says (f s') (P s')) ->
  says (any_rest f s) (exists x s', s = x ++ s' /\ P s').
Proof.
  induction s as [|c s IH]; intros H; cbn [any_rest].
  - eapply says_iff; [apply says_orr; [apply H; lia|apply (says_false False); tauto]|].
    split.
    + intros [K|[]]. exists [], []. auto.
    + intros (x & s' & E & K). symmetry in E. apply app_eq_nil in E as [-> ->]. left. assumption.
  - eapply says_iff.
    + apply says_orr; [apply H; lia|]. apply IH. intros s' Hs. apply H. cbn. lia.
    + split.
      * intros [K|(x & s' & -> & K)]; [exists [], (c :: s); auto|]. exists (c :: x), s'. auto.
      * intros ([|y x] & s' & E & K); cbn in E.
        -- subst s'. left. assumption.
        -- injection E as <- ->. right. exists x, s'. auto.
Qed.

Lemma says_any_of f (P : list Z -> Prop) l :
  (forall o, In o l -> says (f o) (P o)) -> says (any_of f l) (exists o, In o l /\ P o).
Proof.
  induction l as [|o l IH]; intros H; cbn [any_of].
  - apply says_false. intros (o & [] & _).
  - eapply says_iff.
    + apply says_orr; [apply H; left; reflexivity|]. apply IH. intros o' Ho. apply H. right. assumption.
    + split.
      * intros [K|(o' & Ho & K)]; [exists o; split; [left; reflexivity|assumption]|exists o'; split; [right; assumption|assumption]].
      * intros (o' & [->|Ho] & K); [left; assumption|right; exists o'; auto].
Qed.

(** What is left to do when the parts have matched and [s'] remains. *)
Definition fin (sep : Z) (pattern rest path s' : list Z) : Prop :=
  match rest with
  | [] => s' = []
  | _ => exists q inner post alts o, pattern = q ++ rest /\ rest = 123 :: inner ++ 125 :: post /\
         ~ In 125 inner /\ pieces inner alts /\ In o alts /\ glob_matches sep (q ++ o ++ post) path
  end.

Lemma matches_iff sep p ts rest s : reads sep p ts rest ->
  glob_matches sep p s <-> exists s', takes_all sep ts s s' /\ fin sep p rest s s'.
Proof.
  intros R.
  assert (Grec : forall n p, (length p <= n)%nat -> forall ts rest, reads sep p ts rest ->
     glob_matches sep p s -> exists s', takes_all sep ts s s' /\ fin sep p rest s s').
  { induction n as [|n IH]; intros p0 Hl ts0 rest0 R0 (e & te & X & Re & T).
    - destruct p0; [|cbn in Hl; lia]. inversion R0; subst. inversion X; subst.
      + inversion Re; subst. exists []. split; [exact T|]. cbn. reflexivity.
      + destruct q; discriminate.
    - inversion X; subst.
      + destruct (reads_det _ _ _ _ R0 _ _ H) as [<- <-]. destruct (reads_det _ _ _ _ R0 _ _ Re) as [-> _].
        exists []. split; [exact T|reflexivity].
      + destruct (reads_det _ _ _ _ R0 _ _ H) as [-> <-].
        assert (Hlen : (length (q ++ o ++ post) <= n)%nat).
        { pose proof (pieces_len _ _ _ H1 H2). rewrite !app_length in *. cbn [length] in Hl. rewrite app_length in Hl. cbn [length] in Hl. lia. }
        assert (GM : glob_matches sep (q ++ o ++ post) s) by (exists e, te; auto).
        destruct (reads_total sep (q ++ o ++ post)) as (t1 & r1 & R1).
        destruct (IH _ Hlen _ _ R1 GM) as (s1 & T1 & _).
        destruct (reach sep _ _ _ R0 q inner post (o ++ post) t1 r1 s s1) as (s' & T'); try reflexivity; try assumption.
        { intros I. right. apply in_or_app. apply in_app_or in I as [I|I].
          - left. eapply pieces_in; eassumption.
          - right. right. assumption. }
        exists s'. split; [exact T'|]. cbn [fin]. exists q, inner, post, alts, o. auto 10. }
  split.
  - apply (Grec (length p)); auto.
  - intros (s' & T & F). destruct rest as [|x rest].
    + cbn in F. subst s'. exists p, ts. split; [eapply E_done; eassumption|auto].
    + destruct F as (q & inner & post & alts & o & -> & E & Hin & Hp & Ho & (e & te & X & Re & T')).
      rewrite E in *. exists e, te. split; [|auto]. eapply E_step; eassumption.
Qed.

Definition cnt (p : list Z) : nat := count_occ Z.eq_dec p 125.
Definition need (p s : list Z) : nat := (S (cnt p) * S (length p + length s) + 1)%nat.

Lemma cnt_app a b : cnt (a ++ b) = (cnt a + cnt b)%nat.
Proof. apply count_occ_app. Qed.
Lemma cnt_none a : ~ In 125 a -> cnt a = 0%nat.
Proof. apply count_occ_not_In. Qed.

Lemma no_prefix_none sep (c : Z) s s' x : (c :: s = x ++ s' /\ ~ In sep x) <-> (x = [] /\ s' = c :: s) \/ (exists x', x = c :: x' /\ c <> sep /\ s = x' ++ s' /\ ~ In sep x').
Proof.
  destruct x as [|y x]; cbn.
  - split; [intros [<- _]; left; auto|]. intros [[_ ->]|(x' & E & _)]; [split; auto|discriminate].
  - split.
    + intros [E N]. injection E as <- ->. right. exists x. repeat split; auto.
    + intros [[E _]|(x' & E & N & -> & N')]; [discriminate|]. injection E as -> ->. split; [reflexivity|].
      intros [K|K]; [auto|contradiction].
Qed.

Lemma main sep (n : nat)
  (IHn : forall p s fuel, (cnt p < n)%nat -> (need p s <= fuel)%nat -> says (glob fuel sep p s) (glob_matches sep p s)) :
  forall p ts rest, reads sep p ts rest ->
  forall pre path s fuel, cnt (pre ++ p) = n -> (length s <= length path)%nat ->
  (n * S (length (pre ++ p) + length path) + length p + length s + 1 <= fuel)%nat ->
  says (glob_rec fuel sep pre p path s)
       (exists s', takes_all sep ts s s' /\ fin sep (pre ++ p) rest path s').
Proof.
  induction 1 as [ |c p ts r H IH|p ts r H IH|p ts r N H IH|p ts r N H IH|p ts r H IH|cls p ts r N H IH
                  |p ts r N H IH|inner post N|p ts r N H IH| |c p ts r N H IH];
    intros pre path s fuel Hc Hs Hf.
  - (* end *) destruct fuel as [|fuel]; [lia|]. cbn [glob_rec].
    destruct s as [|x s].
    + exists true. split; [reflexivity|]. split; [|reflexivity]. intros _. exists []. split; reflexivity.
    + apply says_false. intros (s' & T & F). cbn in T, F. congruence.
  - (* esc *) destruct fuel as [|fuel]; [lia|]. cbn [glob_rec].
    change (92 =? 92) with true. cbn [andb].
    destruct s as [|x s].
    + apply says_false. intros (s' & (m & T & _) & _). discriminate T.
    + destruct (c =? x) eqn:E.
      * assert (c = x) by lia. subst x. eapply says_iff.
        -- apply IH; [rewrite <- app_assoc; assumption|cbn in Hs; lia|].
           rewrite <- app_assoc. cbn [app length] in *. lia.
        -- rewrite <- app_assoc. cbn [app]. split.
           ++ intros (s' & T & F). exists s'. split; [|assumption]. exists s. split; [reflexivity|assumption].
           ++ intros (s' & (m & T1 & T2) & F). injection T1 as <-. exists s'. auto.
      * apply says_false. intros (s' & (m & T & _) & _). cbn in T. injection T as -> _. lia.
  - (* dirs *) destruct fuel as [|fuel]; [lia|]. cbn [glob_rec].
    change (42 =? 92) with false. change (42 =? 42) with true. cbn [andb tl]. rewrite Z.eqb_refl.
    eapply says_iff.
    + apply (says_any_rest _ (fun s' => exists s'', takes_all sep ts s' s'' /\ fin sep ((pre ++ [42; 42; sep]) ++ p) r path s'')).
      intros s' Hs'. apply IH; [rewrite <- app_assoc; assumption|lia|].
      rewrite <- app_assoc. cbn [app length] in *. lia.
    + rewrite <- app_assoc. cbn [app]. split.
      * intros (x & s' & -> & s'' & T & F). exists s''. split; [|assumption]. exists s'. split; [exists x; reflexivity|assumption].
      * intros (s'' & (m & (x & ->) & T) & F). exists x, m. split; [reflexivity|]. exists s''. auto.
  - (* deep *)
    revert fuel Hf. induction s as [|x s IHs]; intros fuel Hf; destruct fuel as [|fuel]; try lia; cbn [glob_rec];
      change (42 =? 92) with false; change (42 =? 42) with true; cbn [andb tl].
    + assert (K : says (orr (glob_rec fuel sep (pre ++ [42; 42]) p path []) (Ok false))
                       (exists s', takes_all sep (TDeep :: ts) [] s' /\ fin sep (pre ++ 42 :: 42 :: p) r path s')).
      { eapply says_iff.
        - apply says_orr; [apply IH|apply (says_false False); tauto].
          + rewrite <- app_assoc; assumption.
          + assumption.
          + rewrite <- app_assoc. cbn [app length] in *. lia.
        - rewrite <- app_assoc. cbn [app]. split.
          + intros [(s' & T & F)|[]]. exists s'. split; [|assumption]. exists []. split; [exists []; reflexivity|assumption].
          + intros (s' & (m & (x & E) & T) & F). symmetry in E. apply app_eq_nil in E as [_ ->]. left. exists s'. auto. }
      destruct p as [|e p3]; [exact K|]. destruct (e =? sep) eqn:E; [exfalso; eapply N; f_equal; lia|exact K].
    + assert (K : says (orr (glob_rec fuel sep (pre ++ [42; 42]) p path (x :: s)) (glob_rec fuel sep pre (42 :: 42 :: p) path s))
                       (exists s', takes_all sep (TDeep :: ts) (x :: s) s' /\ fin sep (pre ++ 42 :: 42 :: p) r path s')).
      { eapply says_iff.
        - apply says_orr; [apply IH|apply IHs].
          + rewrite <- app_assoc; assumption.
          + assumption.
          + rewrite <- app_assoc. cbn [app length] in *. lia.
          + cbn in Hs. lia.
          + cbn [length] in *. lia.
        - rewrite <- app_assoc. cbn [app]. split.
          + intros [(s' & T & F)|(s' & (m & (y & ->) & T) & F)].
            * exists s'. split; [|assumption]. exists (x :: s). split; [exists []; reflexivity|assumption].
            * exists s'. split; [|assumption]. exists m. split; [exists (x :: y); reflexivity|assumption].
          + intros (s' & (m & (y & E) & T) & F). destruct y as [|z y]; cbn in E.
            * subst m. left. exists s'. auto.
            * injection E as <- ->. right. exists s'. split; [|assumption]. exists m. split; [exists y; reflexivity|assumption]. }
      destruct p as [|e p3]; [exact K|]. destruct (e =? sep) eqn:E; [exfalso; eapply N; f_equal; lia|exact K].
  - (* star *)
    assert (Hd : match p with d :: _ => d =? 42 | [] => false end = false).
    { destruct p as [|d p]; [reflexivity|]. destruct (d =? 42) eqn:E; [exfalso; eapply N; f_equal; lia|reflexivity]. }
    revert fuel Hf. induction s as [|x s IHs]; intros fuel Hf; destruct fuel as [|fuel]; try lia; cbn [glob_rec];
      change (42 =? 92) with false; change (42 =? 42) with true; cbn [andb tl]; rewrite Hd.
    + eapply says_iff.
      * apply says_orr; [apply IH|apply (says_false False); tauto].
        -- rewrite <- app_assoc; assumption.
        -- assumption.
        -- rewrite <- app_assoc. cbn [app length] in *. lia.
      * rewrite <- app_assoc. cbn [app]. split.
        -- intros [(s' & T & F)|[]]. exists s'. split; [|assumption]. exists []. split; [exists []; split; [reflexivity|intros []]|assumption].
        -- intros (s' & (m & (y & E & _) & T) & F). symmetry in E. apply app_eq_nil in E as [_ ->]. left. exists s'. auto.
    + assert (Hsep : (0 <? match find_char sep (x :: s) with Some i => i | None => zlen (x :: s) end) = negb (x =? sep)).
      { cbn [find_char]. destruct (x =? sep) eqn:E; [reflexivity|].
        assert (Hp : forall i, find_char sep s = Some i -> 0 <= i).
        { clear. intros i H. revert i H. induction s as [|y s IH]; cbn; [discriminate|]. intros i.
          destruct (y =? sep); [intros [= <-]; lia|]. destruct (find_char sep s); [|discriminate].
          intros [= <-]. specialize (IH _ eq_refl). lia. }
        destruct (find_char sep s) as [i|]; [specialize (Hp i eq_refl)|unfold zlen; cbn [length]]; lia. }
      rewrite Hsep. eapply says_iff.
      * apply says_orr; [apply IH|].
        -- rewrite <- app_assoc; assumption.
        -- assumption.
        -- rewrite <- app_assoc. cbn [app length] in *. lia.
        -- instantiate (1 := x <> sep /\ exists s', takes_all sep (TStar :: ts) s s' /\ fin sep (pre ++ 42 :: p) r path s').
           destruct (x =? sep) eqn:E; cbn [negb].
           ++ apply says_false. intros [K _]. lia.
           ++ eapply says_iff; [apply IHs; [cbn in Hs; lia|cbn [length] in *; lia]|].
              split; [intros K; split; [lia|exact K]|tauto].
      * rewrite <- app_assoc. cbn [app]. split.
        -- intros [(s' & T & F)|(Nx & s' & (m & (y & -> & Ny) & T) & F)].
           ++ exists s'. split; [|assumption]. exists (x :: s). split; [exists []; split; [reflexivity|intros []]|assumption].
           ++ exists s'. split; [|assumption]. exists m. split; [exists (x :: y); split; [reflexivity|intros [K|K]; auto]|assumption].
        -- intros (s' & (m & (y & E & Ny) & T) & F). destruct y as [|z y]; cbn in E.
           ++ subst m. left. exists s'. auto.
           ++ injection E as <- ->. right. split; [intros ->; apply Ny; left; reflexivity|].
              exists s'. split; [|assumption]. exists m. split; [exists y; split; [reflexivity|intros K; apply Ny; right; assumption]|assumption].
  - (* any *) destruct fuel as [|fuel]; [lia|]. cbn [glob_rec].
    change (63 =? 92) with false. change (63 =? 42) with false. change (63 =? 63) with true. cbn [andb].
    destruct s as [|x s].
    + apply says_false. intros (s' & (m & (c & T) & _) & _). discriminate T.
    + eapply says_iff.
      * apply IH; [rewrite <- app_assoc; assumption|cbn in Hs; lia|].
        rewrite <- app_assoc. cbn [app length] in *. lia.
      * rewrite <- app_assoc. cbn [app]. split.
        -- intros (s' & T & F). exists s'. split; [|assumption]. exists s. split; [exists x; reflexivity|assumption].
        -- intros (s' & (m & (c & T1) & T2) & F). injection T1 as _ <-. exists s'. auto.
  - (* class *) destruct fuel as [|fuel]; [lia|]. cbn [glob_rec].
    change (91 =? 92) with false. change (91 =? 42) with false. change (91 =? 63) with false. change (91 =? 91) with true.
    cbn [andb]. rewrite find_at by assumption. rewrite firstn_at, skipn_at.
    assert (Hne : match cls ++ 93 :: p with [] => false | _ => true end = true) by (destruct cls; reflexivity).
    rewrite Hne. assert (Hpre : (pre ++ 91 :: cls ++ [93]) ++ p = pre ++ 91 :: cls ++ 93 :: p).
    { rewrite <- app_assoc. cbn [app]. rewrite <- app_assoc. reflexivity. }
    destruct s as [|x s].
    + apply says_false. intros (s' & (m & T & _) & _). apply class_takes in T as (c & T). discriminate T.
    + destruct (class_match cls x) eqn:E.
      * eapply says_iff.
        -- apply IH; rewrite ?Hpre; [assumption|cbn in Hs; lia|].
           cbn [app length] in *. rewrite !app_length in *. cbn [length] in *. rewrite !app_length in *. cbn [length] in *. lia.
        -- rewrite Hpre. split.
           ++ intros (s' & T & F). exists s'. split; [|assumption].
              apply (class_match_ok cls x s sep) in E as (m & T'). pose proof (class_takes _ _ _ _ T') as (c & G). injection G as _ <-.
              exists s. auto.
           ++ intros (s' & (m & T1 & T2) & F). apply class_takes in T1 as (c & G). injection G as _ <-. exists s'. auto.
      * apply says_false. intros (s' & (m & T & _) & _).
        assert (class_match cls x = true) by (apply (class_match_ok cls x s sep); eauto). congruence.
  - (* open *) destruct fuel as [|fuel]; [lia|]. cbn [glob_rec].
    change (91 =? 92) with false. change (91 =? 42) with false. change (91 =? 63) with false. change (91 =? 91) with true.
    change (91 =? 123) with false. cbn [andb].
    assert (K : says (match s with x :: s' => if 91 =? x then glob_rec fuel sep (pre ++ [91]) p path s' else Ok false | [] => Ok false end)
        (exists s', takes_all sep (TLit 91 :: ts) s s' /\ fin sep (pre ++ 91 :: p) r path s')).
    { destruct s as [|x s]; [apply says_false; intros (s' & (m & T & _) & _); discriminate T|].
      destruct (91 =? x) eqn:E.
      - assert (x = 91) by lia. subst x. eapply says_iff.
        + apply IH; [rewrite <- app_assoc; assumption|cbn in Hs; lia|]. rewrite <- app_assoc. cbn [app length] in *. lia.
        + rewrite <- app_assoc. cbn [app]. split.
          * intros (s' & T & F). exists s'. split; [|assumption]. exists s. split; [reflexivity|assumption].
          * intros (s' & (m & T1 & T2) & F). injection T1 as <-. exists s'. auto.
      - apply says_false. intros (s' & (m & T & _) & _). cbn in T. injection T as -> _. discriminate E. }
    destruct p as [|d p]; [exact K|]. rewrite (proj2 (find_none 93 (d :: p)) N). exact K.
  - (* brace *) destruct fuel as [|fuel]; [lia|]. cbn [glob_rec].
    change (123 =? 92) with false. change (123 =? 42) with false. change (123 =? 63) with false.
    change (123 =? 91) with false. change (123 =? 123) with true. cbn [andb].
    assert (Hne : match inner ++ 125 :: post with [] => false | _ => true end = true) by (destruct inner; reflexivity).
    rewrite Hne. rewrite find_at by assumption. rewrite firstn_at, skipn_at.
    eapply says_iff.
    + apply (says_any_of _ (fun o => glob_matches sep (pre ++ o ++ post) path)).
      intros o Ho. pose proof (split_pieces inner) as Hp.
      assert (Ho125 : ~ In 125 o) by (intros K; apply N; eapply pieces_in; eassumption).
      pose proof (pieces_len _ _ _ Hp Ho) as Hlo.
      assert (Hcnt : S (cnt (pre ++ o ++ post)) = n).
      { rewrite <- Hc. rewrite !cnt_app. rewrite (cnt_none o Ho125).
        change (cnt (123 :: inner ++ 125 :: post)) with (cnt (inner ++ 125 :: post)). rewrite cnt_app, (cnt_none inner N).
        change (cnt (125 :: post)) with (S (cnt post)). lia. }
      apply IHn; [lia|]. unfold need. rewrite Hcnt.
      assert (Hlen : (length (pre ++ o ++ post) + 2 <= length (pre ++ 123%Z :: inner ++ 125%Z :: post))%nat).
      { rewrite !app_length. cbn [length]. rewrite app_length. cbn [length]. lia. }
      cbn [length] in Hf. nia.
    + split.
      * intros (o & Ho & G). exists s. split; [reflexivity|]. cbn [fin].
        exists pre, inner, post, (split_commas inner), o. pose proof (split_pieces inner). auto 10.
      * intros (s' & _ & (q & inner' & post' & alts & o & E1 & E2 & Hi & Hp & Ho & G)).
        injection E2 as E2. apply first_unique in E2 as [<- <-]; [|assumption|assumption].
        apply app_inv_tail in E1. subst q. apply pieces_split in Hp. subst alts. exists o. auto.
  - (* curly *) destruct fuel as [|fuel]; [lia|]. cbn [glob_rec].
    change (123 =? 92) with false. change (123 =? 42) with false. change (123 =? 63) with false.
    change (123 =? 91) with false. change (123 =? 123) with true. cbn [andb].
    assert (K : says (match s with x :: s' => if 123 =? x then glob_rec fuel sep (pre ++ [123]) p path s' else Ok false | [] => Ok false end)
        (exists s', takes_all sep (TLit 123 :: ts) s s' /\ fin sep (pre ++ 123 :: p) r path s')).
    { destruct s as [|x s]; [apply says_false; intros (s' & (m & T & _) & _); discriminate T|].
      destruct (123 =? x) eqn:E.
      - assert (x = 123) by lia. subst x. eapply says_iff.
        + apply IH; [rewrite <- app_assoc; assumption|cbn in Hs; lia|]. rewrite <- app_assoc. cbn [app length] in *. lia.
        + rewrite <- app_assoc. cbn [app]. split.
          * intros (s' & T & F). exists s'. split; [|assumption]. exists s. split; [reflexivity|assumption].
          * intros (s' & (m & T1 & T2) & F). injection T1 as <-. exists s'. auto.
      - apply says_false. intros (s' & (m & T & _) & _). cbn in T. injection T as -> _. discriminate E. }
    destruct p as [|d p]; [exact K|]. rewrite (proj2 (find_none 125 (d :: p)) N). exact K.
  - (* last *) destruct fuel as [|fuel]; [lia|]. cbn [glob_rec].
    change (92 =? 92) with true. change (92 =? 42) with false. change (92 =? 63) with false.
    change (92 =? 91) with false. change (92 =? 123) with false. cbn [andb].
    destruct s as [|x s]; [apply says_false; intros (s' & (m & T & _) & _); discriminate T|].
    destruct (92 =? x) eqn:E.
    + assert (x = 92) by lia. subst x. destruct fuel as [|fuel]; [cbn [length] in *; lia|]. cbn [glob_rec].
      destruct s as [|y s].
      * exists true. split; [reflexivity|]. split; [intros _|reflexivity]. exists []. split; [exists []; split; reflexivity|reflexivity].
      * apply says_false. intros (s' & (m & T1 & T2) & F). injection T1 as <-. cbn in T2, F. congruence.
    + apply says_false. intros (s' & (m & T & _) & _). cbn in T. injection T as -> _. discriminate E.
  - (* literal *) destruct fuel as [|fuel]; [lia|]. cbn [glob_rec].
    unfold special in N.
    destruct (c =? 92) eqn:E1; [discriminate|]. destruct (c =? 42) eqn:E2; [discriminate|].
    destruct (c =? 63) eqn:E3; [discriminate|]. destruct (c =? 91) eqn:E4; [discriminate|].
    destruct (c =? 123) eqn:E5; [discriminate|]. cbn [andb].
    destruct s as [|x s]; [apply says_false; intros (s' & (m & T & _) & _); discriminate T|].
    destruct (c =? x) eqn:E.
    + assert (x = c) by lia. subst x. eapply says_iff.
      * apply IH; [rewrite <- app_assoc; assumption|cbn in Hs; lia|]. rewrite <- app_assoc. cbn [app length] in *. lia.
      * rewrite <- app_assoc. cbn [app]. split.
        -- intros (s' & T & F). exists s'. split; [|assumption]. exists s. split; [reflexivity|assumption].
        -- intros (s' & (m & T1 & T2) & F). injection T1 as <-. exists s'. auto.
    + apply says_false. intros (s' & (m & T & _) & _). cbn in T. injection T as -> _. lia.
Qed.

Lemma glob_ok sep : forall n p s fuel, (cnt p < n)%nat -> (need p s <= fuel)%nat ->
  says (glob fuel sep p s) (glob_matches sep p s).
Proof.
  induction n as [|n IH]; intros p s fuel Hc Hf; [lia|].
  destruct (reads_total sep p) as (ts & r & R). unfold glob.
  eapply says_iff.
  - apply (main sep (cnt p)) with (ts := ts) (rest := r); try assumption; try reflexivity.
    + intros p' s' fuel' H1 H2. apply IH; [lia|assumption].
    + unfold need in Hf. cbn [app]. lia.
  - cbn [app]. symmetry. apply matches_iff. assumption.
Qed.

(** C92: incremental builds. *)
From Coq Require Import List Arith Bool Lia.
From Verif Require Import S_Incr M_Incr P_Incr P_Incr2 P_Incr3.
Import ListNotations.

(** What a build leaves of a module for its users: source, interface and hashes. *)
Definition visible {Src} (v : env Src) := map (fun x => (fst x, e_src Src (snd x), e_items Src (snd x), e_hashes Src (snd x))) v.

(** What is assumed of the front passes: they ask only for names that must exist; the result is well
    formed; and every name asked for occurs in the result, or in the signature of a name there, and so
    on. *)
Record front_ok (Src : Type) (front : nat -> Src -> tree) : Prop := {
  front_exact : forall m s, exact (front m s);
  front_wf : forall m s look items, run look (front m s) = Some items -> well_formed m items;
  front_covers : forall m s look items q, run look (front m s) = Some items -> In q (asked look (front m s)) ->
    exists r, In r (mentioned m items) /\ below look r q }.

(** After any number of builds, failed or not, of any sources, a build with the files left over gives
    the same result as a build from nothing.  Missing: circles through more than one name of a module,
    and questions whether a name exists; see the refutations. *)
Theorem C92_incremental_partial : forall Src src_eqb front maxd, (forall a b : Src, src_eqb a b = true <-> a = b) -> front_ok Src front ->
  forall cache order, history Src src_eqb front maxd cache -> NoDup (map fst order) ->
  let incremental := build Src src_eqb front maxd cache order [] in
  let clean := build Src src_eqb front maxd [] order [] in
  snd incremental = snd clean /\ visible (fst incremental) = visible (fst clean).
Proof.
  intros Src src_eqb front maxd SE [FE FW FC] cache order H N. cbn zeta.
  destruct (incremental Src src_eqb front maxd (fun a b X => proj1 (SE a b) X) FE FW FC cache order H N) as (A & B & _). split; [exact A|].
  unfold visible, sims in *. induction B as [|[a e] [b e'] v v' [E (S1 & S2 & S3 & _)] B IH]; [reflexivity|]. cbn [map fst snd] in *. rewrite IH, E, S1, S2, S3. reflexivity.
Qed.

(** If a name has the same hash in two builds, its signature, and the signatures of all names below it,
    are the same. *)
Theorem C92_hash_partial : forall Src src_eqb front maxd, (forall a b : Src, src_eqb a b = true <-> a = b) -> front_ok Src front ->
  forall cache1 order1 cache2 order2, history Src src_eqb front maxd cache1 -> NoDup (map fst order1) -> history Src src_eqb front maxd cache2 -> NoDup (map fst order2) ->
  let v1 := fst (build Src src_eqb front maxd cache1 order1 []) in let v2 := fst (build Src src_eqb front maxd cache2 order2 []) in
  forall q, hash_of Src v1 q = hash_of Src v2 q -> forall q', below (look Src v1) q q' -> look Src v1 q' = look Src v2 q'.
Proof.
  intros Src src_eqb front maxd SE [FE FW FC] cache1 order1 cache2 order2 H1 N1 H2 N2 v1 v2 q E q' B.
  destruct (incremental Src src_eqb front maxd (fun a b X => proj1 (SE a b) X) FE FW FC cache1 order1 H1 N1) as (_ & _ & G1).
  destruct (incremental Src src_eqb front maxd (fun a b X => proj1 (SE a b) X) FE FW FC cache2 order2 H2 N2) as (_ & _ & G2).
  symmetry. exact (proj1 (hash_below Src v1 v2 q q' G1 G2 B E)).
Qed.

(** A second build of the same sources does not run the front passes at all: the result is the same
    whatever they would do.  This needs no assumption about them. *)
Theorem C92_nothing_to_do : forall Src src_eqb front maxd, (forall a b : Src, src_eqb a b = true <-> a = b) ->
  forall cache order, NoDup (map fst order) -> let r := build Src src_eqb front maxd cache order [] in
  snd r = true -> forall other_front, build Src src_eqb other_front maxd (fst r ++ cache) order [] = r.
Proof.
  intros Src src_eqb front maxd SE cache order N r T other. apply again; try assumption; intros; apply SE; [reflexivity|assumption].
Qed.
Print Assumptions C92_incremental_partial.
Print Assumptions C92_hash_partial.
Print Assumptions C92_nothing_to_do.


(** ** An example: module 1 uses a class of module 0 and the first name its signature mentions. *)
Definition user (n : qname) : tree :=
  Ask n (fun i => match refs i with r :: _ => Ask r (fun j => Done [Item 0 (Info (text j) []) [n]]) | [] => Done [Item 0 (Info 3 [n]) []] end).
Lemma user_exact : forall n, exact (user n).
Proof. intro n. constructor. intros [t [|r rs]]; cbn [refs]; [constructor|]. constructor. intro j. constructor. Qed.
Lemma user_wf : forall n m lk items, fst n <> m -> run lk (user n) = Some items -> well_formed m items.
Proof.
  intros n m lk items N R. unfold user in R. cbn [run] in R. destruct (lk n) as [[t [|r rs]]|]; cbn [refs run] in R; [| |discriminate R]; [|destruct (lk r) as [j|]; [|discriminate R]]; injection R as <-.
  - split; [repeat constructor; cbn; tauto|]. split; [|exists (fun _ => 0)]; intros it x I X F; cbn in I; destruct I as [<-|[]]; cbn in X; destruct X as [<-|[]]; contradiction.
  - split; [repeat constructor; cbn; tauto|]. split; [|exists (fun _ => 0)]; intros it x I X F; cbn in I; destruct I as [<-|[]]; destruct X.
Qed.
Lemma user_covers : forall n m lk items q, fst n <> m -> run lk (user n) = Some items -> In q (asked lk (user n)) -> exists r, In r (mentioned m items) /\ below lk r q.
Proof.
  intros n m lk items q N R A. unfold user in R, A. cbn [run asked] in *. destruct (lk n) as [[t rs0]|] eqn:L; [|discriminate R]. cbn [refs] in *.
  apply Nat.eqb_neq in N. destruct rs0 as [|r rs]; cbn [run asked] in *.
  - injection R as <-. exists n. split; [cbn; rewrite N; left; reflexivity|]. destruct A as [<-|[]]. constructor.
  - destruct (lk r) as [j|]; [|discriminate R]. injection R as <-. exists n. split; [cbn; rewrite N; left; reflexivity|]. destruct A as [<-|[<-|[]]]; [constructor|]. eapply below_step; [exact L|left; reflexivity|constructor].
Qed.
Definition ex_front (m s : nat) : tree :=
  match m with
  | 0 => Done [Item 0 (Info s []) []; Item 1 (Info 7 [(0, 0); (0, 1)]) []; Item 2 (Info (s + s) []) []]
  | _ => user (0, 1)
  end.
Lemma ex_front_ok : front_ok nat ex_front.
Proof.
  split.
  - intros [|m] s; cbn [ex_front]; [constructor|apply user_exact].
  - intros [|m] s lk items R; cbn [ex_front] in R; [|apply (user_wf (0, 1) _ lk); [cbn; discriminate|exact R]]. cbn [run] in R. injection R as <-. split; [|split].
    + repeat constructor; cbn; intuition discriminate.
    + intros it r I X _. cbn in I. destruct I as [<-|[<-|[<-|[]]]]; cbn in X; [destruct X|destruct X as [<-|[<-|[]]]; cbn; auto|destruct X].
    + exists (fun n => match n with 1 => 1 | _ => 0 end). intros it r I X _. cbn in I. destruct I as [<-|[<-|[<-|[]]]]; cbn in X; [destruct X|destruct X as [<-|[<-|[]]]; cbn; auto|destruct X].
  - intros [|m] s lk items q R A; cbn [ex_front] in *; [destruct A|]. apply (user_covers (0, 1) _ lk items q); [cbn; discriminate|exact R|exact A].
Qed.
(** With another source of module 0 that changes name 0, below name 1, module 1 is checked again. *)
Example C92_ex : let old := build nat Nat.eqb ex_front 5 [] [(0, 4); (1, 0)] [] in let new := build nat Nat.eqb ex_front 5 (fst old ++ []) [(0, 6); (1, 0)] [] in
  history nat Nat.eqb ex_front 5 (fst old ++ []) /\ snd new = true /\ look nat (fst old) (1, 0) = Some (Info 4 []) /\ look nat (fst new) (1, 0) = Some (Info 6 []) /\
  hash_of nat (fst old) (0, 1) <> hash_of nat (fst new) (0, 1).
Proof. cbn zeta. split; [apply history_build; [constructor|repeat constructor; cbn; intuition discriminate]|]. split; [reflexivity|]. split; [reflexivity|]. split; [reflexivity|]. vm_compute. discriminate. Qed.
(** A module that is not affected is not checked again, even if another name of module 0 changes. *)
Definition ex_front2 (m s : nat) : tree := match m with 0 => Done [Item 0 (Info 1 []) []; Item 1 (Info 7 [(0, 0)]) []; Item 2 (Info s []) []] | _ => user (0, 1) end.
Example C92_ex_kept : let old := build nat Nat.eqb ex_front2 5 [] [(0, 4); (1, 0)] [] in
  snd (build nat Nat.eqb (fun m s => match m with 0 => ex_front2 0 s | _ => Fail end) 5 (fst old) [(0, 6); (1, 0)] []) = true.
Proof. reflexivity. Qed.

(** ** Circles.  Two classes swap their signatures, one of them mentions a third, which mentions both:
    the hash of the third is the same, as the names of the members are not hashed with the group.  A
    module that uses it is not checked again, and keeps what it knew of the first. *)
Definition cy_front (m s : nat) : tree :=
  match m, s with
  | 0, 0 => Done [Item 0 (Info 2 [(0, 2)]) []; Item 1 (Info 3 []) []; Item 2 (Info 1 [(0, 0); (0, 1)]) []]
  | 0, _ => Done [Item 0 (Info 3 []) []; Item 1 (Info 2 [(0, 2)]) []; Item 2 (Info 1 [(0, 0); (0, 1)]) []]
  | _, _ => user (0, 2)
  end.
Theorem C92_circle_refuted : exists front : nat -> nat -> tree,
  (forall m s, exact (front m s)) /\
  (forall m s look items, run look (front m s) = Some items -> NoDup (map name_of items) /\
    forall it r, In it items -> In r (refs (sig_of it)) -> fst r = m -> In (snd r) (map name_of items)) /\
  (forall m s look items q, run look (front m s) = Some items -> In q (asked look (front m s)) -> exists r, In r (mentioned m items) /\ below look r q) /\
  forall maxd, exists cache order, history nat Nat.eqb front maxd cache /\ NoDup (map fst order) /\
  let incremental := build nat Nat.eqb front maxd cache order [] in let clean := build nat Nat.eqb front maxd [] order [] in
  snd incremental = true /\ snd clean = true /\ look nat (fst incremental) (1, 0) <> look nat (fst clean) (1, 0).
Proof.
  exists cy_front. split; [|split; [|split]].
  - intros [|m] [|s]; cbn [cy_front]; first [apply user_exact|constructor].
  - assert (D : forall m lk items, m <> 0 -> run lk (user (0, 2)) = Some items -> NoDup (map name_of items) /\ forall it r, In it items -> In r (refs (sig_of it)) -> fst r = m -> In (snd r) (map name_of items)).
    { intros m lk items M R. destruct (user_wf (0, 2) m lk items ltac:(cbn; auto) R) as (A & B & _). auto. }
    intros [|m] [|s] lk items R; cbn [cy_front] in R; try (apply (D _ lk); [discriminate|exact R]); cbn [run] in R; injection R as <-;
    (split; [repeat constructor; cbn; intuition discriminate|]); intros it r I X _; cbn in I; destruct I as [<-|[<-|[<-|[]]]]; cbn in X;
    try (destruct X as [<-|[<-|[]]]; cbn; auto); try (destruct X as [<-|[]]; cbn; auto); try destruct X.
  - intros [|m] [|s] lk items q R A; cbn [cy_front] in *; try destruct A; (apply (user_covers (0, 2) _ lk items q); [cbn; discriminate|exact R|]; first [exact A|left; assumption|right; assumption]).
  - intro maxd. exists (fst (build nat Nat.eqb cy_front maxd [] [(0, 0); (1, 0)] []) ++ []), [(0, 1); (1, 0)].
    split; [apply history_build; [constructor|repeat constructor; cbn; intuition discriminate]|]. split; [repeat constructor; cbn; intuition discriminate|].
    destruct maxd as [|[|[|maxd]]]; vm_compute; (split; [reflexivity|]; split; [reflexivity|discriminate]).
Qed.
Print Assumptions C92_circle_refuted.

(** ** Questions whether a name exists, as with from m import all names: a new name in an imported
    module, that hides another one, is not noticed.  Here module 0 gets a name 5; module 1 uses it if it
    is there, and name 1 otherwise. *)
Definition st_front (m s : nat) : tree :=
  match m, s with
  | 0, 0 => Done [Item 1 (Info 2 []) []]
  | 0, _ => Done [Item 1 (Info 2 []) []; Item 5 (Info 3 []) []]
  | _, _ => Ask (0, 1) (fun _ => Try (0, 5) (fun o => match o with Some i => Done [Item 0 (Info (text i) []) [(0, 1); (0, 5)]] | None => Done [Item 0 (Info 8 []) [(0, 1)]] end))
  end.
Theorem C92_star_refuted : exists front : nat -> nat -> tree,
  (forall m s look items, run look (front m s) = Some items -> well_formed m items) /\
  (forall m s look items q, run look (front m s) = Some items -> In q (asked look (front m s)) -> look q <> None -> exists r, In r (mentioned m items) /\ below look r q) /\
  forall maxd, exists cache order, history nat Nat.eqb front maxd cache /\ NoDup (map fst order) /\
  let incremental := build nat Nat.eqb front maxd cache order [] in let clean := build nat Nat.eqb front maxd [] order [] in
  snd incremental = true /\ snd clean = true /\ look nat (fst incremental) (1, 0) <> look nat (fst clean) (1, 0).
Proof.
  assert (W : forall m items, Forall (fun it => refs (sig_of it) = []) items -> NoDup (map name_of items) -> well_formed m items).
  { intros m items F N. rewrite Forall_forall in F. split; [exact N|]. split; [|exists (fun _ => 0)]; intros it r I X; rewrite (F it I) in X; destruct X. }
  exists st_front. split; [|split].
  - intros [|m] [|s] lk items R; cbn [st_front run] in R; try (destruct (lk (0, 1)); [|discriminate R]; destruct (lk (0, 5))); cbn [run] in R; injection R as <-; apply W; repeat constructor; cbn; intuition discriminate.
  - intros [|m] [|s] lk items q R A Q; cbn [st_front run asked] in *; try destruct A as [<-|A]; try destruct A;
    (destruct (lk (0, 1)) as [j|]; [|discriminate R]); destruct (lk (0, 5)) as [i|] eqn:L5; cbn [run asked] in *; injection R as <-; cbn [mentioned flat_map sig_of refs uses app filter fst Nat.eqb negb];
    try (exists (0, 1); split; [left; reflexivity|constructor]);
    repeat match goal with H : In _ (_ :: _) |- _ => destruct H as [<-|H] | H : In _ [] |- _ => destruct H | H : _ = q |- _ => subst q end; try congruence; exists (0, 5); (split; [right; left; reflexivity|constructor]).
  - intro maxd. exists (fst (build nat Nat.eqb st_front maxd [] [(0, 0); (1, 0)] []) ++ []), [(0, 1); (1, 0)].
    split; [apply history_build; [constructor|repeat constructor; cbn; intuition discriminate]|]. split; [repeat constructor; cbn; intuition discriminate|].
    vm_compute; (split; [reflexivity|]; split; [reflexivity|discriminate]).
Qed.
Print Assumptions C92_star_refuted.

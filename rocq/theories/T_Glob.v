(** C80: glob patterns. *)
From Verif Require Import Base P_Base S_Glob M_Glob P_Glob.

(** glob always answers (given enough stack: the depth is bounded below), and it answers
    True exactly if one of the pattern's brace expansions, read part by part, matches the
    whole path. *)
Theorem C80_glob_matches : forall sep pattern path fuel,
  (S (count_occ Z.eq_dec pattern 125%Z) * S (length pattern + length path) + 1 <= fuel)%nat ->
  exists b, glob fuel sep pattern path = Ok b /\ (b = true <-> glob_matches sep pattern path).
Proof. intros sep p s fuel H. apply (glob_ok sep (S (cnt p))); [lia|exact H]. Qed.
Print Assumptions C80_glob_matches.

(** More stack does not change the answer. *)
Theorem C80_answer_is_definite : forall sep pattern path f1 f2,
  (S (count_occ Z.eq_dec pattern 125%Z) * S (length pattern + length path) + 1 <= f1)%nat ->
  (S (count_occ Z.eq_dec pattern 125%Z) * S (length pattern + length path) + 1 <= f2)%nat ->
  glob f1 sep pattern path = glob f2 sep pattern path.
Proof.
  intros sep p s f1 f2 H1 H2.
  destruct (C80_glob_matches sep p s f1 H1) as (a & -> & A).
  destruct (C80_glob_matches sep p s f2 H2) as (b & -> & B).
  f_equal. destruct a, b; try reflexivity; exfalso; rewrite B in A || rewrite <- A in B; intuition discriminate.
Qed.
Print Assumptions C80_answer_is_definite.

Lemma matches_plain sep p ts s : reads sep p ts [] -> glob_matches sep p s <-> takes_all sep ts s [].
Proof.
  intros R. rewrite (matches_iff sep p ts [] s R). split.
  - intros (s' & T & F). cbn in F. subst. exact T.
  - intros T. exists []. split; [exact T|reflexivity].
Qed.

(** A text with the five special characters escaped matches itself and nothing else. *)
Fixpoint escape (s : list Z) : list Z :=
  match s with
  | [] => []
  | c :: s' => if special c then 92 :: c :: escape s' else c :: escape s'
  end.
Lemma reads_escape sep t : reads sep (escape t) (map TLit t) [].
Proof.
  induction t as [|c t IH]; cbn [escape map]; [constructor|].
  destruct (special c) eqn:E; [apply R_esc|apply R_lit]; assumption.
Qed.
Lemma takes_lits sep t s s' : takes_all sep (map TLit t) s s' <-> s = t ++ s'.
Proof.
  revert s. induction t as [|c t IH]; intros s; cbn [map takes_all app takes].
  - split; congruence.
  - split.
    + intros (m & -> & T). f_equal. apply IH. exact T.
    + intros ->. exists (t ++ s'). split; [reflexivity|]. apply IH. reflexivity.
Qed.
Theorem C80_escaped_is_literal : forall sep text path fuel,
  (S (count_occ Z.eq_dec (escape text) 125%Z) * S (length (escape text) + length path) + 1 <= fuel)%nat ->
  exists b, glob fuel sep (escape text) path = Ok b /\ (b = true <-> path = text).
Proof.
  intros sep t s fuel H. destruct (C80_glob_matches sep (escape t) s fuel H) as (b & E & B).
  exists b. split; [exact E|]. rewrite B. rewrite (matches_plain sep _ _ s (reads_escape sep t)), takes_lits, app_nil_r. reflexivity.
Qed.
Print Assumptions C80_escaped_is_literal.

(** text*text' matches the paths that begin with text, end with text' and have no separator
    between. *)
Theorem C80_star_within_segment : forall sep text text' path fuel,
  (forall c, In c (text ++ text') -> special c = false) ->
  (S (count_occ Z.eq_dec (text ++ 42%Z :: text') 125%Z) * S (length (text ++ 42%Z :: text') + length path) + 1 <= fuel)%nat ->
  exists b, glob fuel sep (text ++ 42 :: text') path = Ok b /\
            (b = true <-> exists x, path = text ++ x ++ text' /\ ~ In sep x).
Proof.
  intros sep t t' s fuel Hp H. destruct (C80_glob_matches sep _ s fuel H) as (b & E & B).
  exists b. split; [exact E|]. rewrite B.
  assert (R' : reads sep t' (map TLit t') []).
  { clear -Hp. induction t' as [|c t' IH]; cbn [map]; [constructor|]. apply R_lit.
    - apply Hp, in_or_app. right. left. reflexivity.
    - apply IH. intros d Hd. apply Hp. apply in_or_app. apply in_app_or in Hd as [Hd|Hd]; [left|right; right]; assumption. }
  assert (R : reads sep (t ++ 42 :: t') (map TLit t ++ TStar :: map TLit t') []).
  { clear H E B s b fuel. induction t as [|c t IH]; cbn [app map].
    - apply R_star; [|exact R']. intros q Q. assert (special 42 = false); [apply Hp; rewrite Q; left; reflexivity|discriminate].
    - apply R_lit; [apply Hp; left; reflexivity|]. apply IH. intros d Hd. apply Hp. right. exact Hd. }
  rewrite (matches_plain sep _ _ s R). clear.
  revert s. induction t as [|c t IH]; intros s; cbn [app map takes_all takes].
  - split.
    + intros (m & (x & -> & N) & T). apply takes_lits in T. rewrite app_nil_r in T. subst m. exists x. auto.
    + intros (x & -> & N). exists t'. split; [exists x; auto|]. apply takes_lits. rewrite app_nil_r. reflexivity.
  - split.
    + intros (m & -> & T). apply IH in T as (x & -> & N). exists x. auto.
    + intros (x & -> & N). eexists. split; [reflexivity|]. apply IH. exists x. auto.
Qed.
Print Assumptions C80_star_within_segment.

(** The comment in the code says that `**/` matches any number of directories: no
    characters, or characters ending in a separator.  It matches any characters. *)
Theorem C80_directories_refuted :
  ~ (forall sep text path fuel, (forall c, In c text -> special c = false) ->
     (S (count_occ Z.eq_dec (42%Z :: 42%Z :: sep :: text) 125%Z) * S (length (42%Z :: 42%Z :: sep :: text) + length path) + 1 <= fuel)%nat ->
     glob fuel sep (42 :: 42 :: sep :: text) path = Ok true ->
     exists x, path = x ++ text /\ (x = [] \/ exists y, x = y ++ [sep])).
Proof.
  intros H. (* **/foo matches barfoo *)
  destruct (H 47 [102;111;111] [98;97;114;102;111;111] 20%nat) as (x & E & D).
  - intros c [<-|[<-|[<-|[]]]]; reflexivity.
  - vm_compute. lia.
  - vm_compute. reflexivity.
  - change [98;97;114;102;111;111] with ([98;97;114] ++ [102;111;111]) in E. apply app_inv_tail in E. subst x.
    destruct D as [D|(y & D)]; [discriminate|]. destruct y as [|a [|b [|c [|d y]]]]; discriminate.
Qed.
Print Assumptions C80_directories_refuted.

(** `?` and negated classes match the separator too. *)
Theorem C80_single_separator_refuted :
  ~ (forall sep p fuel, glob fuel sep p [sep] = Ok true -> In sep p \/ In 42 p).
Proof.
  intros H. destruct (H 47 [63] 20%nat) as [D|D]; [reflexivity| |];
    (destruct D as [D|[]]; discriminate).
Qed.
Print Assumptions C80_single_separator_refuted.

(** The hypotheses can be met: src/{*,**/x}.[a-c] and paths. *)
Example C80_case :
  let p := [115;47;123;42;44;42;42;47;120;125;46;91;97;45;99;93] in
  glob 200 47 p [115;47;113;46;98] = Ok true /\
  glob 200 47 p [115;47;113;47;120;46;98] = Ok true /\
  glob 200 47 p [115;47;113;47;121;46;98] = Ok false /\
  (S (count_occ Z.eq_dec p 125%Z) * S (length p + 7) + 1 <= 200)%nat.
Proof. cbv zeta. split; [vm_compute; reflexivity|]. split; [vm_compute; reflexivity|]. split; [vm_compute; reflexivity|]. vm_compute. lia. Qed.

(** Array lemmas for the tim sort proofs. *)
From Verif Require Import Base M_Timsort P_Base.
From Coq Require Import Permutation.
Local Open Scope nat_scope.

Tactic Notation "dlt" ident(E) :=
  match goal with |- context [Nat.ltb ?a ?b] => destruct (Nat.ltb a b) eqn:E end.
Tactic Notation "dif" open_constr(p) ident(E) :=
  match goal with |- context [if ?c then _ else _] => unify c p; destruct c eqn:E end.
Ltac lists := cbn [app]; repeat rewrite <- app_assoc; cbn [app]; repeat rewrite <- app_assoc; cbn [app]; reflexivity.
Ltac lens := cbn [length] in *; repeat rewrite app_length in *; cbn [length] in *; lia.

Section Arr.
Context {A : Type}.

(** ** Array accesses by decomposition *)
Lemma aget_at (d : list A) i p x s : d = p ++ x :: s -> i = length p -> aget d i = Ok x.
Proof.
  intros -> ->. unfold aget. rewrite nth_error_app2, Nat.sub_diag by lia. reflexivity.
Qed.
Lemma aset_at (d : list A) i p y x s : d = p ++ y :: s -> i = length p -> aset d i x = Ok (p ++ x :: s).
Proof.
  intros -> ->. unfold aset. rewrite app_length. cbn [length].
  destruct (length p <? length p + S (length s)) eqn:E; [|lia].
  rewrite firstn_app, Nat.sub_diag, firstn_all. cbn [firstn]. rewrite app_nil_r.
  replace (S (length p)) with (length p + 1) by lia.
  rewrite skipn_app. rewrite skipn_all2 by lia. replace (length p + 1 - length p) with 1 by lia. reflexivity.
Qed.

Lemma snoc_cases (l : list A) : l = [] \/ exists l' x, l = l' ++ [x].
Proof. destruct l using rev_ind; [left; reflexivity|right; eauto]. Qed.

Lemma length0 (l : list A) : length l = 0 -> l = [].
Proof. destruct l; [reflexivity|discriminate]. Qed.

Lemma copy_out_at (d : list A) off n p x s : d = p ++ x ++ s -> off = length p -> n = length x -> copy_out d off n = Ok x.
Proof.
  intros -> -> ->. unfold copy_out. dif (_ <=? _) E; [|lens].
  rewrite skipn_app, Nat.sub_diag, skipn_all. cbn [skipn app].
  rewrite firstn_app, Nat.sub_diag, firstn_all. cbn [firstn]. rewrite app_nil_r. reflexivity.
Qed.

Lemma aget_in (d : list A) i : i < length d -> exists x, aget d i = Ok x /\ nth_error d i = Some x.
Proof.
  intros H. destruct (ne_some d i H) as (x & E). exists x. unfold aget. rewrite E. auto.
Qed.

Lemma div2_bound n : 2 <= n -> 1 <= Nat.div2 n < n.
Proof. intros H. rewrite Nat.div2_div. split; [apply Nat.div_le_lower_bound; lia|apply Nat.div_lt; lia]. Qed.

Lemma shift_spec n : forall (q ys : list A) z s loc, length ys = n -> loc = length q ->
  exists g, shift_up n loc (q ++ ys ++ z :: s) = Ok (q ++ g :: ys ++ s).
Proof.
  induction n as [|n IH]; intros q ys z s loc Hn ->; cbn [shift_up].
  - apply length0 in Hn as ->. exists z. reflexivity.
  - destruct (snoc_cases ys) as [->|(ys1 & y & ->)]; [discriminate|].
    rewrite (aget_at _ (length q + n) (q ++ ys1) y (z :: s)) by (lists || lens). cbn [bindr].
    rewrite (aset_at _ (length q + n + 1) (q ++ ys1 ++ [y]) z y s) by (lists || lens). cbn [bindr].
    destruct (IH q ys1 y (y :: s) (length q)) as (g & E); [lens|reflexivity|].
    exists g. replace ((q ++ ys1 ++ [y]) ++ y :: s) with (q ++ ys1 ++ y :: y :: s) by lists.
    rewrite E. f_equal. lists.
Qed.

Lemma reverse_spec n : forall (p xs s : list A) fuel b e, length xs <= n -> n < fuel -> b = length p ->
  e + 1 = length p + length xs ->
  reverse_elements fuel (p ++ xs ++ s) b e = Ok (p ++ rev xs ++ s).
Proof.
  induction n as [n IH] using lt_wf_ind. intros p xs s fuel b e Hn Hf -> He.
  destruct fuel as [|fuel]; [lia|]. cbn [reverse_elements].
  destruct xs as [|x xs].
  - cbn in He. destruct (e <=? length p) eqn:E; [reflexivity|lia].
  - destruct (snoc_cases xs) as [->|(m & y & ->)].
    + cbn in He. destruct (e <=? length p) eqn:E; [reflexivity|lia].
    + destruct (e <=? length p) eqn:E; [lens|].
      rewrite (aget_at _ (length p) p x ((m ++ [y]) ++ s)) by lists. cbn [bindr].
      rewrite (aget_at _ e (p ++ x :: m) y s) by (lists || lens). cbn [bindr].
      rewrite (aset_at _ (length p) p x y ((m ++ [y]) ++ s)) by lists. cbn [bindr].
      rewrite (aset_at _ e (p ++ y :: m) y x s) by (lists || lens). cbn [bindr].
      replace ((p ++ y :: m) ++ x :: s) with ((p ++ [y]) ++ m ++ x :: s) by lists.
      destruct n as [|n]; [lens|].
      rewrite (IH (n - 1)).
      * f_equal. cbn [rev]. rewrite rev_app_distr. lists.
      * lia.
      * lens.
      * lia.
      * lens.
      * lens.
Qed.

End Arr.

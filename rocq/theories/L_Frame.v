(** Lemmas about keys, sorted unique keys, lookup and grouping. *)
From Coq Require Import Reals List Bool String Ascii NArith Arith Lia Sorted.
From Verif Require Import M_Num M_Frame.
Import ListNotations.
Open Scope list_scope.

Lemma key_eqb_eq a b : key_eqb a b = true <-> a = b.
Proof. unfold key_eqb; destruct (list_eq_dec string_dec a b); split; congruence. Qed.
Lemma key_eqb_refl a : key_eqb a a = true.
Proof. now apply key_eqb_eq. Qed.
Lemma key_eqb_neq a b : key_eqb a b = false <-> a <> b.
Proof. unfold key_eqb; destruct (list_eq_dec string_dec a b); split; congruence. Qed.
Lemma key_eqb_sym a b : key_eqb a b = key_eqb b a.
Proof. destruct (key_eqb a b) eqn:E; symmetry; [apply key_eqb_eq in E | apply key_eqb_neq in E];
  [apply key_eqb_eq | apply key_eqb_neq]; congruence. Qed.

Section Lex.
  Context {A : Type} (cmp : A -> A -> comparison).
  Hypothesis cmp_eq : forall a b, cmp a b = Eq <-> a = b.
  Hypothesis cmp_anti : forall a b, cmp b a = CompOpp (cmp a b).
  Hypothesis cmp_trans : forall a b c, cmp a b = Lt -> cmp b c = Lt -> cmp a c = Lt.
  Lemma lex_eq a b : lex cmp a b = Eq <-> a = b.
  Proof.
    revert b; induction a as [|x a IH]; destruct b as [|y b]; simpl; try (split; congruence).
    destruct (cmp x y) eqn:E.
    - apply cmp_eq in E as ->. rewrite IH. split; congruence.
    - split; [congruence|]. injection 1 as -> _. assert (cmp y y = Eq) by now apply cmp_eq. congruence.
    - split; [congruence|]. injection 1 as -> _. assert (cmp y y = Eq) by now apply cmp_eq. congruence.
  Qed.
  Lemma lex_anti a b : lex cmp b a = CompOpp (lex cmp a b).
  Proof.
    revert b; induction a as [|x a IH]; destruct b as [|y b]; simpl; auto.
    rewrite (cmp_anti x y). destruct (cmp x y); simpl; auto.
  Qed.
  Lemma lex_trans a b c : lex cmp a b = Lt -> lex cmp b c = Lt -> lex cmp a c = Lt.
  Proof.
    revert b c; induction a as [|x a IH]; destruct b as [|y b]; destruct c as [|z c]; simpl; try congruence; auto.
    destruct (cmp x y) eqn:E1; try discriminate.
    - apply cmp_eq in E1 as ->. destruct (cmp y z) eqn:E2; try discriminate; eauto.
    - intros _. destruct (cmp y z) eqn:E2; try discriminate.
      + apply cmp_eq in E2 as ->. now rewrite E1.
      + now rewrite (cmp_trans _ _ _ E1 E2).
  Qed.
End Lex.

Lemma codes_inj a b : codes a = codes b -> a = b.
Proof.
  revert b; induction a as [|x a IH]; destruct b as [|y b]; unfold codes in *; simpl; try discriminate; auto.
  intros H; injection H as H1 H2. f_equal; auto.
  rewrite <- (ascii_N_embedding x), <- (ascii_N_embedding y). now rewrite H1.
Qed.
Lemma N_cmp_trans a b c : N.compare a b = Lt -> N.compare b c = Lt -> N.compare a c = Lt.
Proof. rewrite !N.compare_lt_iff. lia. Qed.
Lemma str_cmp_eq a b : str_cmp a b = Eq <-> a = b.
Proof. unfold str_cmp. rewrite (lex_eq N.compare N.compare_eq_iff). split; [apply codes_inj | congruence]. Qed.
Lemma str_cmp_anti a b : str_cmp b a = CompOpp (str_cmp a b).
Proof. apply lex_anti. intros x y. apply N.compare_antisym. Qed.
Lemma str_cmp_trans a b c : str_cmp a b = Lt -> str_cmp b c = Lt -> str_cmp a c = Lt.
Proof. apply lex_trans; [apply N.compare_eq_iff | apply N_cmp_trans]. Qed.
Lemma key_cmp_eq a b : key_cmp a b = Eq <-> a = b.
Proof. apply lex_eq, str_cmp_eq. Qed.
Lemma key_cmp_anti a b : key_cmp b a = CompOpp (key_cmp a b).
Proof. apply lex_anti, str_cmp_anti. Qed.
Lemma key_cmp_trans a b c : key_cmp a b = Lt -> key_cmp b c = Lt -> key_cmp a c = Lt.
Proof. apply lex_trans; [apply str_cmp_eq | apply str_cmp_trans]. Qed.
Lemma key_cmp_refl a : key_cmp a a = Eq.
Proof. now apply key_cmp_eq. Qed.
(** common prefixes do not matter *)
Lemma key_cmp_app p a b : key_cmp (p ++ a) (p ++ b) = key_cmp a b.
Proof. unfold key_cmp. induction p; simpl; auto. assert (str_cmp a0 a0 = Eq) as -> by now apply str_cmp_eq. auto. Qed.

Definition klt a b := key_cmp a b = Lt.
Notation ksorted := (StronglySorted klt).

Lemma insert_uniq_In k l x : In x (insert_uniq k l) <-> x = k \/ In x l.
Proof.
  induction l as [|y l IH]; simpl; [intuition|].
  destruct (key_cmp k y) eqn:E; simpl; [|intuition|rewrite IH; intuition].
  apply key_cmp_eq in E as ->. intuition.
Qed.
Lemma insert_uniq_sorted k l : ksorted l -> ksorted (insert_uniq k l).
Proof.
  induction 1 as [|y l Hs IH Hy]; simpl; [repeat constructor|].
  destruct (key_cmp k y) eqn:E.
  - now constructor.
  - constructor; [now constructor|]. constructor; [exact E|].
    eapply Forall_impl; [|exact Hy]. intros z Hz. eapply key_cmp_trans; eauto.
  - constructor; auto. apply Forall_forall. intros z Hz. apply insert_uniq_In in Hz as [->|Hz].
    + unfold klt. rewrite (key_cmp_anti k y), E. reflexivity.
    + rewrite Forall_forall in Hy. auto.
Qed.
Lemma sort_uniq_In l x : In x (sort_uniq l) <-> In x l.
Proof. induction l; simpl; [tauto|]. rewrite insert_uniq_In, IHl. intuition. Qed.
Lemma sort_uniq_sorted l : ksorted (sort_uniq l).
Proof. induction l; simpl; [constructor|]. now apply insert_uniq_sorted. Qed.
Lemma ksorted_NoDup l : ksorted l -> NoDup l.
Proof.
  induction 1 as [|y l Hs IH Hy]; constructor; auto. intros Hin. rewrite Forall_forall in Hy.
  specialize (Hy _ Hin). unfold klt in Hy. rewrite key_cmp_refl in Hy. discriminate.
Qed.
Lemma ksorted_ext l1 l2 : ksorted l1 -> ksorted l2 -> (forall x, In x l1 <-> In x l2) -> l1 = l2.
Proof.
  intros H1; revert l2; induction H1 as [|y l Hs IH Hy]; intros l2 H2 E.
  - destruct l2 as [|z l2]; auto. destruct (proj2 (E z)); now left.
  - destruct H2 as [|z l2 Hs2 Hz]; [destruct (proj1 (E y)); now left|].
    rewrite Forall_forall in Hy, Hz.
    assert (y = z) as <-.
    { destruct (proj1 (E y)) as [Ey|Ey]; [now left|now symmetry|].
      destruct (proj2 (E z)) as [Ez|Ez]; [now left|exact Ez|].
      apply Hz in Ey. apply Hy in Ez. unfold klt in *. rewrite (key_cmp_anti y z), Ez in Ey. discriminate. }
    f_equal. apply IH; auto. intros x. split; intros Hx.
    + destruct (proj1 (E x)) as [Ex|Ex]; [now right| |exact Ex]. subst x.
      apply Hy in Hx. unfold klt in Hx. rewrite key_cmp_refl in Hx. discriminate.
    + destruct (proj2 (E x)) as [Ex|Ex]; [now right| |exact Ex]. subst x.
      apply Hz in Hx. unfold klt in Hx. rewrite key_cmp_refl in Hx. discriminate.
Qed.
Lemma ksorted_filter f l : ksorted l -> ksorted (filter f l).
Proof.
  induction 1 as [|y l Hs IH Hy]; simpl; [constructor|]. destruct (f y); auto. constructor; auto.
  rewrite Forall_forall in *. intros z Hz. apply filter_In in Hz as [Hz _]. auto.
Qed.

(** lookup *)
Lemma lookup_map (f : key -> num) (ks : list key) k :
  In k ks -> lookup k (List.map (fun g => (g, f g)) ks) = f k.
Proof.
  induction ks as [|y ks IH]; simpl; [tauto|]. destruct (key_eqb y k) eqn:E.
  - apply key_eqb_eq in E as ->. auto.
  - intros [->|H]; [rewrite key_eqb_refl in E; discriminate|auto].
Qed.
Lemma lookup_None k fr : ~ In k (List.map fst fr) -> lookup k fr = NaN.
Proof.
  induction fr as [|[k' v] fr IH]; simpl; auto. intros H. destruct (key_eqb k' k) eqn:E.
  - apply key_eqb_eq in E. tauto.
  - tauto.
Qed.
Lemma lookup_In k v fr : NoDup (List.map fst fr) -> In (k, v) fr -> lookup k fr = v.
Proof.
  induction fr as [|[k' v'] fr IH]; simpl; [tauto|]. intros Hd H. inversion Hd; subst.
  destruct H as [H|H].
  - injection H as -> ->. now rewrite key_eqb_refl.
  - destruct (key_eqb k' k) eqn:E; auto. apply key_eqb_eq in E as ->.
    destruct H2. change k with (fst (k, v)). now apply in_map.
Qed.
Lemma level_keys_In n fr g :
  In g (level_keys n fr) <-> (n = O /\ g = []) \/ (n <> O /\ exists r, In r fr /\ firstn n (fst r) = g).
Proof.
  unfold level_keys. destruct n as [|n].
  - simpl. split; [intros [<-|[]]; auto|]. intros [[_ ->]|[H _]]; [auto|congruence].
  - rewrite sort_uniq_In, in_map_iff. split.
    + intros [r [E Hr]]. right. split; [discriminate|]. exists r. auto.
    + intros [[E _]|[_ [r [Hr E]]]]; [discriminate|]. exists r. auto.
Qed.
Lemma level_keys_sorted n fr : ksorted (level_keys n fr).
Proof. destruct n; simpl; [repeat constructor | apply sort_uniq_sorted]. Qed.
Lemma level_keys_here n fr r : In r fr -> In (firstn n (fst r)) (level_keys n fr).
Proof. intros H. apply level_keys_In. destruct n; [left; auto | right; split; [discriminate|]; eauto]. Qed.
Lemma groupby_lookup n agg fr g :
  In g (level_keys n fr) ->
  lookup g (groupby_level n agg fr) = agg (List.map snd (filter (fun r => key_eqb (firstn n (fst r)) g) fr)).
Proof. intros H. unfold groupby_level. now rewrite (lookup_map (fun g => agg _)). Qed.

(** finite sums *)
Lemma xsum_finite l : Forall no_inf l -> xsum l = Fin (Rsum (finite_values l)).
Proof.
  induction 1 as [|x l [H1 H2] Hl IH]; simpl; auto. unfold xsum in *. simpl. rewrite IH.
  destruct x; simpl; congruence.
Qed.
Lemma xsum_app_nan l : xsum (l ++ [NaN]) = xsum l.
Proof. unfold xsum. rewrite fold_right_app. reflexivity. Qed.
Open Scope R_scope.
Lemma Rsum_app a b : Rsum (a ++ b) = Rsum a + Rsum b.
Proof. induction a; simpl; [ring|rewrite IHa; ring]. Qed.
Lemma finite_values_app a b : finite_values (a ++ b) = finite_values a ++ finite_values b.
Proof. induction a as [|[] a IH]; simpl; auto. now rewrite IH. Qed.
Lemma Rsum_scal c l : Rsum (List.map (Rmult c) l) = c * Rsum l.
Proof. induction l; simpl; [ring|rewrite IHl; ring]. Qed.

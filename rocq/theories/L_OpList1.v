(** Missing rows do not change an operation (C74): aggregations. *)
From Coq Require Import Reals List Bool String Arith Permutation Sorted Lia Lra.
From Verif Require Import M_Num M_Frame M_Ops L_Frame L_Jackknife3.
Import ListNotations.
Open Scope list_scope.

Definition nans (m : nat) : list num := repeat NaN m.

Lemma xsum_nans l m : xsum (l ++ nans m) = xsum l.
Proof. rewrite (xsum_perm _ _ (Permutation_app_comm l (nans m))). induction m; cbn; auto. Qed.
Lemma xsum_padded l l' m : Permutation l (l' ++ nans m) -> xsum l = xsum l'.
Proof. intros H. rewrite (xsum_perm _ _ H). apply xsum_nans. Qed.
Lemma map_nans (f : num -> num) m : f NaN = NaN -> List.map f (nans m) = nans m.
Proof. intros H. unfold nans. induction m; cbn; auto. now rewrite H, IHm. Qed.

(** Totally ordered apart from NaN. *)
Lemma xlt_asym x y : xlt x y = true -> xlt y x = false.
Proof. destruct x, y; cbn; intros H; try discriminate; auto; repeat destruct Rlt_dec; try discriminate; auto; lra. Qed.
Lemma xlt_trans x y z : xlt x y = true -> xlt y z = true -> xlt x z = true.
Proof. destruct x, y, z; cbn; intros H H'; try discriminate; auto; repeat destruct Rlt_dec; try discriminate; auto; lra. Qed.
Lemma xlt_total x y : is_nan x = false -> is_nan y = false -> xlt x y = false -> xlt y x = false -> x = y.
Proof. destruct x, y; cbn; intros H H'; try discriminate; auto; repeat destruct Rlt_dec; try discriminate; auto. intros. f_equal. lra. Qed.
Lemma xlt_nan_l x y : is_nan x = true -> xlt x y = false. Proof. now destruct x. Qed.

Definition stop (x y : num) : bool := is_nan y || (negb (is_nan x) && xlt y x).
Lemma insert_stop x y l : insert_desc x (y :: l) = if stop x y then x :: y :: l else y :: insert_desc x l.
Proof. unfold stop. cbn. destruct (is_nan y), (is_nan x); cbn; auto. Qed.
Lemma insert_comm x y l : insert_desc x (insert_desc y l) = insert_desc y (insert_desc x l).
Proof.
  assert (forall a b, stop a b = true -> stop b a = true -> a = b) as Hboth.
  { intros a b. unfold stop. destruct (is_nan a) eqn:Ea, (is_nan b) eqn:Eb; cbn; try discriminate.
    - intros _ _. destruct a; try discriminate. now destruct b.
    - intros H1 H2. rewrite (xlt_asym _ _ H1) in H2. discriminate. }
  assert (forall a b, stop a b = false -> stop b a = false -> a = b) as Hnone.
  { intros a b. unfold stop. destruct (is_nan a) eqn:Ea, (is_nan b) eqn:Eb; cbn; try discriminate.
    intros H1 H2. now apply xlt_total. }
  assert (forall a b c, stop a b = true -> stop b c = true -> stop a c = true) as Htr.
  { intros a b c. unfold stop. destruct (is_nan a) eqn:Ea, (is_nan b) eqn:Eb, (is_nan c) eqn:Ec; cbn; try discriminate; auto.
    intros H1 H2. now apply (xlt_trans c b a). }
  induction l as [|z l IH].
  - change (insert_desc x [y] = insert_desc y [x]). rewrite !insert_stop. destruct (stop x y) eqn:E1, (stop y x) eqn:E2; cbn [insert_desc]; auto.
    + now rewrite (Hboth _ _ E1 E2).
    + now rewrite (Hnone _ _ E1 E2).
  - rewrite (insert_stop y z), (insert_stop x z). destruct (stop y z) eqn:E1, (stop x z) eqn:E2.
    + rewrite !insert_stop, E1, E2. destruct (stop x y) eqn:E3, (stop y x) eqn:E4; auto.
      * now rewrite (Hboth _ _ E3 E4).
      * now rewrite (Hnone _ _ E3 E4).
    + rewrite !insert_stop, E1, E2. destruct (stop x y) eqn:E3; auto. rewrite (Htr _ _ _ E3 E1) in E2. discriminate.
    + rewrite !insert_stop, E1, E2. destruct (stop y x) eqn:E4; auto. rewrite (Htr _ _ _ E4 E2) in E1. discriminate.
    + rewrite !insert_stop, E1, E2. now rewrite IH.
Qed.
Lemma sort_desc_same l l' : Permutation l l' -> sort_desc l = sort_desc l'.
Proof. induction 1; cbn; auto; [now f_equal|apply insert_comm|congruence]. Qed.
Lemma insert_nan_filter l : filter (fun x => negb (is_nan x)) (insert_desc NaN l) = filter (fun x => negb (is_nan x)) l.
Proof. induction l as [|y l IH]; cbn; auto. destruct (is_nan y) eqn:E; cbn; rewrite ?E; cbn; auto. now f_equal. Qed.
Lemma sort_nans l m : sort_desc (nans m ++ l) = Nat.iter m (insert_desc NaN) (sort_desc l).
Proof. induction m; cbn; auto. now f_equal. Qed.
Lemma nlargest_padded k l l' m : Permutation l (l' ++ nans m) -> nlargest k l = nlargest k l'.
Proof.
  intros H. unfold nlargest. f_equal. rewrite (sort_desc_same _ _ H), (sort_desc_same _ _ (Permutation_app_comm l' (nans m))), sort_nans.
  clear H. induction m; cbn; auto. now rewrite insert_nan_filter.
Qed.
Lemma cumsum_nan p l : (forall x, is_nan x = true -> p x = false) -> forall acc, filter p (cumsum_list acc (insert_desc NaN l)) = filter p (cumsum_list acc l).
Proof.
  intros Hp. induction l as [|y l IH]; intros acc; cbn.
  - now rewrite (Hp NaN).
  - destruct (is_nan y) eqn:E; cbn.
    + destruct y; try discriminate. cbn. rewrite !(Hp NaN) by reflexivity. reflexivity.
    + rewrite E. cbn. now rewrite IH.
Qed.
Lemma nxx_padded s l l' m : Permutation l (l' ++ nans m) -> nxx_col s l = nxx_col s l'.
Proof.
  intros H. unfold nxx_col. do 4 f_equal. rewrite (sort_desc_same _ _ H), (sort_desc_same _ _ (Permutation_app_comm l' (nans m))), sort_nans.
  clear H. induction m; cbn; auto. rewrite cumsum_nan; auto. intros x. apply xlt_nan_l.
Qed.
Lemma map_padded (f : num -> num) l l' m : f NaN = NaN -> Permutation l (l' ++ nans m) -> Permutation (List.map f l) (List.map f l' ++ nans m).
Proof. intros Hf H. rewrite (Permutation_map f H), map_app, map_nans by exact Hf. reflexivity. Qed.

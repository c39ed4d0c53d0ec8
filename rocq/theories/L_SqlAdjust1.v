(** The metrics of the adjusting query, slice by slice. *)
From Coq Require Import Reals List Bool String Arith ZArith Permutation Lia Lra.
From Verif Require Import M_Num M_Frame L_Frame M_Ops M_Leaf S_Leaf L_Leaf L_Leaf2 L_Slices M_SqlGlobal M_SqlLeaf S_SqlLeaf L_SqlLeaf L_SqlLeaf2 M_Adjust L_Adjust M_SqlOps M_SqlList M_SqlMHList M_SqlAdjust.
Import ListNotations.
Open Scope string_scope.
Open Scope list_scope.

Fixpoint no_where (m : metric) : Prop :=
  match m with
  | MLeaf _ w => w = []
  | MOp _ a b w => w = [] /\ no_where a /\ no_where b
  | MConstL _ _ a w | MConstR _ a _ w | MSqrt a w | MSq a w => w = [] /\ no_where a
  end.
Lemma filter_nothing parse (df : table) : filter (pfilters parse []) df = df.
Proof. unfold pfilters. cbn [forallb]. induction df as [|r df IH]; [reflexivity|]. cbn [filter]. now rewrite IH. Qed.
Lemma same_keys_align op f g by_ df : align op (compute_leaf f by_ df) (compute_leaf g by_ df) = compute_leaf (fun rows => num_op op (f rows) (g rows)) by_ df.
Proof.
  unfold align. assert (forall h, List.map fst (compute_leaf h by_ df) = group_keys by_ df) as E by (intros h; unfold compute_leaf; now rewrite map_fst_pair). rewrite !E.
  assert (sort_uniq (group_keys by_ df ++ group_keys by_ df) = group_keys by_ df) as ->.
  { apply ksorted_ext; [apply sort_uniq_sorted|apply group_keys_sorted|]. intros k. rewrite sort_uniq_In, in_app_iff. tauto. }
  unfold compute_leaf. apply map_ext_in. intros k Hk. f_equal. f_equal; exact (lookup_map (fun k0 => _ (slice by_ k0 df)) _ k Hk).
Qed.
Lemma compute_mval parse m by_ df : no_where m -> compute parse m by_ df = compute_leaf (mval parse m) by_ df.
Proof.
  revert df. induction m as [l w|op a IHa b IHb w|op x a IHa w|op a IHa x w|a IHa w|a IHa w]; intros df; cbn [no_where compute].
  - intros ->. rewrite filter_nothing. unfold compute_leaf. apply map_ext. intros k. cbn [mval]. now rewrite filter_nothing.
  - intros (-> & Ha & Hb). cbv zeta. rewrite filter_nothing, IHa, IHb by assumption. rewrite same_keys_align. unfold compute_leaf. apply map_ext. intros k. cbn [mval]. cbv zeta. now rewrite filter_nothing.
  - intros (-> & Ha). rewrite filter_nothing, IHa by assumption. unfold compute_leaf. rewrite map_map. apply map_ext. intros k. cbn [mval fst snd]. now rewrite filter_nothing.
  - intros (-> & Ha). rewrite filter_nothing, IHa by assumption. unfold compute_leaf. rewrite map_map. apply map_ext. intros k. cbn [mval fst snd]. now rewrite filter_nothing.
  - intros (-> & Ha). rewrite filter_nothing, IHa by assumption. unfold compute_leaf. rewrite map_map. apply map_ext. intros k. cbn [mval fst snd]. now rewrite filter_nothing.
  - intros (-> & Ha). rewrite filter_nothing, IHa by assumption. unfold compute_leaf. rewrite map_map. apply map_ext. intros k. cbn [mval fst snd]. now rewrite filter_nothing.
Qed.

Lemma div_nan a : xdiv a NaN = NaN. Proof. now destruct a. Qed.
Lemma var_fin x rows : complete (Col x) rows -> (1 < List.length rows)%nat ->
  leaf_value (LVar (Col x) 1 None) rows = Fin (cross (at_ (Col x)) (at_ (Col x)) rows / (size rows - 1)).
Proof.
  intros Hx Hn. change (leaf_value (LVar (Col x) 1 None) rows) with (xvar (col_of (Col x) rows) 1). apply lt_INR in Hn. cbn in Hn.
  rewrite xvar_complete; auto; [intros ->; cbn in Hn; lra].
Qed.
Lemma cov_fin y x rows : complete (Col y) rows -> complete (Col x) rows -> (1 < List.length rows)%nat ->
  leaf_value (LCov (Col y) (Col x) 1 None None) rows = Fin (cross (at_ (Col y)) (at_ (Col x)) rows / (size rows - 1)).
Proof.
  intros Hy Hx Hn. change (leaf_value (LCov (Col y) (Col x) 1 None None) rows) with (expanded_value (LCov (Col y) (Col x) 1 None None) rows). apply lt_INR in Hn. cbn in Hn.
  rewrite cov_value; auto; [intros ->; cbn in Hn; lra].
Qed.
Lemma var_one x rows : complete (Col x) rows -> (List.length rows <= 1)%nat -> leaf_value (LVar (Col x) 1 None) rows = NaN.
Proof.
  intros Hx Hn. change (leaf_value (LVar (Col x) 1 None) rows) with (xvar (col_of (Col x) rows) 1). unfold xvar. rewrite count_complete by assumption.
  destruct (Z.leb _ _) eqn:E; [reflexivity|]. apply Z.leb_gt in E. lia.
Qed.
(** no variance, no covariance *)
Lemma cross_zero y x (rows : table) : cross (at_ (Col x)) (at_ (Col x)) rows = 0%R -> cross (at_ (Col y)) (at_ (Col x)) rows = 0%R.
Proof.
  unfold cross, wcross. set (X := at_ (Col x)). set (Y := at_ (Col y)). set (m := wmean_of (fun _ => 1%R) X rows). set (n := wmean_of (fun _ => 1%R) Y rows). intros H.
  assert (Z : forall r, In r rows -> X r = m).
  { intros r Hr. assert ((1 * ((X r - m) * (X r - m)))%R = 0%R) as H0.
    - apply (sum_zero (fun r => (1 * ((X r - m) * (X r - m)))%R) rows); auto; [intros r0 _; cbv beta; rewrite Rmult_1_l; apply Rle_0_sqr|right; exact H].
    - rewrite Rmult_1_l in H0. apply Rmult_integral in H0. destruct H0; lra. }
  rewrite (sum_of_ext _ (fun _ => 0%R)); [rewrite sum_of_const; lra|]. intros r Hr. rewrite (Z r Hr). lra.
Qed.
Lemma theta_fin y x rows : complete (Col y) rows -> complete (Col x) rows -> theta y x rows = NaN \/ exists a, theta y x rows = Fin a.
Proof.
  intros Hy Hx. unfold theta, theta_metric. cbn [evalt]. destruct (le_lt_dec (List.length rows) 1) as [L|L]; [rewrite var_one by assumption; left; now destruct (leaf_value (LCov _ _ _ _ _) rows)|].
  rewrite var_fin, cov_fin by assumption. destruct (Req_EM_T (cross (at_ (Col x)) (at_ (Col x)) rows) 0) as [E|N].
  - rewrite E, (cross_zero y x rows E). left. cbn [xdiv]. unfold Rdiv. rewrite Rmult_0_l. destruct (Req_EM_T 0 0); [|lra]. unfold inf_times. destruct (Req_EM_T 0 0); [reflexivity|lra].
  - right. eexists. apply xdiv_fin. apply lt_INR in L. cbn in L. fold (size rows) in L. intros E. apply N. apply Rmult_eq_reg_r with (/ (size rows - 1))%R; [unfold Rdiv in E; lra|]. apply Rinv_neq_0_compat. unfold size in *. lra.
Qed.
Section Values.
  Variable parse : string -> cond.
  Lemma mval_op op a b rows : mval parse (MOp op a b []) rows = num_op op (mval parse a rows) (mval parse b rows).
  Proof. cbn [mval]. cbv zeta. now rewrite filter_nothing. Qed.
  Lemma mval_leaf l rows : mval parse (MLeaf l []) rows = pandas_leaf l rows.
  Proof. cbn [mval]. now rewrite filter_nothing. Qed.
  Lemma theta_mval y x rows : mval parse (theta_sql_metric y x) rows = theta y x rows.
  Proof. unfold theta_sql_metric, cov_metric, var_metric. rewrite mval_op, !mval_leaf. reflexivity. Qed.
  Lemma prepost_mval y x rows : complete (Col y) rows -> complete (Col x) rows -> rows <> [] ->
    mval parse (prepost_metric y x) rows = xsub (agg_mean y rows) (xmul (agg_mean x rows) (theta y x rows)).
  Proof.
    intros Hy Hx Hn. unfold prepost_metric, mean_metric, cov_metric, var_metric. rewrite !mval_op, !mval_leaf. cbn [num_op pandas_leaf].
    change (leaf_value (LMean (Col y) None) rows) with (agg_mean y rows). change (leaf_value (LMean (Col x) None) rows) with (agg_mean x rows). f_equal.
    unfold theta, theta_metric. cbn [evalt]. rewrite (agg_mean_value x) by assumption. destruct (le_lt_dec (List.length rows) 1) as [L|L].
    - rewrite var_one by assumption. now rewrite !div_nan.
    - rewrite var_fin, cov_fin by assumption. cbn [xmul]. set (c := cross (at_ (Col y)) (at_ (Col x)) rows). set (v := (cross (at_ (Col x)) (at_ (Col x)) rows / (size rows - 1))%R). destruct (Req_EM_T v 0) as [E|N].
      + assert (c = 0%R) as ->. { apply cross_zero. apply lt_INR in L. cbn in L. unfold v, Rdiv in E. apply Rmult_integral in E. destruct E as [E|E]; [exact E|]. exfalso. revert E. apply Rinv_neq_0_compat. unfold size. lra. }
        unfold Rdiv. rewrite Rmult_0_l, Rmult_0_r, E. cbn [xdiv]. unfold inf_times. destruct (Req_EM_T 0 0); [reflexivity|lra].
      + rewrite !xdiv_fin by assumption. cbn [xmul]. f_equal. unfold Rdiv. ring.
  Qed.
End Values.

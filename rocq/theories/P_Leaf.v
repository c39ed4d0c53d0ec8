(** C19 equivalents, C20 bounds, C21 missing values. *)
From Coq Require Import Reals List Bool String ZArith Lia Lra.
From Verif Require Import M_Num M_Frame M_Leaf S_Leaf L_Leaf L_Leaf2 L_Leaf3.
Import ListNotations.
Open Scope string_scope.
Open Scope R_scope.

(** A table with columns x, y, w (weights) and f (frequencies). *)
Definition obs (x y w f : num) : drow :=
  Row (fun _ => None) (fun c => if string_dec c "x" then x else if string_dec c "y" then y else if string_dec c "w" then w else f).
Definition x := Col "x". Definition y := Col "y". Definition w := Col "w". Definition f := Col "f".
Definition ex_rows : table := [obs (Fin 1) (Fin 2) (Fin 1) (Fin 2); obs (Fin 3) (Fin 5) (Fin 2) (Fin 1); obs (Fin 8) (Fin 0) (Fin 1) (Fin 1)].

(** ** C19 *)
(** Expanding comes to an end, in one result, made of Sum, Count and arithmetic. *)
Theorem C19_expansion_ends : forall t, expands_to t (full t) /\ forall e, expands_to t e -> e = full t.
Proof. intros t. split; [exists 6%nat; split; [reflexivity|apply full_fix]|apply expands_full]. Qed.
Theorem C19_only_sum_and_count : forall t l, In l (leaves (full t)) ->
  (exists c, l = LSum c) \/ (exists c, l = LCount c) \/ (exists agg, l = LOther agg /\ In l (leaves t)).
Proof. exact only_sum_count. Qed.
(** The metric and its equivalent have the same value. *)
Theorem C19_same_value : forall l rows, comparable l rows ->
  leaf_value l rows = evalt native_value (full (ELeaf l)) rows.
Proof. exact native_expanded. Qed.
Print Assumptions C19_same_value.

Theorem C19_mean : forall c rows, complete c rows -> rows <> [] ->
  leaf_value (LMean c None) rows = Fin (sum_of (at_ c) rows / size rows).
Proof. exact mean_complete. Qed.
Theorem C19_weighted_mean : forall c w rows, complete c rows -> complete w rows -> sum_of (at_ w) rows <> 0 ->
  leaf_value (LMean c (Some w)) rows = Fin (sum_of (fun r => at_ w r * at_ c r) rows / sum_of (at_ w) rows).
Proof. exact wmean_complete. Qed.
Theorem C19_dot : forall a b rows, complete a rows -> complete b rows ->
  leaf_value (LDot a b false) rows = Fin (sum_of (fun r => at_ a r * at_ b r) rows) /\
  (rows <> [] -> leaf_value (LDot a b true) rows = Fin (sum_of (fun r => at_ a r * at_ b r) rows / size rows)).
Proof.
  intros a b rows Ha Hb. assert (complete (Times a b) rows) as H by now apply complete_times. split.
  - cbn. rewrite xsum_complete by assumption. now rewrite sum_times.
  - intros Hn. cbn. rewrite mean_complete by assumption. unfold mean_of. now rewrite sum_times.
Qed.
Theorem C19_variance : forall c ddof rows, complete c rows -> rows <> [] -> IZR ddof < size rows ->
  leaf_value (LVar c ddof None) rows = Fin (cross (at_ c) (at_ c) rows / (size rows - IZR ddof)).
Proof. exact xvar_complete. Qed.
Theorem C19_weighted_variance : forall c w ddof rows, complete c rows -> complete w rows ->
  0 < sum_of (at_ w) rows -> IZR ddof < sum_of (at_ w) rows ->
  leaf_value (LVar c ddof (Some w)) rows = Fin (wcross (at_ w) (at_ c) (at_ c) rows / (sum_of (at_ w) rows - IZR ddof)).
Proof. exact wvar_value. Qed.
Theorem C19_standard_deviation : forall c ddof weight rows v, leaf_value (LVar c ddof weight) rows = Fin v -> 0 <= v ->
  leaf_value (LSD c ddof weight) rows = Fin (sqrt v).
Proof.
  intros c ddof [u|] rows v H Hv; unfold leaf_value in *; cbn [native] in *.
  - rewrite V_expanded, V_sd. rewrite V_expanded in H. rewrite H. now apply xsqrt_fin.
  - rewrite H. now apply xsqrt_fin.
Qed.
Theorem C19_cv : forall c ddof rows s m, leaf_value (LSD c ddof None) rows = Fin s -> leaf_value (LMean c None) rows = Fin m -> m <> 0 ->
  leaf_value (LCV c ddof) rows = Fin (s / m).
Proof. intros c ddof rows s m H1 H2 Hm. cbn in *. rewrite H1, H2. now apply xdiv_fin. Qed.
(** numpy.cov, without weights, with fweights, aweights, and both *)
Theorem C19_cov : forall a b ddof rows, complete a rows -> complete b rows -> rows <> [] -> IZR ddof < size rows ->
  leaf_value (LCov a b ddof None None) rows = Fin (cross (at_ a) (at_ b) rows / (size rows - IZR ddof)).
Proof. exact cov_value. Qed.
Print Assumptions C19_cov.
Theorem C19_cov_fweights : forall a b f ddof rows, complete a rows -> complete b rows -> complete f rows ->
  0 < sum_of (at_ f) rows -> IZR ddof < sum_of (at_ f) rows ->
  leaf_value (LCov a b ddof None (Some f)) rows = Fin (wcross (at_ f) (at_ a) (at_ b) rows / (sum_of (at_ f) rows - IZR ddof)).
Proof. exact fcov_value. Qed.
Theorem C19_cov_aweights : forall a b w ddof rows, complete a rows -> complete b rows -> complete w rows ->
  let W := sum_of (at_ w) rows in let W2 := sum_of (fun r => at_ w r * at_ w r) rows in
  W <> 0 -> IZR ddof * W2 < W * W ->
  leaf_value (LCov a b ddof (Some w) None) rows = Fin (wcross (at_ w) (at_ a) (at_ b) rows / (W - IZR ddof * W2 / W)).
Proof. exact acov_value. Qed.
Theorem C19_cov_both_weights : forall a b w f ddof rows, complete a rows -> complete b rows -> complete w rows -> complete f rows ->
  let wf := fun r => at_ w r * at_ f r in
  let W := sum_of wf rows in let W2 := sum_of (fun r => wf r * at_ w r) rows in
  W <> 0 -> IZR ddof * W2 < W * W ->
  leaf_value (LCov a b ddof (Some w) (Some f)) rows = Fin (wcross wf (at_ a) (at_ b) rows / (W - IZR ddof * W2 / W)).
Proof. exact afcov_value. Qed.
Theorem C19_correlation : forall a b rows, complete a rows -> complete b rows -> rows <> [] ->
  0 < cross (at_ a) (at_ a) rows -> 0 < cross (at_ b) (at_ b) rows ->
  leaf_value (LCorr a b None) rows =
  Fin (cross (at_ a) (at_ b) rows / (sqrt (cross (at_ a) (at_ a) rows) * sqrt (cross (at_ b) (at_ b) rows))).
Proof.
  intros a b rows Ha Hb Hn H1 H2. change (leaf_value (LCorr a b None) rows) with (xcorr a b rows). rewrite xcorr_complete by assumption.
  apply xdiv_fin. apply sqrt_lt_R0 in H1, H2. intros E. apply Rmult_integral in E. lra.
Qed.
Theorem C19_weighted_correlation : forall a b w rows, complete a rows -> complete b rows -> complete w rows ->
  (forall r, In r rows -> 0 <= at_ w r) -> 0 < sum_of (at_ w) rows ->
  0 < wcross (at_ w) (at_ a) (at_ a) rows -> 0 < wcross (at_ w) (at_ b) (at_ b) rows ->
  leaf_value (LCorr a b (Some w)) rows =
  Fin (wcross (at_ w) (at_ a) (at_ b) rows / (sqrt (wcross (at_ w) (at_ a) (at_ a) rows) * sqrt (wcross (at_ w) (at_ b) (at_ b) rows))).
Proof.
  intros a b w rows Ha Hb Hw Hp Hs H1 H2. change (leaf_value (LCorr a b (Some w)) rows) with (V (ELeaf (LCorr a b (Some w))) rows).
  rewrite wcorr_value by assumption. apply xdiv_fin. apply sqrt_lt_R0 in H1, H2. intros E. apply Rmult_integral in E. lra.
Qed.
(** More degrees of freedom than data: no value. *)
Theorem C19_ddof_too_large : forall a b ddof rows, complete a rows -> complete b rows -> rows <> [] -> size rows < IZR ddof ->
  leaf_value (LCov a b ddof None None) rows = NaN /\ leaf_value (LVar a ddof None) rows = NaN.
Proof.
  intros a b ddof rows Ha Hb Hn Hd. split; [now apply cov_toolarge|]. apply (xvar_small a ddof rows Ha).
  unfold size in Hd. rewrite INR_IZR_INZ in Hd. apply lt_IZR in Hd. lia.
Qed.
Example C19_example : complete x ex_rows /\ complete y ex_rows /\ complete w ex_rows /\ complete f ex_rows /\ ex_rows <> [] /\
  1 < size ex_rows /\ 1 < sum_of (at_ w) ex_rows /\ 1 * sum_of (fun r => at_ w r * at_ w r) ex_rows < sum_of (at_ w) ex_rows * sum_of (at_ w) ex_rows /\
  0 < cross (at_ x) (at_ x) ex_rows.
Proof.
  repeat split; try (repeat constructor; cbn; eauto; fail); try discriminate.
  - unfold size. cbn. lra.
  - unfold sum_of. cbn. lra.
  - unfold sum_of. cbn. lra.
  - rewrite cross_formula by discriminate. unfold sum_of, size. cbn. lra.
Qed.

(** ** C20 *)
Theorem C20_variance_nonnegative : forall c ddof rows v, no_infinity c rows ->
  leaf_value (LVar c ddof None) rows = Fin v -> 0 <= v.
Proof. exact xvar_nonneg. Qed.
Print Assumptions C20_variance_nonnegative.
Theorem C20_weighted_variance_nonnegative : forall c w ddof rows v, complete c rows -> complete w rows ->
  (forall r, In r rows -> 0 <= at_ w r) -> leaf_value (LVar c ddof (Some w)) rows = Fin v -> 0 <= v.
Proof. exact wvar_nonneg. Qed.
Theorem C20_standard_deviation_nonnegative : forall c ddof weight rows v, leaf_value (LSD c ddof weight) rows = Fin v -> 0 <= v.
Proof.
  intros c ddof [u|] rows v H; unfold leaf_value in H; cbn [native] in H.
  - rewrite V_expanded, V_sd in H. eapply xsqrt_nonneg; eauto.
  - eapply xsqrt_nonneg; eauto.
Qed.
(** Cov is symmetric when the two columns have the same number of present values (in general it is
    not, see below). *)
Theorem C20_cov_symmetric_partial : forall a b ddof weight fweight rows,
  count_present (col_of a rows) = count_present (col_of b rows) ->
  leaf_value (LCov a b ddof weight fweight) rows = leaf_value (LCov b a ddof weight fweight) rows.
Proof. exact cov_sym. Qed.
Theorem C20_cov_symmetric_refuted : exists rows ddof u v,
  leaf_value (LCov x y ddof None None) rows = Fin u /\ leaf_value (LCov y x ddof None None) rows = Fin v /\ u <> v.
Proof.
  exists [obs (Fin 1) (Fin 2) NaN NaN; obs (Fin 3) (Fin 4) NaN NaN; obs (Fin 5) NaN NaN NaN], 1%Z.
  unfold leaf_value. cbn [native]. rewrite !V_expanded. erewrite !V_leaf by reflexivity. unfold cov_equivalent. cbn [Z.eqb].
  rewrite !V_div, !V_sub, !V_mul, !V_dotn, !V_mean, !V_sq, !V_sqrt, !V_sub, !V_div, !V_count, !V_num.
  unfold xmean, col_of, count_present, xsum. cbn -[xdiv xsqrt xsq]. rewrite !xdiv_fin by lra. rewrite !xmul_fin, !xsub_fin. cbn [xopp]. rewrite !xsq_sqrt by lra.
  rewrite !xdiv_fin by lra. eexists. eexists. split; [reflexivity|]. split; [reflexivity|]. intros E. field_simplify in E. lra.
Qed.
Print Assumptions C20_cov_symmetric_refuted.
Theorem C20_cov_self_is_variance : forall c ddof rows, no_infinity c rows -> (ddof = 0 \/ ddof = 1)%Z ->
  leaf_value (LCov c c ddof None None) rows = leaf_value (LVar c ddof None) rows.
Proof. intros c ddof rows H1 H2. symmetry. exact (var_native c ddof rows H1 H2). Qed.
(** With weights they differ (Cov takes aweights, Variance treats weights as frequencies). *)
Theorem C20_weighted_cov_self_refuted : exists rows u v, complete x rows /\ complete w rows /\
  leaf_value (LCov x x 1 (Some w) None) rows = Fin u /\ leaf_value (LVar x 1 (Some w)) rows = Fin v /\ u <> v.
Proof.
  exists ex_rows. assert (complete x ex_rows) as Hx by (repeat constructor; cbn; eauto). assert (complete w ex_rows) as Hw by (repeat constructor; cbn; eauto).
  eexists. eexists. split; [exact Hx|]. split; [exact Hw|]. split; [|split].
  - apply C19_cov_aweights; auto; unfold sum_of; cbn; lra.
  - apply C19_weighted_variance; auto; unfold sum_of; cbn; lra.
  - rewrite !wcross_formula by (unfold sum_of; cbn; lra). unfold sum_of. cbn. lra.
Qed.
Theorem C20_correlation_bounds : forall a b rows v, no_infinity a rows -> no_infinity b rows ->
  leaf_value (LCorr a b None) rows = Fin v -> -1 <= v <= 1.
Proof. exact corr_bounds. Qed.
Print Assumptions C20_correlation_bounds.
Theorem C20_weighted_correlation_bounds : forall a b w rows v, complete a rows -> complete b rows -> complete w rows ->
  (forall r, In r rows -> 0 <= at_ w r) -> 0 < sum_of (at_ w) rows ->
  leaf_value (LCorr a b (Some w)) rows = Fin v -> -1 <= v <= 1.
Proof. exact wcorr_bounds. Qed.
(** Replacing a column [a] by [a' = s a + t] with s > 0. *)
Theorem C20_correlation_affine : forall a a' b s t rows, complete a rows -> complete a' rows -> complete b rows ->
  0 < s -> (forall r, In r rows -> at_ a' r = s * at_ a r + t) ->
  leaf_value (LCorr a' b None) rows = leaf_value (LCorr a b None) rows.
Proof. exact corr_affine. Qed.
Theorem C20_weighted_correlation_affine : forall a a' b w s t rows, complete a rows -> complete a' rows -> complete b rows -> complete w rows ->
  (forall r, In r rows -> 0 <= at_ w r) -> 0 < sum_of (at_ w) rows ->
  0 < s -> (forall r, In r rows -> at_ a' r = s * at_ a r + t) ->
  leaf_value (LCorr a' b (Some w)) rows = leaf_value (LCorr a b (Some w)) rows.
Proof. exact wcorr_affine. Qed.
Example C20_example : no_infinity x ex_rows /\ no_infinity y ex_rows /\ (forall r, In r ex_rows -> 0 <= at_ w r) /\
  exists rows, complete x rows /\ complete y rows /\ complete f rows /\ List.length rows = 2%nat /\ forall r, In r rows -> at_ f r = 2 * at_ x r + 1.
Proof.
  repeat split; try (repeat constructor; discriminate).
  - cbn. intros r [<-|[<-|[<-|[]]]]; unfold at_; cbn; lra.
  - exists [obs (Fin 1) (Fin 2) NaN (Fin 3); obs (Fin 2) (Fin 7) NaN (Fin 5)]. repeat split; try (repeat constructor; cbn; eauto; fail).
    cbn. intros r [<-|[<-|[]]]; unfold at_; cbn; lra.
Qed.

(** ** C21 *)
(** Correlation uses the rows where both are present. *)
Theorem C21_correlation_pairwise : forall a b rows,
  leaf_value (LCorr a b None) rows = leaf_value (LCorr a b None) (both_present a b rows).
Proof. intros a b rows. symmetry. exact (xcorr_both a b rows). Qed.
(** So does Cov if the columns are missing in the same rows. *)
Theorem C21_cov_pairwise_partial : forall a b ddof rows, same_missing a b rows ->
  leaf_value (LCov a b ddof None None) rows = leaf_value (LCov a b ddof None None) (both_present a b rows).
Proof. intros a b ddof rows H. symmetry. now apply cov_same_missing. Qed.
Print Assumptions C21_cov_pairwise_partial.
(** Otherwise it does not: (1,2), (3,4), (5,missing); biased covariance 1 of the complete rows. *)
Theorem C21_cov_pairwise_refuted : exists rows u v,
  leaf_value (LCov x y 0 None None) rows = Fin u /\ leaf_value (LCov x y 0 None None) (both_present x y rows) = Fin v /\ u <> v.
Proof.
  exists [obs (Fin 1) (Fin 2) NaN NaN; obs (Fin 3) (Fin 4) NaN NaN; obs (Fin 5) NaN NaN NaN].
  unfold leaf_value. cbn [native]. rewrite !V_expanded. erewrite !V_leaf by reflexivity. unfold cov_equivalent. cbn [Z.eqb].
  rewrite !V_sub, !V_mul, !V_dotn, !V_mean.
  unfold xmean, col_of, count_present, xsum. cbn -[xdiv xsqrt xsq]. rewrite !xdiv_fin by lra. rewrite !xmul_fin, !xsub_fin.
  eexists. eexists. split; [reflexivity|]. split; [reflexivity|]. lra.
Qed.
Print Assumptions C21_cov_pairwise_refuted.
(** Mean and Variance of one column use its present values. *)
Theorem C21_mean_and_variance : forall c ddof rows,
  let present := filter (fun r => negb (is_nan (cellx c r))) rows in
  leaf_value (LMean c None) rows = leaf_value (LMean c None) present /\
  leaf_value (LVar c ddof None) rows = leaf_value (LVar c ddof None) present.
Proof. intros c ddof rows. split; symmetry; [exact (xmean_nonmissing c rows)|exact (xvar_nonmissing c ddof rows)]. Qed.
(** A weighted mean counts the weight of rows whose value is missing. *)
Theorem C21_weighted_mean_refuted : exists rows u v, 
  leaf_value (LMean x (Some w)) rows = Fin u /\ leaf_value (LMean x (Some w)) (both_present x w rows) = Fin v /\ u <> v.
Proof.
  exists [obs (Fin 3) NaN (Fin 1) NaN; obs NaN NaN (Fin 1) NaN]. unfold leaf_value. cbn [native]. rewrite !V_expanded, !V_wmean.
  unfold col_of, xsum. cbn -[xdiv]. rewrite !xdiv_fin by lra. eexists. eexists. split; [reflexivity|]. split; [reflexivity|]. lra.
Qed.
(** With missing values Correlation and its equivalent (used by Jackknife) differ. *)
Theorem C21_correlation_equivalent_refuted : exists rows u v,
  leaf_value (LCorr x y None) rows = Fin u /\ expanded_value (LCorr x y None) rows = Fin v /\ u <> v.
Proof.
  exists [obs (Fin (-1)) (Fin (-1)) NaN NaN; obs (Fin 1) (Fin 1) NaN NaN; obs (Fin 0) NaN NaN NaN].
  set (rows := [_; _; _]). exists 1, (1 / sqrt (2 / 3)). split; [|split].
  - unfold leaf_value. cbn [native]. f_equal. rewrite <- xcorr_both.
    rewrite xcorr_complete; [|repeat constructor; cbn; eauto|repeat constructor; cbn; eauto|discriminate].
    rewrite !cross_formula by discriminate. unfold rows, both_present, sum_of, size, at_. cbn -[xdiv sqrt].
    replace (-1 * -1 + (1 * 1 + 0) - (-1 + (1 + 0)) * (-1 + (1 + 0)) / (1 + 1)) with 2 by field.
    rewrite sqrt_sqrt by lra. rewrite xdiv_fin by lra. f_equal. field.
  - rewrite V_expanded, V_corr, !V_var. erewrite !V_leaf by reflexivity. unfold cov_equivalent. cbn [Z.eqb].
    rewrite !V_sub, !V_mul, !V_dotn, !V_mean. unfold xmean, col_of, count_present, xsum, rows. cbn -[xdiv xsqrt sqrt].
    rewrite !xdiv_fin by lra. rewrite !xmul_fin, !xsub_fin.
    replace ((-1 * -1 + (1 * 1 + 0)) / (1 + 1) - (-1 + (1 + (0 + 0))) / (1 + 1 + 1) * ((-1 + (1 + 0)) / (1 + 1))) with 1 by field.
    replace ((-1 * -1 + (1 * 1 + (0 * 0 + 0))) / (1 + 1 + 1) - (-1 + (1 + (0 + 0))) / (1 + 1 + 1) * ((-1 + (1 + (0 + 0))) / (1 + 1 + 1))) with (2 / 3) by field.
    replace ((-1 * -1 + (1 * 1 + 0)) / (1 + 1) - (-1 + (1 + 0)) / (1 + 1) * ((-1 + (1 + 0)) / (1 + 1))) with 1 by field.
    rewrite !xsqrt_fin by lra. rewrite sqrt_1. assert (0 < sqrt (2 / 3)) by (apply sqrt_lt_R0; lra).
    rewrite xdiv_fin by lra. rewrite xdiv_fin by lra. f_equal. field. lra.
  - assert (0 < sqrt (2 / 3)) by (apply sqrt_lt_R0; lra). intros E.
    assert (sqrt (2 / 3) = 1) as E1 by (apply (Rmult_eq_compat_r (sqrt (2 / 3))) in E; unfold Rdiv in E; rewrite !Rmult_1_l, Rinv_l in E; lra).
    assert (2 / 3 = 1) as E2; [|lra]. rewrite <- (sqrt_sqrt (2 / 3)) by lra. rewrite E1. ring.
Qed.
Example C21_example : same_missing x y [obs (Fin 1) (Fin 2) NaN NaN; obs NaN NaN NaN NaN].
Proof. repeat constructor; cbn; intros; congruence. Qed.

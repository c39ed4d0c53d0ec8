(** Properties C48, C49 and C56: linear models computed from sufficient statistics. *)
From Coq Require Import Reals Lra Lia List Arith Bool.
From Verif Require Import M_Num M_Frame L_Fsum M_Models S_Models M_ElasticNet L_Models L_Ridge L_RidgeNorm L_Fista L_Elastic.
Import ListNotations.
Open Scope R_scope.
Open Scope list_scope.

(** C48. Magic mode returns exactly the minimizers of the loss that pandas mode (sklearn) minimizes.  Without an
    intercept, normalize is ignored. *)
Theorem C48_ridge_minimizes : forall k fit_intercept normalize alpha rows w,
  rows <> [] -> (0 < k)%nat -> 0 <= alpha -> (fit_intercept = false \/ normalize = false) ->
  (ridge_magic k fit_intercept normalize alpha rows w
   <-> minimizes (n_coef k fit_intercept) (ridge_loss k fit_intercept alpha rows) w).
Proof. intros k fit norm alpha rows w Hr Hk Ha [-> | ->]; apply ridge_magic_plain; auto. apply andb_false_r. Qed.
Theorem C48_linear_regression_minimizes : forall k fit_intercept rows w,
  rows <> [] -> (0 < k)%nat ->
  (linear_magic k fit_intercept false rows w
   <-> minimizes (n_coef k fit_intercept) (squared_error k fit_intercept rows) w).
Proof.
  intros k fit rows w Hr Hk. unfold linear_magic. rewrite C48_ridge_minimizes by (auto; lra).
  unfold minimizes, ridge_loss. split; intros [Hl H]; (split; [exact Hl|]); intros v Hv; specialize (H v Hv); lra.
Qed.
(** With normalize: the minimizer on the centered and scaled data, rescaled as in pandas mode. *)
Theorem C48_normalized_ridge : forall k alpha rows w,
  rows <> [] -> (0 < k)%nat -> 0 <= alpha -> (forall i, (i < k)%nat -> norm_x rows i <> 0) ->
  (ridge_magic k true true alpha rows w
   <-> exists v, minimizes (S k) (ridge_loss k true alpha (normalized k rows)) v /\ w = rescaled k rows v).
Proof. intros. apply ridge_magic_norm; assumption. Qed.
(** normalize does not change an ordinary least squares fit. *)
Theorem C48_normalized_linear_regression : forall k rows w,
  rows <> [] -> (0 < k)%nat -> (forall i, (i < k)%nat -> norm_x rows i <> 0) ->
  (linear_magic k true true rows w <-> linear_magic k true false rows w).
Proof.
  intros k rows w Hr Hk Hn. rewrite ols_normalized by assumption.
  unfold linear_magic. rewrite C48_ridge_minimizes by (auto; lra). reflexivity.
Qed.
(** With alpha > 0 there is at most one answer. *)
Theorem C48_ridge_unique : forall k fit_intercept alpha rows w w',
  rows <> [] -> (0 < k)%nat -> 0 < alpha ->
  ridge_magic k fit_intercept false alpha rows w -> ridge_magic k fit_intercept false alpha rows w' -> w = w'.
Proof.
  intros k fit alpha rows w w' Hr Hk Ha H H'.
  rewrite C48_ridge_minimizes in H, H' by (auto; lra).
  apply ridge_min_solves in H; [|exact Hr|lra]. apply ridge_min_solves in H'; [|exact Hr|lra].
  exact (ridge_unique k fit alpha rows w w' Hr Ha H H').
Qed.

(** C49. *)
Theorem C49_proximal_map : forall x t, 0 <= t ->
  (forall z, (soft_thresholding x t - x) ^ 2 / 2 + t * Rabs (soft_thresholding x t) <= (z - x) ^ 2 / 2 + t * Rabs z)
  /\ (forall z, (forall u, (z - x) ^ 2 / 2 + t * Rabs z <= (u - x) ^ 2 / 2 + t * Rabs u) -> z = soft_thresholding x t).
Proof.
  intros x t Ht. split.
  - intros z. assert (Q := soft_strong x t z Ht). assert (P := pow2_ge_0 (z - soft_thresholding x t)). lra.
  - intros z H. specialize (H (soft_thresholding x t)). assert (Q := soft_strong x t z Ht).
    assert (E : (z - soft_thresholding x t) ^ 2 <= 0) by lra. assert (P := pow2_ge_0 (z - soft_thresholding x t)).
    assert (E' : z - soft_thresholding x t = 0) by nra. lra.
Qed.
Theorem C49_zero_iff : forall x t, 0 <= t -> (soft_thresholding x t = 0 <-> Rabs x <= t).
Proof.
  intros x t Ht. unfold soft_thresholding, Rmax, Rmin, Rabs.
  destruct (Rle_dec (x - t) 0), (Rle_dec (x + t) 0), (Rcase_abs x); split; intros; lra.
Qed.

(** C56. The loss of the returned coefficients against any minimizer, after N iterations. *)
Theorem C56_elastic_net_rate : forall k fit_intercept alpha l1_ratio tol max_iter lam init rows,
  rows <> [] -> (0 < k)%nat -> (0 < max_iter)%nat -> 0 <= alpha -> 0 < l1_ratio <= 1 ->
  0 < lam -> design_bound k fit_intercept lam (fit_data k fit_intercept rows) ->
  exists w N,
    elastic_magic k fit_intercept false alpha l1_ratio tol max_iter lam init rows = Some w
    /\ List.length w = n_coef k fit_intercept
    /\ (1 <= N <= max_iter)%nat /\ (N = max_iter \/ 0 < tol)
    /\ forall star,
         let loss := elastic_loss k fit_intercept (alpha * l1_ratio) (alpha * (1 - l1_ratio)) rows in
         minimizes (n_coef k fit_intercept) loss star ->
         loss w - loss star
         <= 2 * start_distance k fit_intercept rows init star / ((1 - / 1000000) / lam * (INR N + 1) ^ 2).
Proof.
  intros k fit alpha ratio tol max_iter lam init rows Hr Hk Hm Ha Hq Hl HB.
  destruct (elastic_coefs_rate k fit (ratio * alpha) ((1 - ratio) * alpha) tol max_iter lam init rows Hr Hk Hm
    ltac:(apply Rmult_le_pos; lra) ltac:(apply Rmult_le_pos; lra) Hl HB) as [w [N [E [Hlen [_ [HN [Ht H]]]]]]].
  exists w, N. split; [|split; [exact Hlen|split; [exact HN|split; [exact Ht|]]]].
  - unfold elastic_magic. destruct (Req_EM_T ratio 0); [lra|]. destruct (Rle_dec 0 ratio); [|lra]. destruct (Rle_dec ratio 1); [|lra].
    rewrite andb_false_r. exact E.
  - intros star. cbv zeta. rewrite (Rmult_comm alpha ratio), (Rmult_comm alpha (1 - ratio)). apply H.
Qed.
(** Lasso: l1_ratio = 1, tol = 0, and any accuracy is reached with enough iterations. *)
Theorem C56_lasso_converges : forall k fit_intercept alpha lam init rows star eps,
  rows <> [] -> (0 < k)%nat -> 0 <= alpha -> 0 < lam -> design_bound k fit_intercept lam (fit_data k fit_intercept rows) ->
  minimizes (n_coef k fit_intercept) (elastic_loss k fit_intercept alpha 0 rows) star -> 0 < eps ->
  exists M, forall max_iter, (M <= max_iter)%nat -> exists w,
    lasso_magic k fit_intercept false alpha 0 max_iter lam init rows = Some w
    /\ elastic_loss k fit_intercept alpha 0 rows w <= elastic_loss k fit_intercept alpha 0 rows star + eps.
Proof.
  intros k fit alpha lam init rows star eps Hr Hk Ha Hl HB Hs He.
  set (D := start_distance k fit rows init star). set (s := (1 - / 1000000) / lam).
  assert (Hsp : 0 < s) by (apply step_pos; exact Hl).
  assert (HD : 0 <= D).
  { unfold D, start_distance. apply Rplus_le_le_0_compat; [destruct fit; [apply pow2_ge_0|lra]|apply fsum_nonneg; intros; apply pow2_ge_0]. }
  assert (HX : exists M, INR M > 2 * D / (s * eps)).
  { exists (Z.to_nat (up (2 * D / (s * eps)))). destruct (archimed (2 * D / (s * eps))) as [Hup _].
    assert (0 <= 2 * D / (s * eps)) by (apply Rmult_le_pos; [lra|left; apply Rinv_0_lt_compat, Rmult_lt_0_compat; lra]).
    rewrite INR_IZR_INZ, Z2Nat.id; [exact Hup|]. apply le_IZR. lra. }
  destruct HX as [M HM]. exists (S M). intros max_iter Hm.
  destruct (C56_elastic_net_rate k fit alpha 1 0 max_iter lam init rows Hr Hk ltac:(lia) Ha ltac:(lra) Hl HB) as [w [N [E [_ [_ [[->|Ht] H]]]]]]; [|lra].
  exists w. split; [exact E|]. specialize (H star). cbv zeta in H. rewrite Rmult_1_r, Rminus_diag_eq, Rmult_0_r in H by reflexivity.
  specialize (H Hs). fold D s in H.
  assert (B : 2 * D / (s * (INR max_iter + 1) ^ 2) <= eps); [|lra].
  assert (Hmi : INR M <= INR max_iter) by (apply le_INR; lia). assert (HM0 := pos_INR M).
  assert (Hse : 0 < s * eps) by (apply Rmult_lt_0_compat; lra).
  assert (HM' : 2 * D < INR M * (s * eps)).
  { apply (Rmult_lt_compat_r (s * eps)) in HM; [|exact Hse]. unfold Rdiv in HM. rewrite Rmult_assoc, Rinv_l, Rmult_1_r in HM by lra. exact HM. }
  assert (Hp : 0 < s * (INR max_iter + 1) ^ 2) by (apply Rmult_lt_0_compat; [exact Hsp|apply pow_lt; lra]).
  apply (Rmult_le_reg_r (s * (INR max_iter + 1) ^ 2)); [exact Hp|]. unfold Rdiv. rewrite Rmult_assoc, Rinv_l, Rmult_1_r by lra.
  assert (INR M <= (INR max_iter + 1) ^ 2) by nra.
  apply (Rmult_le_compat_r (s * eps)) in H0; [|lra]. lra.
Qed.
(** With normalize: the same for the coefficients of the normalized data, which are then rescaled as in pandas mode. *)
Theorem C56_normalized_elastic_net_rate : forall k alpha l1_ratio tol max_iter lam init rows,
  rows <> [] -> (0 < k)%nat -> (0 < max_iter)%nat -> 0 <= alpha -> 0 < l1_ratio <= 1 ->
  0 < lam -> design_bound k true lam (normalized k rows) ->
  exists v N,
    elastic_magic k true true alpha l1_ratio tol max_iter lam init rows = Some (rescaled k rows v)
    /\ (1 <= N <= max_iter)%nat /\ (N = max_iter \/ 0 < tol)
    /\ forall star,
         let loss := elastic_loss k true (alpha * l1_ratio) (alpha * (1 - l1_ratio)) (normalized k rows) in
         minimizes (S k) loss star ->
         loss v - loss star
         <= 2 * start_distance k true (normalized k rows) init star / ((1 - / 1000000) / lam * (INR N + 1) ^ 2).
Proof.
  intros k alpha ratio tol max_iter lam init rows Hr Hk Hm Ha Hq Hl HB.
  assert (Hnr : normalized k rows <> []) by (unfold normalized; destruct rows; [congruence|discriminate]).
  assert (HB' : design_bound k true lam (fit_data k true (normalized k rows))) by (change (design_bound k true lam (data_centered k (normalized k rows))); rewrite centered_normalized by exact Hr; exact HB).
  destruct (elastic_coefs_rate k true (ratio * alpha) ((1 - ratio) * alpha) tol max_iter lam init (normalized k rows) Hnr Hk Hm
    ltac:(apply Rmult_le_pos; lra) ltac:(apply Rmult_le_pos; lra) Hl HB') as [w [N [E [Hlen [_ [HN [Ht H]]]]]]].
  exists w, N. split; [|split; [exact HN|split; [exact Ht|]]].
  - unfold elastic_magic. destruct (Req_EM_T ratio 0); [lra|]. destruct (Rle_dec 0 ratio); [|lra]. destruct (Rle_dec ratio 1); [|lra].
    cbn [andb]. rewrite normalized_stats_eq by exact Hr. rewrite E, normalized_coef_eq. reflexivity.
  - intros star. cbv zeta. rewrite (Rmult_comm alpha ratio), (Rmult_comm alpha (1 - ratio)). apply H.
Qed.
(** l1_ratio = 0 is accepted by sklearn (a pure l2 penalty) but refused in magic mode, although the message says
    "between 0 and 1". *)
Theorem C56_l1_ratio_zero_refuted : ~ (forall k fit_intercept normalize alpha l1_ratio tol max_iter lam init rows,
  0 <= l1_ratio <= 1 -> rows <> [] -> (0 < k)%nat ->
  elastic_magic k fit_intercept normalize alpha l1_ratio tol max_iter lam init rows <> None).
Proof.
  intros H. specialize (H 1%nat false false 1 0 0 1%nat 1 (fun _ => 0) [([1], 1)] ltac:(lra) ltac:(discriminate) ltac:(lia)).
  apply H. unfold elastic_magic. destruct (Req_EM_T 0 0); [reflexivity|congruence].
Qed.

(** The stopping rule (sum of |delta| < tol) does not bound the distance to the minimizer: whatever max_iter is, the
    default tol = 1e-4 stops at the first iteration, with a second coefficient below 0.001 where the only minimizer
    has 0.9. *)
Theorem C56_tolerance_refuted : exists k rows lam init star,
  0 < lam /\ design_bound k false lam (fit_data k false rows)
  /\ minimizes k (elastic_loss k false 0 0 rows) star /\ (forall v, minimizes k (elastic_loss k false 0 0 rows) v -> v = star)
  /\ exists w, (forall max_iter, (0 < max_iter)%nat -> lasso_magic k false false 0 (1 / 10000) max_iter lam init rows = Some w)
     /\ Rabs (nth 1 w 0 - nth 1 star 0) >= 1 / 2.
Proof.
  set (rows := [([1; 0], 0); ([0; 1 / 100], 9 / 1000)] : list row).
  exists 2%nat, rows, (1 / 2), (fun _ => 0), [0; 9 / 10].
  assert (L : forall v, List.length v = 2%nat -> elastic_loss 2 false 0 0 rows v = (nth 0 v 0 ^ 2 + ((nth 1 v 0 - 9 / 10) / 100) ^ 2) / 4).
  { intros v Hv. unfold elastic_loss, squared_error, predict, intercept, slope, rows, resp, feat. cbn [map Rsum fst snd fsum nth List.length INR]. field. }
  split; [lra|]. split.
  { intros u Hu. cbn [n_coef] in Hu. unfold fit_data, predict, intercept, slope, rows, feat. cbn [map Rsum fst snd fsum nth List.length INR n_coef].
    assert (0 <= nth 0 u 0 ^ 2) by apply pow2_ge_0. assert (0 <= nth 1 u 0 ^ 2) by apply pow2_ge_0. lra. }
  split; [|split].
  - split; [reflexivity|]. intros v Hv. rewrite !L by (try exact Hv; reflexivity). cbn [nth].
    assert (0 <= nth 0 v 0 ^ 2) by apply pow2_ge_0. assert (0 <= ((nth 1 v 0 - 9 / 10) / 100) ^ 2) by apply pow2_ge_0. lra.
  - intros v [Hv H]. specialize (H [0; 9 / 10] eq_refl). rewrite !L in H by (try exact Hv; reflexivity). cbn [nth] in H.
    destruct v as [|a [|b [|? ?]]]; try discriminate. cbn [nth] in H.
    assert (0 <= a ^ 2) by apply pow2_ge_0. assert (0 <= ((b - 9 / 10) / 100) ^ 2) by apply pow2_ge_0.
    assert (Ea : a = 0) by nra. assert (Eb : b - 9 / 10 = 0) by nra. rewrite Ea. replace b with (9 / 10) by lra. reflexivity.
  - set (w1 := 2 * (1 - / 1000000) * (9 / 200000)). exists [0; w1]. split.
    2:{ cbn [nth]. unfold w1. rewrite Rabs_left by lra. lra. }
    intros max_iter Hm. destruct max_iter as [|m]; [lia|].
    unfold lasso_magic, elastic_magic. destruct (Req_EM_T 1 0); [lra|]. destruct (Rle_dec 0 1); [|lra]. destruct (Rle_dec 1 1); [|lra].
    cbn [andb]. unfold elastic_coefs.
    destruct (construct_spec 2 false false rows ltac:(discriminate) ltac:(lia)) as [A [b [E [HA [_ Hb]]]]]. rewrite E.
    cbn [n_coef] in *.
    assert (A00 : A 0%nat 0%nat = 1 / 2) by (rewrite HA by lia; unfold gram, avg, rows, zf, feat; cbn [map Rsum fst snd nth List.length INR]; field).
    assert (A01 : A 0%nat 1%nat = 0) by (rewrite HA by lia; unfold gram, avg, rows, zf, feat; cbn [map Rsum fst snd nth List.length INR]; field).
    assert (A10 : A 1%nat 0%nat = 0) by (rewrite HA by lia; unfold gram, avg, rows, zf, feat; cbn [map Rsum fst snd nth List.length INR]; field).
    assert (B0 : nth 0 b 0 = 0) by (rewrite Hb by lia; unfold gvec, avg, rows, zf, feat, resp; cbn [map Rsum fst snd nth List.length INR]; field).
    assert (B1 : nth 1 b 0 = 9 / 200000) by (rewrite Hb by lia; unfold gvec, avg, rows, zf, feat, resp; cbn [map Rsum fst snd nth List.length INR]; field).
    assert (X : forall y, soft_thresholding (y / ((1 - 1) * 0 * ((1 - / 1000000) / (1 / 2)) + 1)) (1 * 0 * ((1 - / 1000000) / (1 / 2)) / ((1 - 1) * 0 * ((1 - / 1000000) / (1 / 2)) + 1)) = y).
    { intros y. replace (y / ((1 - 1) * 0 * ((1 - / 1000000) / (1 / 2)) + 1)) with y by (field; lra).
      replace (1 * 0 * ((1 - / 1000000) / (1 / 2)) / ((1 - 1) * 0 * ((1 - / 1000000) / (1 / 2)) + 1)) with 0 by (field; lra).
      unfold soft_thresholding, Rmax, Rmin. destruct (Rle_dec (y - 0) 0), (Rle_dec (y + 0) 0); lra. }
    unfold fista. cbn [fista_loop fista_step andb INR].
    match goal with |- context [Rlt_dec ?x ?y] => destruct (Rlt_dec x y) as [Hlt|Hge] end.
    + cbn [fst seq map]. rewrite !X. cbn [fsum]. rewrite A00, A01, A10, B0, B1. apply (f_equal Some). apply f_equal2; [field|]. apply f_equal2; [unfold w1; field|reflexivity].
    + exfalso. apply Hge. cbn [snd fsum]. rewrite !X, A00, A01, A10, B0, B1.
      match goal with |- 0 + Rabs ?a + Rabs ?c < _ => replace a with 0 by field; replace c with w1 by (unfold w1; field) end.
      rewrite Rabs_R0, Rabs_pos_eq by (unfold w1; lra). unfold w1. lra.
Qed.

(** Non-vacuity: data that meet the hypotheses of C48 and C56. *)
Example C48_example : let rows := [([0], 1); ([1], 3); ([2], 5)] in
  linear_magic 1 true false rows [1; 2] /\ linear_magic 1 true true rows [1; 2] /\ norm_x rows 0 <> 0.
Proof.
  set (rows := [([0], 1); ([1], 3); ([2], 5)]). cbv zeta.
  assert (Hn : forall i, (i < 1)%nat -> norm_x rows i <> 0).
  { intros i Hi. replace i with 0%nat by lia. unfold norm_x, mean_x, rows, feat. cbn [map Rsum fst nth List.length INR].
    apply Rgt_not_eq, sqrt_lt_R0. nra. }
  assert (P : linear_magic 1 true false rows [1; 2]).
  { apply C48_linear_regression_minimizes; [discriminate|lia|]. split; [reflexivity|]. intros v _.
    replace (squared_error 1 true rows [1; 2]) with 0.
    - unfold squared_error. apply Rsum_map_nonneg. intros. apply pow2_ge_0.
    - unfold squared_error, predict, intercept, slope, rows, resp, feat. cbn [map Rsum fst snd fsum nth]. ring. }
  split; [exact P|]. split; [|apply Hn; lia].
  apply C48_normalized_linear_regression; [discriminate|lia|exact Hn|exact P].
Qed.
Example C56_example : let rows := [([1], 1); ([-1], -1)] in
  design_bound 1 true 1 (fit_data 1 true rows) /\ minimizes 2 (elastic_loss 1 true (1 / 2) 0 rows) [0; 1 / 2].
Proof.
  cbv zeta. split.
  - intros u _. unfold fit_data, predict, intercept, slope, mean_x, feat. cbn [map Rsum fst snd fsum nth List.length INR n_coef seq].
    apply Req_le. field.
  - split; [reflexivity|]. intros v _. unfold elastic_loss, squared_error, predict, intercept, slope, resp, feat. cbn [map Rsum fst snd fsum nth List.length INR].
    set (a := nth 0 v 0). set (w := nth 1 v 0). rewrite (Rabs_pos_eq (1 / 2)) by lra.
    assert (0 <= a ^ 2) by apply pow2_ge_0. assert (0 <= (w - 1 / 2) ^ 2) by apply pow2_ge_0. assert (w <= Rabs w) by apply Rle_abs. nra.
Qed.

Print Assumptions C48_normalized_ridge.
Print Assumptions C56_normalized_elastic_net_rate.
Print Assumptions C56_tolerance_refuted.

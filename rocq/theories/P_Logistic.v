(** Properties C57, C58 and C59: logistic regression in magic mode. *)
From Coq Require Import Reals Lra Lia List Arith Bool.
From Verif Require Import M_Num M_Frame L_Fsum M_Models S_Models M_ElasticNet M_Logistic S_Logistic L_Models L_Ridge L_RidgeNorm L_Fista L_Logistic L_Logistic2 L_LogSlices L_LogFista.
Import ListNotations.
Open Scope R_scope.
Open Scope list_scope.

(** C57. The SQL forms are the sigmoid. *)
Theorem C57_stable_sigmoid : forall z b, sig_minus_b z b = sigmoid z - b /\ sig_z z = sigmoid z.
Proof. intros z b. split; [apply sig_minus_b_eq|apply sig_z_eq]. Qed.
(** The gradient columns are the partial derivatives of the loss of the reported coefficients. *)
Theorem C57_gradient : forall k fit_intercept c rows coefs j,
  List.length coefs = n_xs k fit_intercept -> (j < n_xs k fit_intercept)%nat ->
  List.length (grad_query k fit_intercept c coefs rows) = n_xs k fit_intercept
  /\ derivable_pt_lim (fun t => logistic_loss k fit_intercept c rows (report fit_intercept (set_nth j t coefs)))
                      (nth j coefs 0) (nth j (grad_query k fit_intercept c coefs rows) 0).
Proof.
  intros k fit c rows w j Hw Hj. split; [apply grad_query_length|].
  rewrite grad_query_nth by exact Hj. fold (coef w j).
  apply d_ext with (f := fun t => ploss k fit c rows (upd (coef w) j t)); [|apply ploss_derivative; exact Hj].
  intros t. rewrite logistic_ploss by (rewrite set_nth_length; exact Hw). apply ploss_ext. intros i Hi. symmetry. apply coef_set_nth. lia.
Qed.
(** The matrix rebuilt from the Hessian columns holds the derivatives of the gradient columns. *)
Theorem C57_hessian : forall k fit_intercept c rows coefs,
  (0 < k)%nat -> List.length coefs = n_xs k fit_intercept ->
  exists H, symmetrize (hess_query k fit_intercept c coefs rows) = Some (n_xs k fit_intercept, H)
    /\ forall i j, (i < n_xs k fit_intercept)%nat -> (j < n_xs k fit_intercept)%nat ->
         derivable_pt_lim (fun t => nth i (grad_query k fit_intercept c (set_nth j t coefs) rows) 0) (nth j coefs 0) (H i j).
Proof.
  intros k fit c rows w Hk Hw. destruct (hess_query_spec k fit c w rows Hk) as [H [E HH]]. exists H. split; [exact E|].
  intros i j Hi Hj. rewrite HH by assumption. fold (coef w j).
  apply d_ext with (f := fun t => pgrad k fit c rows (upd (coef w) j t) i); [|apply pgrad_derivative; exact Hj].
  intros t. rewrite grad_query_nth by exact Hi. unfold pgrad. apply f_equal2.
  - apply lgrad_ext. intros a Ha. symmetry. apply coef_set_nth. lia.
  - rewrite coef_set_nth by lia. reflexivity.
Qed.
(** Where the queried gradient is zero, and only there, the reported coefficients minimize the loss. *)
Theorem C57_zero_gradient_minimizes : forall k fit_intercept c rows coefs,
  match c with Some c => 0 < c | None => True end -> List.length coefs = n_xs k fit_intercept ->
  ((forall j, (j < n_xs k fit_intercept)%nat -> nth j (grad_query k fit_intercept c coefs rows) 0 = 0)
   <-> minimizes (n_coef k fit_intercept) (logistic_loss k fit_intercept c rows) (report fit_intercept coefs)).
Proof.
  intros k fit c rows w Hc Hw.
  assert (Hp : forall i, 0 <= pw k c rows i).
  { intros i. unfold pw. destruct c as [c|]; [|lra]. destruct (Nat.ltb i k); [|lra].
    destruct (Req_dec (INR (List.length rows) * c) 0) as [->|N]; [rewrite Rinv_0; lra|].
    left. apply Rinv_0_lt_compat. assert (0 <= INR (List.length rows) * c) by (apply Rmult_le_pos; [apply pos_INR|lra]). lra. }
  transitivity (forall j, (j < n_xs k fit)%nat -> pgrad k fit c rows (coef w) j = 0).
  { split; intros H j Hj; specialize (H j Hj); rewrite grad_query_nth in * by exact Hj; exact H. }
  rewrite stationary_min by exact Hp. unfold minimizes. split.
  - intros H. split; [apply report_length; exact Hw|]. intros v Hv. destruct (report_onto k fit v Hv) as [cv [Hcv <-]].
    rewrite !logistic_ploss by assumption. apply H.
  - intros [_ H] v. specialize (H (report fit (to_list k fit v)) (report_length k fit _ (to_list_length k fit v))).
    rewrite !logistic_ploss in H by (assumption || apply to_list_length).
    rewrite (ploss_ext k fit c rows (coef (to_list k fit v)) v) in H by (intros; apply to_list_coef; assumption). exact H.
Qed.
(** With an l2 penalty Newton's linear system has at most one solution. *)
Theorem C57_newton_system_regular : forall k fit_intercept c rows coefs H u,
  0 < c -> rows <> [] -> (0 < k)%nat -> symmetrize (hess_query k fit_intercept (Some c) coefs rows) = Some (n_xs k fit_intercept, H) ->
  (forall i, (i < n_xs k fit_intercept)%nat -> fsum (n_xs k fit_intercept) (fun j => H i j * u j) = 0) ->
  forall i, (i < n_xs k fit_intercept)%nat -> u i = 0.
Proof.
  intros k fit c rows w H u Hc Hr Hk EH HU. set (m := n_xs k fit) in *.
  destruct (hess_query_spec k fit (Some c) w rows Hk) as [H' [E' HH]]. rewrite EH in E'. injection E' as <-. fold m in HH.
  assert (Hn : 0 < INR (List.length rows)) by (apply lt_0_INR; destruct rows; [congruence|cbn; lia]).
  set (q := fun r => sigmoid (score m (xs k) (coef w) r) * (1 - sigmoid (score m (xs k) (coef w) r))).
  assert (Hq : forall r, 0 < q r).
  { intros r. unfold q. destruct (sigmoid_range (score m (xs k) (coef w) r)). apply Rmult_lt_0_compat; lra. }
  assert (S : avg (fun r => score m (xs k) u r ^ 2 * q r) rows + fsum m (fun i => pw k (Some c) rows i * (u i * u i)) = 0).
  { transitivity (fsum m (fun i => u i * fsum m (fun j => H i j * u j))).
    2:{ apply fsum_zero. intros i Hi. rewrite HU by exact Hi. lra. }
    rewrite (fsum_ext m (fun i => u i * fsum m (fun j => H i j * u j))
               (fun i => avg (fun r => u i * xs k i r * (score m (xs k) u r * q r)) rows + pw k (Some c) rows i * (u i * u i))).
    - rewrite fsum_plus. apply f_equal2; [|reflexivity]. rewrite <- avg_fsum. apply avg_ext. intros r _.
      rewrite fsum_scal_r. fold (score m (xs k) u r). ring.
    - intros i Hi.
      rewrite (fsum_ext m (fun j => H i j * u j) (fun j => avg (fun r => xs k i r * (u j * xs k j r) * q r) rows + (if Nat.eqb j i then pw k (Some c) rows i * u j else 0))).
      + rewrite fsum_plus. rewrite (fsum_delta m i (fun j => pw k (Some c) rows i * u j)) by exact Hi. rewrite <- avg_fsum.
        rewrite (avg_ext (fun r => fsum m (fun j => xs k i r * (u j * xs k j r) * q r)) (fun r => xs k i r * score m (xs k) u r * q r)).
        * rewrite Rmult_plus_distr_l, <- avg_scal. apply f_equal2; [apply avg_ext; intros; ring|ring].
        * intros r _. rewrite fsum_scal_r, fsum_scal. reflexivity.
      + intros j Hj. rewrite HH by assumption. unfold phess. rewrite Rmult_plus_distr_r, (Nat.eqb_sym j i). apply f_equal2.
        * unfold lhess. fold m. rewrite Rmult_comm, <- avg_scal. apply avg_ext. intros r _. unfold q. ring.
        * destruct (Nat.eqb i j); lra. }
  assert (P1 : 0 <= avg (fun r => score m (xs k) u r ^ 2 * q r) rows).
  { apply avg_nonneg. intros r. apply Rmult_le_pos; [apply pow2_ge_0|left; apply Hq]. }
  assert (Hpw : forall i, 0 <= pw k (Some c) rows i).
  { intros i. unfold pw. destruct (Nat.ltb i k); [|lra]. left. apply Rinv_0_lt_compat, Rmult_lt_0_compat; assumption. }
  assert (P2 : 0 <= fsum m (fun i => pw k (Some c) rows i * (u i * u i))).
  { apply fsum_nonneg. intros i _. apply Rmult_le_pos; [apply Hpw|apply (Rle_0_sqr (u i))]. }
  assert (Z2 : fsum m (fun i => (sqrt (pw k (Some c) rows i) * u i) * (sqrt (pw k (Some c) rows i) * u i)) = 0).
  { rewrite (fsum_ext m _ (fun i => pw k (Some c) rows i * (u i * u i))); [lra|]. intros i _.
    assert (Q := sqrt_sqrt (pw k (Some c) rows i) (Hpw i)). set (sq := sqrt _) in *. clearbody sq. rewrite <- Q. ring. }
  assert (U : forall i, (i < k)%nat -> u i = 0).
  { intros i Hi. assert (Q := fsum_sq_zero m _ Z2 i). cbv beta in Q. specialize (Q ltac:(unfold m, n_xs; destruct fit; lia)).
    unfold pw in Q. replace (Nat.ltb i k) with true in Q by (symmetry; apply Nat.ltb_lt; exact Hi).
    apply Rmult_integral in Q. destruct Q as [Q|Q]; [|exact Q]. exfalso.
    apply sqrt_eq_0 in Q; [|left; apply Rinv_0_lt_compat, Rmult_lt_0_compat; assumption].
    assert (0 < / (INR (List.length rows) * c)) by (apply Rinv_0_lt_compat, Rmult_lt_0_compat; assumption). lra. }
  intros i Hi. destruct (Nat.lt_ge_cases i k) as [L|L]; [apply U; exact L|].
  assert (Hf : fit = true /\ i = k) by (unfold m, n_xs in Hi; destruct fit; split; lia || reflexivity). destruct Hf as [-> ->].
  assert (Sc : forall r, score m (xs k) u r = u k).
  { intros r. unfold score, m, n_xs. cbn [fsum]. rewrite fsum_zero by (intros j Hj; rewrite U by exact Hj; ring). rewrite xs_last. ring. }
  assert (Z1 : avg (fun r => u k ^ 2 * q r) rows = 0).
  { rewrite (avg_ext _ (fun r => score m (xs k) u r ^ 2 * q r)) by (intros r _; rewrite Sc; reflexivity). lra. }
  rewrite avg_scal in Z1. apply Rmult_integral in Z1. destruct Z1 as [Z1|Z1].
  - apply Rsqr_0_uniq. unfold Rsqr. rewrite <- Z1. ring.
  - exfalso. assert (Q : 0 < avg q rows); [|lra]. unfold avg. apply Rmult_lt_0_compat; [|apply Rinv_0_lt_compat; exact Hn].
    clear - Hq Hr. destruct rows as [|r rows]; [congruence|]. clear Hr. cbn [map Rsum]. apply Rplus_lt_le_0_compat; [apply Hq|].
    induction rows as [|a rows IH]; [cbn; lra|]. cbn [map Rsum]. specialize (Hq a). lra.
Qed.

(** The check before the fit counts the distinct values of y and lets any two through (sklearn encodes them as 0 and 1);
    the queries use y as it is.  With labels 1 and 2 the gradient is never zero, while the same rows labelled 0 and 1 have
    a minimizer. *)
Theorem C57_other_labels_refuted :
  let rows := [([1], 1); ([1], 2)] in let encoded := [([1], 0); ([1], 1)] in
  two_classes rows = true
  /\ (forall coefs, List.length coefs = 2%nat -> nth 1 (grad_query 1 true (Some 1) coefs rows) 0 < 0)
  /\ (forall w, ~ minimizes 2 (logistic_loss 1 true (Some 1) rows) w)
  /\ minimizes 2 (logistic_loss 1 true (Some 1) encoded) [0; 0].
Proof.
  cbv zeta.
  assert (G : forall coefs, List.length coefs = 2%nat -> nth 1 (grad_query 1 true (Some 1) coefs [([1], 1); ([1], 2)]) 0 < 0).
  { intros w Hw. unfold grad_query, n_xs. cbn [seq map nth Nat.ltb Nat.leb]. unfold avg. cbn [map Rsum List.length INR resp snd].
    rewrite !sig_minus_b_eq. cbn [xs Nat.ltb Nat.leb].
    destruct (sigmoid_range (z_of 1 true w ([1], 1))). destruct (sigmoid_range (z_of 1 true w ([1], 2))). unfold xs. cbn [Nat.ltb Nat.leb]. lra. }
  repeat split.
  - unfold two_classes. cbn [map resp snd nodup]. destruct (in_dec Req_EM_T 1 [2]) as [[H|[]]|_]; [lra|].
    destruct (in_dec Req_EM_T 2 []) as [[]|_]. reflexivity.
  - exact G.
  - intros w [Hw Hm]. destruct (report_onto 1 true w Hw) as [c [Hc <-]].
    assert (Z := proj2 (C57_zero_gradient_minimizes 1 true (Some 1) [([1], 1); ([1], 2)] c Rlt_0_1 Hc) (conj Hw Hm) 1%nat ltac:(cbn; lia)).
    specialize (G c Hc). rewrite Z in G. lra.
  - apply (C57_zero_gradient_minimizes 1 true (Some 1) [([1], 0); ([1], 1)] [0; 0] Rlt_0_1 eq_refl).
    intros j Hj. unfold n_xs in Hj.
    assert (Zr : forall r, z_of 1 true [0; 0] r = 0) by (intros r; unfold z_of; cbn [n_xs fsum nth]; ring).
    unfold grad_query, n_xs. cbn [seq map]. unfold avg. cbn [map Rsum List.length INR resp snd]. rewrite !sig_minus_b_eq, !Zr.
    assert (S0 : sigmoid 0 = 1 / 2) by (unfold sigmoid; rewrite Ropp_0, exp_0; lra). rewrite S0.
    unfold xs, feat. destruct j as [|[|j]]; [| |lia]; cbn [nth Nat.ltb Nat.leb fst]; lra.
Qed.

(** C58. The label test can be any function.  [alone rows]: the computation without split_by on those rows. *)
Theorem C58_newton_slices_alone : forall L label_eqb k fit_intercept c solve tol max_iter t labels init i label guess,
  List.length labels = List.length init -> nth_error labels i = Some label -> nth_error init i = Some guess ->
  exists coefs done,
    nth_error (fst (newton_magic L label_eqb k fit_intercept c solve tol t labels max_iter init)) i = Some coefs
    /\ nth_error (snd (newton_magic L label_eqb k fit_intercept c solve tol t labels max_iter init)) i = Some done
    /\ newton_magic unit any_label k fit_intercept c solve tol
         (alone (map snd (filter (fun lr => label_eqb (fst lr) label) t))) [tt] max_iter [guess] = ([coefs], [done]).
Proof.
  intros L eqb k fit c solve tol n t labels init i lb g Hl H1 H2.
  rewrite (newton_all L eqb k fit c solve tol t labels n init Hl). cbn [fst snd].
  eexists. eexists. split; [apply nth_combine_map; eassumption|]. split; [apply nth_combine_map; eassumption|].
  rewrite newton_alone. reflexivity.
Qed.
Theorem C58_fista_slices_alone : forall L label_eqb k fit_intercept tol max_iter t labels params init i label param guess,
  List.length labels = List.length init -> List.length params = List.length init ->
  nth_error labels i = Some label -> nth_error params i = Some param -> nth_error init i = Some guess ->
  exists s,
    nth_error (fista_magic L label_eqb k fit_intercept None tol t labels params max_iter init) i = Some s
    /\ fista_magic unit any_label k fit_intercept None tol
         (alone (map snd (filter (fun lr => label_eqb (fst lr) label) t))) [tt] [param] max_iter [guess] = [s].
Proof.
  intros L eqb k fit tol n t labels ps init i lb p g Hl Hp H1 H2 H3.
  rewrite (fista_all L eqb k fit None tol t labels ps n init Hl Hp).
  eexists. split.
  - apply nth_combine_map; [|exact H3]. assert (Q := nth_combine_map (fun x => x) labels ps i lb p H1 H2). rewrite map_id in Q. exact Q.
  - rewrite fista_alone. reflexivity.
Qed.
(** so the answers do not depend on which other slices there are, nor on their order *)
Theorem C58_slices_together_or_not : forall L label_eqb k fit_intercept c solve tol max_iter t l1 l2 i1 i2 a b label guess,
  List.length l1 = List.length i1 -> List.length l2 = List.length i2 ->
  nth_error l1 a = Some label -> nth_error i1 a = Some guess -> nth_error l2 b = Some label -> nth_error i2 b = Some guess ->
  nth_error (fst (newton_magic L label_eqb k fit_intercept c solve tol t l1 max_iter i1)) a
  = nth_error (fst (newton_magic L label_eqb k fit_intercept c solve tol t l2 max_iter i2)) b.
Proof.
  intros L eqb k fit c solve tol n t l1 l2 i1 i2 a b lb g H1 H2 A1 A2 B1 B2.
  rewrite !newton_all by assumption. cbn [fst]. erewrite !nth_combine_map by eassumption. reflexivity.
Qed.

(** C59. The l1 and elasticnet penalties; [lam] is the largest eigenvalue of X'X / n of the slice (here, any bound). *)
Theorem C59_logistic_fista_rate : forall k fit_intercept c l1_ratio tol max_iter lam rows init,
  rows <> [] -> (0 < max_iter)%nat -> 0 < c -> 0 <= l1_ratio <= 1 -> 0 < lam -> design_bound k fit_intercept lam rows ->
  List.length init = n_xs k fit_intercept ->
  exists coefs delta converged N,
    fista_magic unit any_label k fit_intercept None tol (alone rows) [tt]
      [slice_params (l1_ratio / c) ((1 - l1_ratio) / c) lam (INR (List.length rows))] max_iter [init] = [(coefs, delta, converged)]
    /\ List.length coefs = n_xs k fit_intercept
    /\ (1 <= N <= max_iter)%nat /\ (converged = false -> N = max_iter) /\ (converged = true -> lmax delta < tol)
    /\ forall star,
         let loss := logistic_elastic_loss k fit_intercept c l1_ratio rows in
         minimizes (n_coef k fit_intercept) loss star ->
         loss (report fit_intercept coefs) - loss star
         <= 2 * fsum (n_coef k fit_intercept) (fun i => (nth i (report fit_intercept init) 0 - nth i star 0) ^ 2)
            / (3.999999 / lam * (INR N + 1) ^ 2).
Proof.
  intros k fit c ratio tol n lam rows init Hr Hn Hc Hq Hl HB Hi.
  destruct (fista_logistic_rate k fit c ratio tol n lam rows init Hr Hn Hc Hq Hl HB Hi) as [w [dl [d [N [E H]]]]].
  exists w, dl, d, N. rewrite fista_alone, E. split; [reflexivity|]. exact H.
Qed.
(** Each slice of a split computation *)
Theorem C59_logistic_fista_rate_slices : forall L label_eqb k fit_intercept c l1_ratio tol max_iter t labels lams init i label lam guess,
  let rows_of l := map snd (filter (fun lr => label_eqb (fst lr) l) t) in
  let params := map (fun ll => slice_params (l1_ratio / c) ((1 - l1_ratio) / c) (snd ll) (INR (List.length (rows_of (fst ll))))) (combine labels lams) in
  List.length labels = List.length init -> List.length lams = List.length init ->
  nth_error labels i = Some label -> nth_error lams i = Some lam -> nth_error init i = Some guess ->
  rows_of label <> [] -> (0 < max_iter)%nat -> 0 < c -> 0 <= l1_ratio <= 1 -> 0 < lam ->
  design_bound k fit_intercept lam (rows_of label) -> List.length guess = n_xs k fit_intercept ->
  exists coefs delta converged N,
    nth_error (fista_magic L label_eqb k fit_intercept None tol t labels params max_iter init) i = Some (coefs, delta, converged)
    /\ (1 <= N <= max_iter)%nat /\ (converged = false -> N = max_iter)
    /\ forall star,
         let loss := logistic_elastic_loss k fit_intercept c l1_ratio (rows_of label) in
         minimizes (n_coef k fit_intercept) loss star ->
         loss (report fit_intercept coefs) - loss star
         <= 2 * fsum (n_coef k fit_intercept) (fun i => (nth i (report fit_intercept guess) 0 - nth i star 0) ^ 2)
            / (3.999999 / lam * (INR N + 1) ^ 2).
Proof.
  intros L eqb k fit c ratio tol n t labels lams init i lb lam g. cbv zeta. intros Hl Hp H1 H2 H3 Hr Hn Hc Hq Hlam HB Hg.
  destruct (C59_logistic_fista_rate k fit c ratio tol n lam _ g Hr Hn Hc Hq Hlam HB Hg) as [w [dl [d [N [E [_ [HN [Hf [_ H]]]]]]]]].
  destruct (C58_fista_slices_alone L eqb k fit tol n t labels
    (map (fun ll => slice_params (ratio / c) ((1 - ratio) / c) (snd ll) (INR (List.length (map snd (filter (fun lr => eqb (fst lr) (fst ll)) t))))) (combine labels lams))
    init i lb (slice_params (ratio / c) ((1 - ratio) / c) lam (INR (List.length (map snd (filter (fun lr => eqb (fst lr) lb) t))))) g) as [s [E1 E2]]; try assumption.
  - rewrite map_length, combine_length. lia.
  - apply (nth_combine_map (fun ll => slice_params (ratio / c) ((1 - ratio) / c) (snd ll) (INR (List.length (map snd (filter (fun lr => eqb (fst lr) (fst ll)) t)))))); assumption.
  - rewrite E in E2. injection E2 as <-. exists w, dl, d, N. split; [exact E1|]. split; [exact HN|]. split; [exact Hf|exact H].
Qed.

Print Assumptions C57_zero_gradient_minimizes.
Print Assumptions C58_newton_slices_alone.
Print Assumptions C59_logistic_fista_rate.

(** ** Examples *)
(** C57: two regressors, an intercept, three rows: the gradient at 0 with and without the penalty *)
Example C57_gradient_example : grad_query 1 true (Some 2) [4; 0] [([0], 0); ([0], 1)] = [1; 0].
Proof.
  unfold grad_query, n_xs. cbn [seq map]. unfold avg. cbn [map Rsum List.length INR]. rewrite !sig_minus_b_eq. unfold xs, feat, resp. cbn [Nat.ltb Nat.leb fst snd nth].
  unfold z_of, xs, feat. cbn [n_xs fsum nth Nat.ltb Nat.leb fst]. rewrite !Rmult_0_r, !Rmult_1_r, !Rplus_0_l.
  assert (S0 : sigmoid 0 = 1 / 2) by (unfold sigmoid; rewrite Ropp_0, exp_0; lra). rewrite S0.
  apply f_equal2; [lra|]. apply f_equal2; [lra|reflexivity].
Qed.
(** the diagonal of the Hessian with three regressors and an intercept: columns 0, 4 and 7 of 10 *)
Example C57_hessian_diagonal : hess_diag_idx 3 4 = [0; 4; 7]%nat
  /\ map (fun i => nth i (triu 4) (9, 9)%nat) (hess_diag_idx 3 4) = [(0, 0); (1, 1); (2, 2)]%nat.
Proof. split; reflexivity. Qed.
(** C59: the hypotheses hold, and a minimizer exists *)
Example C59_example : let rows := [([1], 1); ([1], 0)] in
  design_bound 1 false 1 rows /\ minimizes 1 (logistic_elastic_loss 1 false 1 1 rows) [0]
  /\ exists coefs delta,
       fista_magic unit any_label 1 false None 0 (alone rows) [tt] [slice_params 1 0 1 2] 5 [[1]] = [(coefs, delta, false)]
       /\ logistic_elastic_loss 1 false 1 1 rows coefs - logistic_elastic_loss 1 false 1 1 rows [0] <= 2 / (3.999999 * 36).
Proof.
  cbv zeta.
  assert (HB : design_bound 1 false 1 [([1], 1); ([1], 0)]).
  { intros u Hu. unfold predict, intercept, slope, feat. cbn [n_coef fsum map Rsum List.length fst nth INR]. lra. }
  assert (HM : minimizes 1 (logistic_elastic_loss 1 false 1 1 [([1], 1); ([1], 0)]) [0]).
  { split; [reflexivity|]. intros v Hv. unfold logistic_elastic_loss, mean_log_loss, predict, intercept, slope, feat, log_loss, resp.
    cbn [fsum map Rsum List.length fst snd nth INR]. rewrite Rabs_R0.
    assert (Q := softplus_below 0 (nth 0 v 0)). unfold softplus, sigmoid in Q. rewrite Ropp_0, exp_0, Rplus_0_l in Q.
    assert (A := Rabs_pos (nth 0 v 0)).
    replace (0 + (0 + nth 0 v 0 * 1)) with (nth 0 v 0) by ring. replace (0 + (0 + 0 * 1)) with 0 by ring. rewrite exp_0.
    replace (/ (1 + 1)) with (/ 2) in Q by lra. lra. }
  split; [exact HB|]. split; [exact HM|].
  destruct (C59_logistic_fista_rate 1 false 1 1 0 5 1 [([1], 1); ([1], 0)] [1]) as [w [dl [d [N [E [_ [HN [Hf [Ht H]]]]]]]]];
    try lra; try lia; try discriminate; try exact HB; try reflexivity.
  replace (slice_params (1 / 1) ((1 - 1) / 1) 1 (INR (List.length [([1], 1); ([1], 0)]))) with (slice_params 1 0 1 2) in E.
  2:{ cbn [List.length INR]. replace ((1 - 1) / 1) with 0 by lra. replace (1 / 1) with 1 by lra. replace (1 + 1) with 2 by lra. reflexivity. }
  assert (Hd : d = false).
  { destruct d; [|reflexivity]. exfalso. specialize (Ht eq_refl).
    assert (0 <= lmax dl); [|lra]. clear. induction dl as [|a l IH]; cbn [lmax fold_right]; [lra|]. eapply Rle_trans; [apply IH|apply Rmax_r]. }
  subst d. exists w, dl. split; [exact E|]. specialize (H [0] HM). rewrite (Hf eq_refl) in H. cbv zeta in H.
  cbn [report n_coef fsum nth INR] in H. eapply Rle_trans; [exact H|]. lra.
Qed.

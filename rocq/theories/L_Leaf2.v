(** C19-C21: missing values, native against expanded, bounds. *)
From Coq Require Import Reals List Bool String ZArith Lia Lra.
From Verif Require Import M_Num M_Frame M_Leaf S_Leaf L_Leaf.
Import ListNotations.
Open Scope R_scope.

(** rows dropped have a missing value in the column *)
Lemma xsum_drop {A} (g : A -> num) (p : A -> bool) rows : (forall r, In r rows -> p r = false -> g r = NaN) ->
  xsum (List.map g (filter p rows)) = xsum (List.map g rows).
Proof.
  unfold xsum. induction rows as [|r rows IH]; intros H; auto. cbn [filter]. destruct (p r) eqn:E.
  - cbn [map fold_right]. now rewrite IH by (intros; apply H; cbn; auto).
  - cbn [map fold_right]. rewrite (H r (or_introl eq_refl) E). cbn [is_nan]. apply IH. intros; apply H; cbn; auto.
Qed.
Lemma count_drop {A} (g : A -> num) (p : A -> bool) rows : (forall r, In r rows -> p r = false -> g r = NaN) ->
  count_present (List.map g (filter p rows)) = count_present (List.map g rows).
Proof.
  unfold count_present. induction rows as [|r rows IH]; intros H; auto. cbn [filter]. destruct (p r) eqn:E.
  - cbn [map filter]. destruct (negb (is_nan (g r))); cbn [List.length]; now rewrite IH by (intros; apply H; cbn; auto).
  - cbn [map filter]. rewrite (H r (or_introl eq_refl) E). cbn [is_nan negb]. apply IH. intros; apply H; cbn; auto.
Qed.
Definition nonmissing (c : colx) (rows : table) : table := filter (fun r => negb (is_nan (cellx c r))) rows.
Lemma nonmissing_complete c rows : no_infinity c rows -> complete c (nonmissing c rows).
Proof.
  unfold no_infinity, complete, nonmissing. rewrite !Forall_forall. intros H r Hr. apply filter_In in Hr as [Hr Hn].
  destruct (H r Hr) as [H1 H2]. destruct (cellx c r); try discriminate; try contradiction; eauto.
Qed.
Lemma drop_ok c r : negb (is_nan (cellx c r)) = false -> cellx c r = NaN.
Proof. destruct (cellx c r); cbn; congruence. Qed.
Lemma xsum_nonmissing c rows : xsum (col_of c (nonmissing c rows)) = xsum (col_of c rows).
Proof. apply xsum_drop. intros r _ H. now apply drop_ok. Qed.
Lemma count_nonmissing c rows : count_present (col_of c (nonmissing c rows)) = count_present (col_of c rows).
Proof. apply count_drop. intros r _ H. now apply drop_ok. Qed.
Lemma xmean_nonmissing c rows : xmean (col_of c (nonmissing c rows)) = xmean (col_of c rows).
Proof. unfold xmean. now rewrite xsum_nonmissing, count_nonmissing. Qed.
Lemma xsum_nonmissing2 c rows : xsum (col_of (Times c c) (nonmissing c rows)) = xsum (col_of (Times c c) rows).
Proof. apply xsum_drop. intros r _ H. cbn. now rewrite (drop_ok c r H). Qed.
Lemma count_nonmissing2 c rows : count_present (col_of (Times c c) (nonmissing c rows)) = count_present (col_of (Times c c) rows).
Proof. apply count_drop. intros r _ H. cbn. now rewrite (drop_ok c r H). Qed.
Lemma xvar_nonmissing c ddof rows : xvar (col_of c (nonmissing c rows)) ddof = xvar (col_of c rows) ddof.
Proof.
  unfold xvar. rewrite count_nonmissing, xmean_nonmissing. destruct (Z.leb _ _); auto. f_equal. unfold col_of. rewrite !map_map.
  apply (xsum_drop (fun r => xsq (xsub (cellx c r) (xmean (List.map (cellx c) rows))))). intros r _ H. now rewrite (drop_ok c r H).
Qed.
Lemma cov_nonmissing c ddof rows : V (ELeaf (LCov c c ddof None None)) (nonmissing c rows) = V (ELeaf (LCov c c ddof None None)) rows.
Proof.
  erewrite !V_leaf by reflexivity. unfold cov_equivalent.
  assert (V (ESub (ELeaf (LDot c c true)) (EMul (ELeaf (LMean c None)) (ELeaf (LMean c None)))) (nonmissing c rows) =
          V (ESub (ELeaf (LDot c c true)) (EMul (ELeaf (LMean c None)) (ELeaf (LMean c None)))) rows) as E.
  { rewrite !V_sub, !V_mul, !V_dotn, !V_mean, xmean_nonmissing. unfold xmean at 1. now rewrite xsum_nonmissing2, count_nonmissing2. }
  destruct (Z.eqb ddof 0); auto. rewrite !V_div, E, !V_sq, !V_sqrt, !V_sub, !V_div, !V_count, count_nonmissing. reflexivity.
Qed.

(** ** native variance *)
Lemma xvar_complete c ddof rows : complete c rows -> rows <> [] -> IZR ddof < size rows ->
  xvar (col_of c rows) ddof = Fin (cross (at_ c) (at_ c) rows / (size rows - IZR ddof)).
Proof.
  intros Hc Hn Hd. unfold xvar. rewrite count_complete by assumption. destruct (Z.leb _ _) eqn:E.
  - apply Z.leb_le, IZR_le in E. rewrite <- INR_IZR_INZ in E. unfold size in Hd. lra.
  - rewrite mean_complete by assumption.
    assert (xsum (List.map (fun x => xsq (xsub x (Fin (mean_of (at_ c) rows)))) (col_of c rows)) = Fin (cross (at_ c) (at_ c) rows)) as ->.
    { unfold col_of. rewrite map_map.
      assert (forall m rows, complete c rows -> xsum (List.map (fun r => xsq (xsub (cellx c r) (Fin m))) rows) = Fin (sum_of (fun r => (at_ c r - m) * (at_ c r - m)) rows)) as H.
      { clear. intros m rows H. induction H as [|r rows [a Ha] H IH]; auto. unfold xsum in *. cbn [map fold_right]. rewrite IH, Ha.
        unfold sum_of. cbn [map Rsum]. assert (at_ c r = a) as -> by (unfold at_; now rewrite Ha). reflexivity. }
      rewrite H by assumption. f_equal. unfold cross, wcross. apply sum_of_ext. intros r _.
      assert (wmean_of (fun _ => 1) (at_ c) rows = mean_of (at_ c) rows) as ->; [|ring].
      unfold wmean_of, mean_of. rewrite sum_of_1. f_equal. apply sum_of_ext. intros; ring. }
    change (INR (List.length rows)) with (size rows). rewrite xdiv_fin by lra. reflexivity.
Qed.
Lemma xvar_small c ddof rows : complete c rows -> (Z.of_nat (List.length rows) <= ddof)%Z -> xvar (col_of c rows) ddof = NaN.
Proof. intros H H1. unfold xvar. rewrite count_complete by assumption. destruct (Z.leb_spec (Z.of_nat (List.length rows)) ddof); [reflexivity|lia]. Qed.
Lemma V_mean_nil c : V (ELeaf (LMean c None)) [] = NaN.
Proof. rewrite V_mean. apply xdiv_0. Qed.
Lemma xmul_nan_r x : xmul x NaN = NaN. Proof. now destruct x. Qed.
Lemma xadd_nan_r x : xadd x NaN = NaN. Proof. now destruct x. Qed.
Lemma V_cov_nil a b ddof : V (ELeaf (LCov a b ddof None None)) [] = NaN.
Proof.
  erewrite V_leaf by reflexivity. unfold cov_equivalent.
  assert (V (ESub (ELeaf (LDot a b true)) (EMul (ELeaf (LMean a None)) (ELeaf (LMean b None)))) [] = NaN) as E.
  { rewrite V_sub, V_mul, !V_mean_nil. apply xadd_nan_r. }
  destruct (Z.eqb ddof 0); auto. rewrite V_div, E. reflexivity.
Qed.
Lemma cross_one {A} (x y : A -> R) r : cross x y [r] = 0.
Proof. rewrite cross_formula by discriminate. unfold sum_of, size. cbn. field. Qed.
Lemma var_native c ddof rows : no_infinity c rows -> (ddof = 0 \/ ddof = 1)%Z ->
  xvar (col_of c rows) ddof = V (ELeaf (LCov c c ddof None None)) rows.
Proof.
  intros Hi Hd. rewrite <- xvar_nonmissing, <- cov_nonmissing. apply nonmissing_complete in Hi. revert Hi. generalize (nonmissing c rows) as rs.
  intros rs Hc. destruct rs as [|r rs].
  { rewrite V_cov_nil. apply xvar_small; auto. cbn. lia. }
  assert (r :: rs <> []) as Hn by discriminate.
  destruct (Z.leb_spec (Z.of_nat (List.length (r :: rs))) ddof) as [L|L].
  - rewrite xvar_small by assumption. destruct Hd as [->| ->]; [cbn in L; lia|]. destruct rs as [|]; [|cbn in L; lia].
    erewrite V_leaf by reflexivity. unfold cov_equivalent. cbn [Z.eqb].
    rewrite V_div, cov_num, cross_one, V_sq, V_sqrt, V_sub, V_div, !V_num, V_count, count_complete by assumption.
    cbn [List.length INR size]. rewrite xdiv_fin by lra. rewrite xsub_fin, xsq_sqrt by lra.
    unfold size. cbn [List.length INR]. replace (0 / 1) with 0 by lra. replace (1 - 1 / 1) with 0 by lra. symmetry. apply xdiv_0.
  - assert (IZR ddof < size (r :: rs)) as Hs by (unfold size; rewrite INR_IZR_INZ; now apply IZR_lt).
    rewrite xvar_complete by assumption. rewrite <- V_expanded, cov_value by assumption. reflexivity.
Qed.
Lemma V_var c ddof rows : V (ELeaf (LVar c ddof None)) rows = V (ELeaf (LCov c c ddof None None)) rows.
Proof. erewrite V_leaf by reflexivity. reflexivity. Qed.
Lemma V_sd c ddof w rows : V (ELeaf (LSD c ddof w)) rows = xsqrt (V (ELeaf (LVar c ddof w)) rows).
Proof. erewrite V_leaf by reflexivity. apply V_sqrt. Qed.
Lemma V_cv c ddof rows : V (ELeaf (LCV c ddof)) rows = xdiv (V (ELeaf (LSD c ddof None)) rows) (xmean (col_of c rows)).
Proof. erewrite V_leaf by reflexivity. rewrite V_div, V_mean. reflexivity. Qed.
Lemma V_corr a b w rows : V (ELeaf (LCorr a b w)) rows =
  xdiv (xdiv (V (ELeaf (LCov a b 0 w None)) rows) (xsqrt (V (ELeaf (LVar a 0 w)) rows))) (xsqrt (V (ELeaf (LVar b 0 w)) rows)).
Proof. erewrite V_leaf by reflexivity. rewrite !V_div, !V_sd. reflexivity. Qed.

(** ** correlation *)
Lemma both_complete a b rows : complete a rows -> complete b rows -> both_present a b rows = rows.
Proof.
  unfold complete, both_present. rewrite !Forall_forall. intros Ha Hb. induction rows as [|r rows IH]; auto. cbn [filter].
  destruct (Ha r (or_introl eq_refl)) as [x ->], (Hb r (or_introl eq_refl)) as [y ->]. cbn [is_nan negb andb].
  f_equal. apply IH; intros; [apply Ha|apply Hb]; cbn; auto.
Qed.
Lemma xsum_prod a b m k rows : complete a rows -> complete b rows ->
  xsum (List.map (fun r => xmul (xsub (cellx a r) (Fin m)) (xsub (cellx b r) (Fin k))) rows) = Fin (sum_of (fun r => (at_ a r - m) * (at_ b r - k)) rows).
Proof.
  intros Ha. induction Ha as [|r rows [x Hx] H IH]; intros Hb; [reflexivity|]. inversion Hb as [|? ? [y Hy] Hb']; subst.
  unfold xsum in *. cbn [map fold_right]. rewrite IH by assumption. rewrite Hx, Hy. unfold sum_of. cbn [map Rsum].
  assert (at_ a r = x) as -> by (unfold at_; now rewrite Hx). assert (at_ b r = y) as -> by (unfold at_; now rewrite Hy). reflexivity.
Qed.
Lemma cross_means {A} (x y : A -> R) rows : sum_of (fun r => (x r - mean_of x rows) * (y r - mean_of y rows)) rows = cross x y rows.
Proof.
  unfold cross, wcross. apply sum_of_ext. intros r _.
  assert (forall z : A -> R, wmean_of (fun _ => 1) z rows = mean_of z rows) as E.
  { intros z. unfold wmean_of, mean_of. rewrite sum_of_1. f_equal. apply sum_of_ext. intros; ring. }
  rewrite !E. ring.
Qed.
Lemma cross_nonneg {A} (x : A -> R) rows : 0 <= cross x x rows.
Proof. apply wcross_nonneg. intros; lra. Qed.
Lemma cross_cauchy {A} (x y : A -> R) rows : (cross x y rows) ^ 2 <= cross x x rows * cross y y rows.
Proof. apply wcross_cauchy. intros; lra. Qed.
Lemma xcorr_complete a b rows : complete a rows -> complete b rows -> rows <> [] ->
  xcorr a b rows = xdiv (Fin (cross (at_ a) (at_ b) rows)) (Fin (sqrt (cross (at_ a) (at_ a) rows) * sqrt (cross (at_ b) (at_ b) rows))).
Proof.
  intros Ha Hb Hn. unfold xcorr. rewrite both_complete by assumption. rewrite !mean_complete by assumption. unfold xsq.
  rewrite !xsum_prod by assumption. rewrite !cross_means. rewrite !xsqrt_fin by apply cross_nonneg. reflexivity.
Qed.
Lemma sq_zero x : x ^ 2 <= 0 -> x = 0.
Proof. intros H. assert (x * x = 0) as E by (pose proof (Rle_0_sqr x) as H1; unfold Rsqr in H1; simpl in H; lra). apply Rmult_integral in E. tauto. Qed.
(** cov / sd / sd in terms of cross products, with a positive norm N *)
Lemma corr_core C X Y N : 0 < N -> 0 <= X -> 0 <= Y -> C ^ 2 <= X * Y ->
  xdiv (xdiv (Fin (C / N)) (xsqrt (Fin (X / N)))) (xsqrt (Fin (Y / N))) = xdiv (Fin C) (Fin (sqrt X * sqrt Y)).
Proof.
  intros HN HX HY HC. assert (0 <= X / N) by (apply Rmult_le_pos; [lra|left; now apply Rinv_0_lt_compat]).
  assert (0 <= Y / N) by (apply Rmult_le_pos; [lra|left; now apply Rinv_0_lt_compat]).
  rewrite !xsqrt_fin by assumption.
  destruct (Req_dec X 0) as [EX|NX].
  { rewrite EX in HC. rewrite (sq_zero C) by lra. rewrite EX. replace (0 / N) with 0 by (field; lra). rewrite sqrt_0, Rmult_0_l, xdiv_0. reflexivity. }
  assert (sqrt (X / N) <> 0) as NXs by (intros E; apply sqrt_eq_0 in E; auto; apply NX; replace X with (X / N * N) by (field; lra); rewrite E; ring).
  rewrite (xdiv_fin _ (sqrt (X / N))) by assumption.
  destruct (Req_dec Y 0) as [EY|NY].
  { rewrite EY in HC. rewrite (sq_zero C) by lra. rewrite EY. replace (0 / N) with 0 by (field; lra). rewrite sqrt_0, Rmult_0_r.
    replace (0 / sqrt (X / N)) with 0 by (field; assumption). reflexivity. }
  assert (sqrt (Y / N) <> 0) as NYs by (intros E; apply sqrt_eq_0 in E; auto; apply NY; replace Y with (Y / N * N) by (field; lra); rewrite E; ring).
  assert (sqrt X <> 0) by (intros E; apply sqrt_eq_0 in E; auto; lra). assert (sqrt Y <> 0) by (intros E; apply sqrt_eq_0 in E; auto; lra).
  assert (sqrt N <> 0) as HsN by (intros E; apply sqrt_eq_0 in E; lra).
  assert (sqrt X * sqrt Y <> 0) by (intros E; apply Rmult_integral in E; tauto).
  rewrite !xdiv_fin by assumption. f_equal. rewrite !sqrt_div by (lra || assumption).
  replace (C / N) with (C / (sqrt N * sqrt N)) by (now rewrite sqrt_sqrt by lra). field. repeat split; assumption.
Qed.
Lemma corr_native a b rows : complete a rows -> complete b rows -> xcorr a b rows = V (ELeaf (LCorr a b None)) rows.
Proof.
  intros Ha Hb. destruct rows as [|r rows].
  - rewrite V_corr, V_cov_nil. unfold xcorr. cbn [both_present filter map col_of]. 
    change (xsum []) with (Fin 0). rewrite xsqrt_fin by lra. rewrite sqrt_0. rewrite xmul_fin, Rmult_0_r. apply xdiv_0.
  - assert (r :: rows <> []) as Hn by discriminate. pose proof (size_pos _ Hn) as Hs. rewrite xcorr_complete by assumption.
    rewrite V_corr, !V_var. rewrite <- !V_expanded. rewrite !cov_value by (auto; lra). replace (size (r :: rows) - 0) with (size (r :: rows)) by ring.
    symmetry. apply corr_core; auto using cross_nonneg, cross_cauchy.
Qed.
(** weighted correlation *)
Lemma wcorr_value a b w rows : complete a rows -> complete b rows -> complete w rows -> (forall r, In r rows -> 0 <= at_ w r) -> 0 < sum_of (at_ w) rows ->
  V (ELeaf (LCorr a b (Some w))) rows =
  xdiv (Fin (wcross (at_ w) (at_ a) (at_ b) rows)) (Fin (sqrt (wcross (at_ w) (at_ a) (at_ a) rows) * sqrt (wcross (at_ w) (at_ b) (at_ b) rows))).
Proof.
  intros Ha Hb Hw Hp Hs. rewrite V_corr. rewrite <- !V_expanded.
  rewrite acov_value by (auto; try lra; rewrite Rmult_0_l; nra). rewrite !wvar_value by (auto; lra).
  set (W := sum_of (at_ w) rows) in *. replace (W - 0 * sum_of (fun r => at_ w r * at_ w r) rows / W) with W by (field; lra). replace (W - 0) with W by ring.
  apply corr_core; auto using wcross_nonneg, wcross_cauchy.
Qed.
Lemma corr_bound C X Y v : 0 <= X -> 0 <= Y -> C ^ 2 <= X * Y -> xdiv (Fin C) (Fin (sqrt X * sqrt Y)) = Fin v -> -1 <= v <= 1.
Proof.
  intros HX HY HC. cbn. destruct (Req_EM_T (sqrt X * sqrt Y) 0) as [E|N].
  - unfold inf_times. destruct (Req_EM_T C 0); [discriminate|]. unfold neg_inf. destruct (xorb _ _); discriminate.
  - intros H. injection H as <-. set (s := sqrt X * sqrt Y) in *. assert (0 < s) by (assert (0 <= s) by (apply Rmult_le_pos; apply sqrt_pos); lra).
    assert (C ^ 2 <= s ^ 2) as H2.
    { replace (s ^ 2) with (X * Y); auto. unfold s. replace ((sqrt X * sqrt Y) ^ 2) with ((sqrt X * sqrt X) * (sqrt Y * sqrt Y)) by ring. now rewrite !sqrt_sqrt by assumption. }
    assert (- s <= C <= s) as [H3 H4] by (split; nra).
    split; apply Rmult_le_reg_r with s; auto; unfold Rdiv; rewrite Rmult_assoc, Rinv_l by lra; lra.
Qed.
Lemma corr_scale C X Y a : 0 < a -> 0 <= X -> 0 <= Y ->
  xdiv (Fin (a * C)) (Fin (sqrt (a * (a * X)) * sqrt Y)) = xdiv (Fin C) (Fin (sqrt X * sqrt Y)).
Proof.
  intros Ha HX HY. replace (a * (a * X)) with ((a * a) * X) by ring. rewrite sqrt_mult by (nra || lra). rewrite sqrt_square by lra.
  destruct (Req_dec (sqrt X * sqrt Y) 0) as [E|N].
  - rewrite Rmult_assoc, E, Rmult_0_r. cbn. destruct (Req_EM_T 0 0); [|lra]. unfold inf_times.
    destruct (Req_EM_T (a * C) 0) as [E1|E1], (Req_EM_T C 0) as [E2|E2]; auto.
    + apply Rmult_integral in E1. lra.
    + rewrite E2, Rmult_0_r in E1. lra.
    + destruct (Rlt_dec (a * C) 0), (Rlt_dec C 0); auto; exfalso; nra.
  - assert (sqrt X <> 0 /\ sqrt Y <> 0) as [N1 N2] by (split; intros E; apply N; rewrite E; ring).
    rewrite !xdiv_fin; auto.
    + f_equal. field. repeat split; auto; lra.
    + intros E. apply Rmult_integral in E as [E|E]; [apply Rmult_integral in E as [E|E]; lra|lra].
Qed.

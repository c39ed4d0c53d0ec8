From Coq Require Import Reals List Bool String Arith Lia Lra FunctionalExtensionality.
From Verif Require Import M_Num M_Frame M_Ops M_Leaf M_Adjust S_Ops S_Leaf S_Adjust L_Frame L_Leaf L_Leaf2 L_Slices.
Import ListNotations.
Open Scope list_scope.
Open Scope R_scope.

(** *** Regression *)
Section Regression.
  Context {A : Type}.
  Implicit Types (x y : A -> R) (rows : list A).
  Lemma cross_size x rows : 0 < cross x x rows -> 1 < size rows.
  Proof.
    intros H. destruct rows as [|r [|r' rows]].
    - unfold cross, wcross, sum_of in H. cbn in H. lra.
    - rewrite cross_one in H. lra.
    - unfold size. cbn [List.length]. rewrite !S_INR. pose proof (pos_INR (List.length rows)). lra.
  Qed.
  Lemma cross_ne x rows : 0 < cross x x rows -> rows <> [].
  Proof. intros H ->. unfold cross, wcross, sum_of in H. cbn in H. lra. Qed.
  Definition slope x y rows := cross y x rows / cross x x rows.
  Definition intercept x y rows := mean_of y rows - mean_of x rows * slope x y rows.
  Lemma normal_1 x y rows : rows <> [] -> sum_of (fun r => y r - (intercept x y rows + slope x y rows * x r)) rows = 0.
  Proof.
    intros Hn. pose proof (size_pos _ Hn). set (b := slope x y rows). unfold intercept. fold b.
    rewrite (sum_of_ext _ (fun r => y r + ((-1) * (mean_of y rows - mean_of x rows * b) + (- b) * x r))) by (intros; ring).
    rewrite sum_of_plus, (sum_of_plus (fun _ => _)), !sum_of_scal, sum_of_const. unfold mean_of. field. lra.
  Qed.
  Lemma normal_2 x y rows : 0 < cross x x rows -> sum_of (fun r => (y r - (intercept x y rows + slope x y rows * x r)) * x r) rows = 0.
  Proof.
    intros Hc. pose proof (cross_ne _ _ Hc) as Hn. pose proof (size_pos _ Hn) as Hs. unfold intercept.
    assert (E : cross y x rows = slope x y rows * cross x x rows) by (unfold slope; field; lra).
    rewrite !cross_formula in E by assumption. revert E. set (b := slope x y rows). intros E.
    rewrite (sum_of_ext _ (fun r => y r * x r + ((- (mean_of y rows - mean_of x rows * b)) * x r + (- b) * (x r * x r)))) by (intros; ring).
    rewrite sum_of_plus, (sum_of_plus (fun r => _ * x r)), !sum_of_scal. unfold mean_of.
    assert (E2 : sum_of (fun r => y r * x r) rows = b * sum_of (fun r => x r * x r) rows - b * (sum_of x rows * sum_of x rows / size rows) + sum_of y rows * sum_of x rows / size rows) by lra.
    rewrite E2. field. lra.
  Qed.
  (** the error of any other line *)
  Lemma error_split x y rows a' b' : 0 < cross x x rows ->
    let a := intercept x y rows in let b := slope x y rows in
    sum_of (fun r => (y r - (a' + b' * x r)) ^ 2) rows = sum_of (fun r => (y r - (a + b * x r)) ^ 2) rows + sum_of (fun r => ((a - a') + (b - b') * x r) ^ 2) rows.
  Proof.
    intros Hc a b. pose proof (normal_1 x y rows (cross_ne _ _ Hc)) as N1. pose proof (normal_2 x y rows Hc) as N2. fold a b in N1, N2.
    rewrite (sum_of_ext _ (fun r => (y r - (a + b * x r)) ^ 2 + (((a - a') + (b - b') * x r) ^ 2 + (2 * (a - a') * (y r - (a + b * x r)) + 2 * (b - b') * ((y r - (a + b * x r)) * x r))))) by (intros; ring).
    rewrite sum_of_plus, (sum_of_plus (fun r => (_ + _) ^ 2)), (sum_of_plus (fun r => 2 * (a - a') * _)), !sum_of_scal. rewrite N1, N2. ring.
  Qed.
  Lemma line_ls x y rows : 0 < cross x x rows -> least_squares x y rows (intercept x y rows) (slope x y rows).
  Proof.
    intros Hc a' b'. rewrite (error_split x y rows a' b' Hc).
    assert (0 <= sum_of (fun r => ((intercept x y rows - a') + (slope x y rows - b') * x r) ^ 2) rows); [|lra].
    apply sum_of_nonneg. intros. apply pow2_ge_0.
  Qed.
  Lemma sum_zero f rows : (forall r, In r rows -> 0 <= f r) -> sum_of f rows <= 0 -> forall r, In r rows -> f r = 0.
  Proof.
    unfold sum_of. induction rows as [|r0 rows IH]; cbn; intros H0 HS r Hr; [tauto|].
    pose proof (H0 r0 (or_introl eq_refl)). assert (0 <= Rsum (List.map f rows)) by (apply sum_of_nonneg; auto).
    destruct Hr as [->|Hr]; [lra|]. apply IH; auto. lra.
  Qed.
  Lemma cross_const x rows c : (forall r, In r rows -> x r = c) -> cross x x rows = 0.
  Proof.
    intros H. destruct rows as [|r0 rows0]; [reflexivity|]. rewrite cross_formula by discriminate. set (rows := r0 :: rows0) in *.
    assert (rows <> []) by discriminate. pose proof (size_pos _ H0).
    rewrite (sum_of_ext (fun r => x r * x r) (fun _ => c * c)) by (intros r Hr; now rewrite (H r Hr)). rewrite (sum_of_ext x (fun _ => c)) by exact H.
    rewrite !sum_of_const. field. lra.
  Qed.
  Lemma line_unique x y rows a b : 0 < cross x x rows -> least_squares x y rows a b -> a = intercept x y rows /\ b = slope x y rows.
  Proof.
    intros Hc HL. specialize (HL (intercept x y rows) (slope x y rows)). rewrite (error_split x y rows a b Hc) in HL.
    set (p := intercept x y rows - a) in *. set (q := slope x y rows - b) in *.
    assert (Z : forall r, In r rows -> p + q * x r = 0).
    { intros r Hr. assert (E : (p + q * x r) ^ 2 = 0); [|nra].
      apply (sum_zero (fun r => (p + q * x r) ^ 2) rows); auto; [intros; apply pow2_ge_0|lra]. }
    assert (Q : q = 0).
    { destruct (Req_dec q 0) as [|N]; auto. exfalso. assert (cross x x rows = 0); [|lra]. apply (cross_const x rows (- p / q)).
      intros r Hr. specialize (Z r Hr). apply Rmult_eq_reg_l with q; auto. replace (q * (- p / q)) with (- p) by (field; auto). lra. }
    pose proof (cross_ne _ _ Hc). destruct rows as [|r rows]; [congruence|]. specialize (Z r (or_introl eq_refl)). rewrite Q in Z. unfold p, q in *. split; lra.
  Qed.
  Lemma interaction_splits x y B T b0 b1 b2 b3 : 0 < cross x x B -> 0 < cross x x T ->
    best_interaction_model x y B T b0 b1 b2 b3 -> b0 = intercept x y B /\ b0 + b1 = intercept x y T.
  Proof.
    intros HB HT H. unfold best_interaction_model in H.
    assert (EB : forall c0 c1 c2 c3, sum_of (fun r => (y r - (c0 + c1 * 0 + c2 * x r + c3 * 0 * x r)) ^ 2) B = sum_of (fun r => (y r - (c0 + c2 * x r)) ^ 2) B)
      by (intros; apply sum_of_ext; intros; ring).
    assert (ET : forall c0 c1 c2 c3, sum_of (fun r => (y r - (c0 + c1 * 1 + c2 * x r + c3 * 1 * x r)) ^ 2) T = sum_of (fun r => (y r - ((c0 + c1) + (c2 + c3) * x r)) ^ 2) T)
      by (intros; apply sum_of_ext; intros; ring).
    cbv zeta in H. split.
    - apply (line_unique x y B b0 b2 HB). intros a' b'. specialize (H a' (b0 + b1 - a') b' (b2 + b3 - b')). rewrite !EB, !ET in H.
      replace (a' + (b0 + b1 - a')) with (b0 + b1) in H by ring. replace (b' + (b2 + b3 - b')) with (b2 + b3) in H by ring. lra.
    - apply (line_unique x y T (b0 + b1) (b2 + b3) HT). intros a' b'. specialize (H b0 (a' - b0) b2 (b' - b2)). rewrite !EB, !ET in H.
      replace (b0 + (a' - b0)) with a' in H by ring. replace (b2 + (b' - b2)) with b' in H by ring. lra.
  Qed.
  Lemma mean_ext x x' rows : (forall r, In r rows -> x r = x' r) -> mean_of x rows = mean_of x' rows.
  Proof. intros H. unfold mean_of. f_equal. now apply sum_of_ext. Qed.
  Lemma cross_ext x x' y y' rows : (forall r, In r rows -> x r = x' r) -> (forall r, In r rows -> y r = y' r) -> cross x y rows = cross x' y' rows.
  Proof. intros. unfold cross. now apply wcross_ext. Qed.
  Lemma cross_shift x y rows d : cross (fun r => x r - d) y rows = cross x y rows.
  Proof.
    destruct rows as [|r0 rows0]; [reflexivity|]. rewrite !cross_formula by discriminate. set (rows := r0 :: rows0) in *.
    assert (rows <> []) as Hn by discriminate. pose proof (size_pos _ Hn).
    rewrite (sum_of_ext (fun r => (x r - d) * y r) (fun r => x r * y r + (- d) * y r)) by (intros; ring).
    rewrite (sum_of_ext (fun r => x r - d) (fun r => x r + (- d))) by (intros; ring). rewrite !sum_of_plus, sum_of_scal, sum_of_const. field. lra.
  Qed.
  Lemma cross_sym x y rows : cross x y rows = cross y x rows. Proof. apply wcross_sym. Qed.
  Lemma cross_shift2 x rows d : cross (fun r => x r - d) (fun r => x r - d) rows = cross x x rows.
  Proof. now rewrite cross_shift, cross_sym, cross_shift. Qed.
  Lemma mean_shift x rows d : rows <> [] -> mean_of (fun r => x r - d) rows = mean_of x rows - d.
  Proof.
    intros Hn. pose proof (size_pos _ Hn). unfold mean_of. rewrite (sum_of_ext (fun r => x r - d) (fun r => x r + (- d))) by (intros; ring).
    rewrite sum_of_plus, sum_of_const. field. lra.
  Qed.
  Lemma slope_shift x y rows d : slope (fun r => x r - d) y rows = slope x y rows.
  Proof. unfold slope. now rewrite cross_shift2, cross_sym, cross_shift, cross_sym. Qed.
End Regression.
Lemma sum_of_map {A B} (f : B -> R) (g : A -> B) rows : sum_of f (List.map g rows) = sum_of (fun r => f (g r)) rows.
Proof. unfold sum_of. now rewrite List.map_map. Qed.
Lemma size_map {A B} (g : A -> B) rows : size (List.map g rows) = size rows.
Proof. unfold size. now rewrite map_length. Qed.
Lemma mean_map {A B} (f : B -> R) (g : A -> B) rows : mean_of f (List.map g rows) = mean_of (fun r => f (g r)) rows.
Proof. unfold mean_of. now rewrite sum_of_map, size_map. Qed.
Lemma cross_map {A B} (f h : B -> R) (g : A -> B) rows : cross f h (List.map g rows) = cross (fun r => f (g r)) (fun r => h (g r)) rows.
Proof. unfold cross, wcross, wmean_of. now rewrite !sum_of_map. Qed.

(** *** theta *)
Lemma theta_value y x rows : complete (Col y) rows -> complete (Col x) rows -> 0 < cross (at_ (Col x)) (at_ (Col x)) rows ->
  theta y x rows = Fin (slope (at_ (Col x)) (at_ (Col y)) rows).
Proof.
  intros Hy Hx Hc. pose proof (cross_size _ _ Hc) as Hs. pose proof (cross_ne _ _ Hc) as Hn.
  unfold theta, theta_metric. cbn [evalt]. change (leaf_value (LCov (Col y) (Col x) 1 None None) rows) with (expanded_value (LCov (Col y) (Col x) 1 None None) rows).
  rewrite cov_value by assumption. change (leaf_value (LVar (Col x) 1 None) rows) with (xvar (col_of (Col x) rows) 1).
  rewrite xvar_complete by assumption. unfold slope.
  rewrite xdiv_fin.
  - f_equal. field. lra.
  - intros E. assert (cross (at_ (Col x)) (at_ (Col x)) rows = 0); [|lra]. apply Rmult_eq_reg_r with (/ (size rows - 1)); [unfold Rdiv in E; lra|]. apply Rinv_neq_0_compat. lra.
Qed.
Lemma agg_mean_value v rows : complete (Col v) rows -> rows <> [] -> agg_mean v rows = Fin (mean_of (at_ (Col v)) rows).
Proof. exact (mean_complete (Col v) rows). Qed.
Lemma complete_sub c rows rows' : complete c rows -> incl rows' rows -> complete c rows'.
Proof. unfold complete. rewrite !Forall_forall. auto. Qed.

(** *** the centered table *)
Section Centered.
  Variables (s conds : list string) (y x : string).
  Hypothesis yx : y <> x.
  Definition cen (t : table) (r : drow) : drow := set_val x (xsub (val r x) (split_mean s x t r)) r.
  Lemma row_key_set cols v n r : row_key cols (set_val v n r) = row_key cols r.
  Proof. induction cols as [|c cols IH]; [reflexivity|]. cbn [row_key]. now rewrite IH. Qed.
  Lemma slice_map_set (g : drow -> drow) cols k t : (forall r, row_key cols (g r) = row_key cols r) -> slice cols k (List.map g t) = List.map g (slice cols k t).
  Proof.
    intros H. unfold slice. induction t as [|r t IH]; [reflexivity|]. cbn [List.map filter]. rewrite IH.
    assert (E : has_key cols k (g r) = has_key cols k r) by (unfold has_key; now rewrite H). rewrite E. now destruct (has_key cols k r).
  Qed.
  Lemma keys_of_map (g : drow -> drow) cols t : (forall r, row_key cols (g r) = row_key cols r) -> keys_of cols (List.map g t) = keys_of cols t.
  Proof. intros H. induction t as [|r t IH]; [reflexivity|]. cbn. now rewrite H, IH. Qed.
  Lemma group_keys_map (g : drow -> drow) cols t : (forall r, row_key cols (g r) = row_key cols r) -> group_keys cols (List.map g t) = group_keys cols t.
  Proof. intros H. unfold group_keys. now rewrite (keys_of_map g). Qed.
  Lemma slice_centered cols k t : slice cols k (centered s x t) = List.map (cen t) (slice cols k t).
  Proof. apply slice_map_set. intros r. apply row_key_set. Qed.
  Lemma keys_centered cols t : group_keys cols (centered s x t) = group_keys cols t.
  Proof. apply group_keys_map. intros r. apply row_key_set. Qed.

  Variable t : table.
  Variable k : list string.
  Hypothesis k_length : List.length k = List.length s.
  Hypothesis y_complete : complete (Col y) (slice s k t).
  Hypothesis x_complete : complete (Col x) (slice s k t).
  Notation X := (at_ (Col x)).
  Notation Y := (at_ (Col y)).
  Definition center : R := mean_of X (slice s k t).
  Lemma cen_x r : In r (slice s k t) -> val (cen t r) x = Fin (X r - center).
  Proof.
    intros Hr. unfold cen, set_val. cbn [val]. rewrite String.eqb_refl. pose proof Hr as Hk. apply slice_In in Hk. destruct Hk as [_ Hk].
    unfold split_mean. rewrite Hk, agg_mean_value by (auto; intros E; rewrite E in Hr; destruct Hr).
    unfold complete in x_complete. rewrite Forall_forall in x_complete. destruct (x_complete r Hr) as [a Ha]. cbn in Ha.
    unfold at_. cbn [cellx]. rewrite Ha. reflexivity.
  Qed.
  Lemma cen_y r : val (cen t r) y = val r y.
  Proof. unfold cen, set_val. cbn [val]. destruct (String.eqb_spec y x); [contradiction|reflexivity]. Qed.
  Lemma cen_at_x r : In r (slice s k t) -> X (cen t r) = X r - center.
  Proof. intros Hr. unfold at_ at 1. cbn [cellx]. now rewrite cen_x. Qed.
  Lemma cen_at_y r : Y (cen t r) = Y r.
  Proof. unfold at_. cbn [cellx]. now rewrite cen_y. Qed.
  Lemma cen_complete rs : incl rs (slice s k t) -> complete (Col x) (List.map (cen t) rs) /\ complete (Col y) (List.map (cen t) rs).
  Proof.
    intros H. split; apply Forall_forall; intros r' Hr'; apply in_map_iff in Hr'; destruct Hr' as [r [<- Hr]]; cbn [cellx].
    - exists (X r - center). apply cen_x. auto.
    - rewrite cen_y. unfold complete in y_complete. rewrite Forall_forall in y_complete. apply y_complete. auto.
  Qed.
  (** theta and means on centered rows *)
  Lemma cen_theta rs : incl rs (slice s k t) -> 0 < cross X X rs -> theta y x (List.map (cen t) rs) = Fin (slope X Y rs).
  Proof.
    intros H Hc. destruct (cen_complete rs H) as [C1 C2].
    assert (EX : forall r, In r rs -> X (cen t r) = X r - center) by (intros; apply cen_at_x; auto).
    assert (E : cross X X (List.map (cen t) rs) = cross X X rs).
    { rewrite cross_map. rewrite (cross_ext _ (fun r => X r - center) _ (fun r => X r - center)) by exact EX. apply cross_shift2. }
    rewrite theta_value; auto; [|now rewrite E]. f_equal. rewrite <- (slope_shift X Y rs center). unfold slope.
    rewrite !cross_map. f_equal; [apply cross_ext; [intros; apply cen_at_y|exact EX]|]. now apply cross_ext.
  Qed.
  Lemma cen_mean_y rs : incl rs (slice s k t) -> rs <> [] -> agg_mean y (List.map (cen t) rs) = Fin (mean_of Y rs).
  Proof.
    intros H Hn. destruct (cen_complete rs H) as [C1 C2]. rewrite agg_mean_value; auto; [|destruct rs; [congruence|discriminate]].
    f_equal. rewrite mean_map. apply mean_ext. intros; apply cen_at_y.
  Qed.
  Lemma cen_mean_x rs : incl rs (slice s k t) -> rs <> [] -> agg_mean x (List.map (cen t) rs) = Fin (mean_of X rs - center).
  Proof.
    intros H Hn. destruct (cen_complete rs H) as [C1 C2]. rewrite agg_mean_value; auto; [|destruct rs; [congruence|discriminate]].
    f_equal. rewrite mean_map, <- mean_shift by assumption. apply mean_ext. intros; apply cen_at_x; auto.
  Qed.
  Lemma arm_incl c : incl (slice (s ++ conds) (k ++ c) t) (slice s k t).
  Proof. intros r Hr. rewrite slice_slice in Hr by assumption. apply slice_In in Hr. tauto. Qed.
  Lemma arm_key c : slice (s ++ conds) (k ++ c) t <> [] -> In (k ++ c) (group_keys (s ++ conds) t).
  Proof.
    intros H. apply slice_nonempty in H. destruct H as [r [H1 H2]]. apply group_keys_In. destruct (s ++ conds) eqn:E.
    - left. split; auto. cbn in H2. congruence.
    - right. split; [discriminate|]. eauto.
  Qed.
  Lemma value_map (F : list string -> num) keys g : NoDup keys -> In g keys -> value_at g (List.map (fun q => (q, F q)) keys) (F g).
  Proof.
    unfold value_at. induction keys as [|q keys IH]; intros ND Hg; [destruct Hg|]. inversion ND; subst. cbn [List.map filter fst].
    destruct (list_eq_dec string_dec q g) as [->|N].
    - f_equal. clear -H1. induction keys as [|q keys IH]; [reflexivity|]. cbn [List.map filter fst].
      destruct (list_eq_dec string_dec q g) as [->|]; [destruct H1; now left|]. apply IH. intros H. apply H1. now right.
    - apply IH; auto. destruct Hg; [congruence|assumption].
  Qed.
  Lemma keys_NoDup cols t' : NoDup (group_keys cols t'). Proof. apply ksorted_NoDup, group_keys_sorted. Qed.

  Lemma prepost_value c : 0 < cross X X (slice (s ++ conds) (k ++ c) t) ->
    value_at (k ++ c) (prepost_adjusted s conds y x t) (Fin (intercept (fun r => X r - center) Y (slice (s ++ conds) (k ++ c) t))).
  Proof.
    intros Hc. pose proof (cross_ne _ _ Hc) as Hn. unfold prepost_adjusted, compute_leaf. rewrite keys_centered.
    eapply eq_ind_r with (P := fun z => value_at _ _ z); [apply (value_map (fun g => xsub _ _)); [apply keys_NoDup|now apply arm_key]|]. cbv beta.
    rewrite slice_centered, cen_mean_y, cen_mean_x, cen_theta by (auto using arm_incl). rewrite xmul_fin, xsub_fin. f_equal.
    unfold intercept. rewrite mean_shift, slope_shift by assumption. reflexivity.
  Qed.
  Lemma cuped_value c : slice (s ++ conds) (k ++ c) t <> [] -> 0 < cross X X (slice s k t) ->
    value_at (k ++ c) (cuped_adjusted s conds y x t)
      (Fin (mean_of Y (slice (s ++ conds) (k ++ c) t) - (mean_of X (slice (s ++ conds) (k ++ c) t) - center) * slope X Y (slice s k t))).
  Proof.
    intros Hn Hc. unfold cuped_adjusted. rewrite keys_centered.
    eapply eq_ind_r with (P := fun z => value_at _ _ z); [apply (value_map (fun g => xsub _ _)); [apply keys_NoDup|now apply arm_key]|]. cbv beta.
    assert (E : firstn (List.length s) (k ++ c) = k) by (rewrite <- k_length, firstn_app, Nat.sub_diag, firstn_all; apply app_nil_r).
    rewrite E, !slice_centered, cen_mean_y, cen_mean_x, cen_theta by (auto using arm_incl, incl_refl). reflexivity.
  Qed.
  (** the queries *)
  Lemma sql_covar_value a b rows : complete a rows -> complete b rows -> 1 < size rows ->
    sql_covar a b rows = Fin (cross (at_ a) (at_ b) rows / (size rows - 1)).
  Proof.
    intros Ha Hb Hs. unfold sql_covar. rewrite both_complete by assumption.
    assert (L : (1 < List.length rows)%nat) by (apply INR_lt; exact Hs).
    assert (Hn : rows <> []) by (destruct rows; [cbn in L; lia|discriminate]).
    destruct (Nat.leb_spec (List.length rows) 1); [lia|]. rewrite !mean_complete, xsum_prod by assumption. rewrite cross_means, minus_INR by lia.
    change (INR (List.length rows)) with (size rows). cbn [INR]. apply xdiv_fin. lra.
  Qed.
  Lemma sql_theta_value rows : complete (Col y) rows -> complete (Col x) rows -> 0 < cross X X rows -> sql_theta y x rows = Fin (slope X Y rows).
  Proof.
    intros Hy Hx Hc. pose proof (cross_size _ _ Hc) as Hs. unfold sql_theta. rewrite !sql_covar_value by assumption. unfold safe_divide.
    assert (P : 0 < cross X X rows / (size rows - 1)) by (apply Rdiv_lt_0_compat; lra).
    destruct (Req_EM_T _ _); [lra|]. rewrite xdiv_fin by assumption. f_equal. unfold slope. field. lra.
  Qed.
  Lemma cuped_sql_value c : slice (s ++ conds) (k ++ c) t <> [] -> 0 < cross X X (slice s k t) ->
    value_at (k ++ c) (cuped_sql_adjusted s conds y x t)
      (Fin (mean_of Y (slice (s ++ conds) (k ++ c) t) - mean_of X (slice (s ++ conds) (k ++ c) t) * slope X Y (slice s k t))).
  Proof.
    intros Hn Hc. unfold cuped_sql_adjusted.
    eapply eq_ind_r with (P := fun z => value_at _ _ z); [apply (value_map (fun g => xsub _ _)); [apply keys_NoDup|now apply arm_key]|]. cbv beta.
    assert (E : firstn (List.length s) (k ++ c) = k) by (rewrite <- k_length, firstn_app, Nat.sub_diag, firstn_all; apply app_nil_r).
    rewrite E, sql_theta_value by assumption. set (rs := slice (s ++ conds) (k ++ c) t) in *. set (b := slope X Y (slice s k t)).
    assert (Cx : complete (Col x) rs) by (eapply complete_sub; eauto using arm_incl). assert (Cy : complete (Col y) rs) by (eapply complete_sub; eauto using arm_incl).
    rewrite agg_mean_value by assumption.
    set (g := fun r => set_val "th" (Fin b) r).
    assert (M : xmean (List.map (fun r => xmul (Fin b) (val r x)) rs) = Fin (b * mean_of X rs)).
    { unfold xmean.
      assert (F : List.map (fun r => xmul (Fin b) (val r x)) rs = List.map (fun r => Fin (b * X r)) rs).
      { apply map_ext_in. intros r Hr. unfold complete in Cx. rewrite Forall_forall in Cx. destruct (Cx r Hr) as [a Ha]. cbn in Ha. unfold at_. cbn [cellx]. now rewrite Ha. }
      rewrite F. assert (SM : xsum (List.map (fun r => Fin (b * X r)) rs) = Fin (b * sum_of X rs)).
      { clear. induction rs as [|r rs IH]; [cbn; f_equal; unfold sum_of; cbn; lra|]. cbn [List.map]. unfold xsum in *. cbn [fold_right is_nan]. rewrite IH. cbn [xadd]. f_equal. unfold sum_of. cbn. lra. }
      assert (CT : count_present (List.map (fun r => Fin (b * X r)) rs) = List.length rs).
      { clear. induction rs as [|r rs IH]; [reflexivity|]. unfold count_present in *. cbn [List.map filter is_nan negb List.length]. now rewrite IH. }
      rewrite SM, CT. pose proof (size_pos _ Hn) as P. unfold size in P. rewrite xdiv_fin by lra. f_equal. unfold mean_of, size. field. lra. }
    rewrite M, xsub_fin. f_equal. ring.
  Qed.
  Lemma prepost_sql_value c : 0 < cross X X (slice (s ++ conds) (k ++ c) t) ->
    value_at (k ++ c) (prepost_sql_adjusted s conds y x t) (Fin (intercept (fun r => X r - center) Y (slice (s ++ conds) (k ++ c) t))).
  Proof.
    intros Hc. pose proof (cross_ne _ _ Hc) as Hn. pose proof (cross_size _ _ Hc) as Hs. unfold prepost_sql_adjusted, compute_leaf. rewrite keys_centered.
    eapply eq_ind_r with (P := fun z => value_at _ _ z); [apply (value_map (fun g => xsub _ _)); [apply keys_NoDup|now apply arm_key]|]. cbv beta.
    rewrite slice_centered, cen_mean_y, cen_mean_x by (auto using arm_incl). set (rs := slice (s ++ conds) (k ++ c) t) in *.
    assert (I : incl rs (slice s k t)) by apply arm_incl. destruct (cen_complete rs I) as [C1 C2].
    assert (S1 : 1 < size (List.map (cen t) rs)) by (now rewrite size_map). rewrite !sql_covar_value by assumption. rewrite size_map, !cross_map.
    assert (EX : forall r, In r rs -> X (cen t r) = X r - center) by (intros; apply cen_at_x; auto).
    rewrite (cross_ext (fun r => Y (cen t r)) Y _ (fun r => X r - center)), (cross_ext (fun r => X (cen t r)) (fun r => X r - center) _ (fun r => X r - center)); auto; [|intros; apply cen_at_y].
    rewrite cross_shift2, xmul_fin. unfold safe_divide.
    assert (P : 0 < cross X X rs / (size rs - 1)) by (apply Rdiv_lt_0_compat; lra).
    destruct (Req_EM_T _ _); [lra|]. rewrite xdiv_fin, xsub_fin by assumption. f_equal. unfold intercept, slope. rewrite mean_shift, cross_shift2 by assumption.
    f_equal. field. lra.
  Qed.
End Centered.

(** *** invariance under shifts of the covariate *)
Lemma xsum_shift d l : Forall no_inf l -> xsum (List.map (fun v => xadd v (Fin d)) l) = xadd (xsum l) (Fin (INR (count_present l) * d)).
Proof.
  induction 1 as [|v l Hv Hl IH]; [unfold xsum, count_present; cbn; f_equal; lra|].
  unfold xsum in *. cbn [List.map fold_right]. unfold count_present in *. cbn [filter].
  destruct v as [a| | |]; cbn [xadd is_nan negb]; try exact IH; try (destruct Hv; congruence).
  rewrite IH. cbn [List.length]. rewrite S_INR. destruct (fold_right _ (Fin 0) l); cbn [xadd]; try reflexivity. f_equal. lra.
Qed.
Lemma count_shift d l : count_present (List.map (fun v => xadd v (Fin d)) l) = count_present l.
Proof. unfold count_present. induction l as [|v l IH]; [reflexivity|]. cbn [List.map filter]. destruct v; cbn [xadd is_nan negb List.length]; now rewrite ?IH. Qed.
Lemma xmean_shift d l : Forall no_inf l -> xmean (List.map (fun v => xadd v (Fin d)) l) = xadd (xmean l) (Fin d).
Proof.
  intros H. unfold xmean. rewrite count_shift, xsum_shift, xsum_finite by assumption. cbn [xadd].
  destruct (count_present l) as [|n] eqn:E.
  - assert (finite_values l = []) as F.
    { clear -H E. induction l as [|v l IH]; [reflexivity|]. inversion H; subst. unfold count_present in *. destruct v; cbn [filter is_nan negb List.length] in E; try discriminate. cbn. apply IH; auto. }
    rewrite F. cbn [Rsum INR]. unfold xdiv. destruct (Req_EM_T 0 0) as [_|N]; [|congruence]. replace (0 + 0 * d) with 0 by lra. unfold inf_times. destruct (Req_EM_T 0 0); [reflexivity|congruence].
  - assert (0 < INR (S n)) by (apply lt_0_INR; lia). rewrite !xdiv_fin by lra. cbn [xadd]. f_equal. field. lra.
Qed.

(** The covariate plus d(k) in the split k. *)
Definition shift_covariate (s : list string) (x : string) (d : list string -> R) (t : table) : table :=
  List.map (fun r => match row_key s r with Some k => set_val x (xadd (val r x) (Fin (d k))) r | None => r end) t.
Lemma set_set v n n' r : set_val v n (set_val v n' r) = set_val v n r.
Proof. unfold set_val. cbn. f_equal. apply functional_extensionality. intros v'. destruct (String.eqb v' v); reflexivity. Qed.
Lemma xsub_shift a m d : no_inf a -> xsub (xadd a (Fin d)) (xadd m (Fin d)) = xsub a m.
Proof. intros [H1 H2]. destruct a, m; cbn; try congruence; try reflexivity. f_equal. lra. Qed.
Lemma shift_centered s x d t : Forall (fun r => no_inf (val r x)) t -> centered s x (shift_covariate s x d t) = centered s x t.
Proof.
  intros H. set (g := fun r => match row_key s r with Some k => set_val x (xadd (val r x) (Fin (d k))) r | None => r end).
  assert (K : forall cols r, row_key cols (g r) = row_key cols r) by (intros cols r; unfold g; destruct (row_key s r); [apply row_key_set|reflexivity]).
  unfold shift_covariate. fold g. unfold centered. rewrite List.map_map. apply map_ext_in. intros r Hr.
  rewrite Forall_forall in H. unfold split_mean. rewrite K. unfold g at 1 3. destruct (row_key s r) as [k|] eqn:E.
  - rewrite set_set. f_equal. rewrite (slice_map_set g) by auto.
    assert (M : agg_mean x (List.map g (slice s k t)) = xadd (agg_mean x (slice s k t)) (Fin (d k))).
    { unfold agg_mean, column. rewrite List.map_map. rewrite <- xmean_shift.
      - rewrite List.map_map. f_equal. apply map_ext_in. intros r' Hr'. apply slice_In in Hr'. destruct Hr' as [_ Hr']. unfold g. rewrite Hr'. cbn [set_val val]. now rewrite String.eqb_refl.
      - apply Forall_forall. intros v Hv. apply in_map_iff in Hv. destruct Hv as [r' [<- Hr']]. apply slice_In in Hr'. apply H. tauto. }
    rewrite M. cbn [set_val val]. rewrite String.eqb_refl. apply xsub_shift. auto.
  - reflexivity.
Qed.
(** A constant added to y in one arm. *)
Definition shift_arm (cols : list string) (k : list string) (y : string) (d : R) (t : table) : table :=
  List.map (fun r => if has_key cols k r then set_val y (xadd (val r y) (Fin d)) r else r) t.
Section ArmShift.
  Variables (s conds : list string) (y x : string) (t : table) (k c : list string) (d : R).
  Hypothesis yx : y <> x.
  Hypothesis k_length : List.length k = List.length s.
  Hypothesis y_complete : complete (Col y) (slice s k t).
  Hypothesis x_complete : complete (Col x) (slice s k t).
  Notation X := (at_ (Col x)).
  Notation Y := (at_ (Col y)).
  Let g := fun r => if has_key (s ++ conds) (k ++ c) r then set_val y (xadd (val r y) (Fin d)) r else r.
  Let t' := shift_arm (s ++ conds) (k ++ c) y d t.
  Lemma g_key cols r : row_key cols (g r) = row_key cols r.
  Proof. unfold g. destruct (has_key _ _ r); [apply row_key_set|reflexivity]. Qed.
  Lemma g_slice cols q : slice cols q t' = List.map g (slice cols q t).
  Proof. apply (slice_map_set g). intros; apply g_key. Qed.
  Lemma g_x r : val (g r) x = val r x.
  Proof. unfold g. destruct (has_key _ _ r); [|reflexivity]. cbn. destruct (String.eqb_spec x y); [congruence|reflexivity]. Qed.
  Lemma g_X r : X (g r) = X r. Proof. unfold at_. cbn [cellx]. now rewrite g_x. Qed.
  Lemma g_Y r : In r (slice s k t) -> Y (g r) = if has_key (s ++ conds) (k ++ c) r then Y r + d else Y r.
  Proof.
    intros Hr. unfold complete in y_complete. rewrite Forall_forall in y_complete. destruct (y_complete r Hr) as [a Ha]. cbn in Ha.
    unfold at_. cbn [cellx]. unfold g. destruct (has_key _ _ r); [|reflexivity]. cbn [set_val val]. rewrite String.eqb_refl, Ha. reflexivity.
  Qed.
  Lemma g_complete : complete (Col y) (slice s k t') /\ complete (Col x) (slice s k t').
  Proof.
    rewrite g_slice. unfold complete in *. rewrite Forall_forall in y_complete, x_complete. split; apply Forall_forall; intros r' Hr'; apply in_map_iff in Hr'; destruct Hr' as [r [<- Hr]].
    - destruct (y_complete r Hr) as [a Ha]. cbn in *. unfold g. destruct (has_key _ _ r); [|eauto]. cbn [set_val val]. rewrite String.eqb_refl, Ha. eexists. reflexivity.
    - destruct (x_complete r Hr) as [a Ha]. cbn [cellx] in *. rewrite g_x. eauto.
  Qed.
  Lemma g_center : center s x t' k = center s x t k.
  Proof. unfold center. rewrite g_slice, mean_map. apply mean_ext. intros; apply g_X. Qed.
  Lemma arm_shift c' v : 0 < cross X X (slice (s ++ conds) (k ++ c') t) -> value_at (k ++ c') (prepost_adjusted s conds y x t) (Fin v) ->
    value_at (k ++ c') (prepost_adjusted s conds y x t') (Fin (if list_eq_dec string_dec c' c then v + d else v)).
  Proof.
    intros Hc Hv. destruct g_complete as [G1 G2]. set (rs := slice (s ++ conds) (k ++ c') t) in *.
    assert (I : incl rs (slice s k t)) by (apply arm_incl; assumption).
    assert (V := prepost_value s conds y x yx t k k_length y_complete x_complete c' Hc). unfold value_at in V, Hv. rewrite Hv in V. injection V as ->.
    assert (HX : cross X X (slice (s ++ conds) (k ++ c') t') = cross X X rs).
    { rewrite g_slice, cross_map. fold rs. apply cross_ext; intros; apply g_X. }
    assert (Hc' : 0 < cross X X (slice (s ++ conds) (k ++ c') t')) by (now rewrite HX).
    pose proof (prepost_value s conds y x yx t' k k_length G1 G2 c' Hc') as V.
    match type of V with value_at _ _ (Fin ?a) => assert (E : a = if list_eq_dec string_dec c' c then intercept (fun r => X r - center s x t k) Y rs + d else intercept (fun r => X r - center s x t k) Y rs) end; [|now rewrite E in V].
    rewrite g_center, g_slice. fold rs. pose proof (cross_ne _ _ Hc) as Hn. pose proof (size_pos _ Hn) as Hs.
    unfold intercept, slope. rewrite !mean_map, !cross_map.
    rewrite (mean_ext (fun r => X (g r) - center s x t k) (fun r => X r - center s x t k)) by (intros; now rewrite g_X).
    rewrite (cross_ext (fun r => X (g r) - center s x t k) (fun r => X r - center s x t k) (fun r => X (g r) - center s x t k) (fun r => X r - center s x t k)) by (intros; now rewrite g_X).
    destruct (list_eq_dec string_dec c' c) as [->|N].
    - assert (EY : forall r, In r rs -> Y (g r) = Y r - (- d)).
      { intros r Hr. rewrite g_Y by auto. assert (has_key (s ++ conds) (k ++ c) r = true) as -> by (apply has_key_iff; apply slice_In in Hr; tauto). lra. }
      rewrite (mean_ext _ (fun r => Y r - (- d))) by exact EY. rewrite (cross_ext (fun r => Y (g r)) (fun r => Y r - (- d)) _ (fun r => X r - center s x t k)) by (auto; intros; now rewrite g_X).
      rewrite cross_shift, (mean_shift Y) by assumption. lra.
    - assert (EY : forall r, In r rs -> Y (g r) = Y r).
      { intros r Hr. rewrite g_Y by auto. destruct (has_key _ _ r) eqn:E; [|reflexivity]. apply has_key_iff in E. apply slice_In in Hr. destruct Hr as [_ Hr].
        exfalso. apply N. rewrite E in Hr. injection Hr as Hr. now apply app_inv_head in Hr. }
      rewrite (mean_ext _ Y) by exact EY. now rewrite (cross_ext (fun r => Y (g r)) Y _ (fun r => X r - center s x t k)) by (auto; intros; now rewrite g_X).
  Qed.
End ArmShift.
Lemma value_at_In g fr v : value_at g fr v -> In (g, v) fr.
Proof. unfold value_at. intros H. assert (In (g, v) (filter (fun r => if list_eq_dec string_dec (fst r) g then true else false) fr)) by (rewrite H; now left). apply filter_In in H0. tauto. Qed.
Lemma adjusted_index s conds (F : list string -> num) t : let fr := List.map (fun k => (k, F k)) (group_keys (s ++ conds) t) in
  NoDup (List.map fst fr) /\ forall k v, In (k, v) fr -> List.length k = (List.length s + List.length conds)%nat.
Proof.
  cbv zeta. rewrite List.map_map. cbn [fst]. rewrite List.map_id. split; [apply keys_NoDup|].
  intros k v H. apply in_map_iff in H. destruct H as [k' [E Hk]]. injection E as -> _. apply group_keys_In in Hk. rewrite <- app_length.
  destruct Hk as [[-> ->]|[_ [r [_ Hr]]]]; [reflexivity|]. now apply row_key_length in Hr.
Qed.

(** C19-C21: the statements. *)
From Coq Require Import Reals List Bool String ZArith Lia Lra.
From Verif Require Import M_Num M_Frame M_Leaf S_Leaf L_Leaf L_Leaf2.
Import ListNotations.
Open Scope R_scope.

Lemma leaves_rank t l : trank t = 0%nat -> In l (leaves t) -> rank l = 0%nat.
Proof. induction t; cbn; intros H; try tauto; try (rewrite in_app_iff; intros [|]; [apply IHt1|apply IHt2]; auto; lia); try (apply IHt; lia). intros [<-|[]]. exact H. Qed.
Lemma leaves_other t agg : In (LOther agg) (leaves (expand t)) -> In (LOther agg) (leaves t).
Proof.
  induction t; cbn; try (rewrite !in_app_iff; tauto); try tauto.
  destruct (equivalent l) as [e|] eqn:E; [|auto]. intros H. exfalso. revert H.
  destruct l as [c|c|a b [|]|c [w|]|c d [w|]|c d w|c d|a b d [w|] [f|]|a b w|ag]; cbn in E; try discriminate; injection E as <-;
    unfold cov_equivalent; try destruct (Z.eqb d 0); cbn; intuition discriminate.
Qed.
Lemma only_sum_count t l : In l (leaves (full t)) -> (exists c, l = LSum c) \/ (exists c, l = LCount c) \/ (exists agg, l = LOther agg /\ In l (leaves t)).
Proof.
  intros H. pose proof (leaves_rank _ _ (full_rank t) H) as R.
  destruct l as [c|c|a b [|]|c [w|]|c d [w|]|c d w|c d|a b d w f|a b w|ag]; try discriminate; eauto.
  right. right. exists ag. split; auto. unfold full in H. revert H. generalize 6%nat as n. induction n as [|n IH]; auto.
  change (Nat.iter (S n) expand t) with (expand (Nat.iter n expand t)). intros H. apply IH. now apply leaves_other.
Qed.

Lemma native_expanded l rows : comparable l rows -> leaf_value l rows = expanded_value l rows.
Proof.
  unfold leaf_value. rewrite V_expanded.
  destruct l as [c|c|a b [|]|c [w|]|c d [w|]|c d [w|]|c d|a b d w f|a b [w|]|ag]; cbn [native comparable]; intros H; auto.
  all: try reflexivity; try (now rewrite V_dotn); try (now rewrite V_dot); try (now rewrite V_mean); destruct H.
  - rewrite V_var. now apply var_native.
  - rewrite V_sd, V_var. f_equal. now apply var_native.
  - rewrite V_cv, V_sd, V_var. f_equal. f_equal. now apply var_native.
  - now apply corr_native.
Qed.
Lemma complete_no_infinity c rows : complete c rows -> no_infinity c rows.
Proof. unfold complete, no_infinity. apply Forall_impl. intros r [a ->]. split; discriminate. Qed.

(** ** bounds *)
Lemma xvar_nonneg c ddof rows v : no_infinity c rows -> xvar (col_of c rows) ddof = Fin v -> 0 <= v.
Proof.
  intros Hi. rewrite <- xvar_nonmissing. apply nonmissing_complete in Hi. revert Hi. generalize (nonmissing c rows) as rs. intros rs Hc.
  destruct (Z.leb_spec (Z.of_nat (List.length rs)) ddof) as [L|L]; [rewrite xvar_small by assumption; discriminate|].
  assert (IZR ddof < size rs) as Hs by (unfold size; rewrite INR_IZR_INZ; now apply IZR_lt).
  destruct rs as [|r rs].
  - unfold xvar. change (col_of c []) with (@nil num). change (count_present []) with 0%nat.
    destruct (Z.leb _ _); [discriminate|]. cbn [map]. change (xsum []) with (Fin 0). cbn [INR]. unfold size in Hs. cbn in Hs.
    rewrite xdiv_fin by lra. intros H. injection H as <-. unfold Rdiv. lra.
  - rewrite xvar_complete by (auto; discriminate). intros H. injection H as <-. apply Rmult_le_pos; [apply cross_nonneg|].
    left. apply Rinv_0_lt_compat. lra.
Qed.
Lemma sum_zero {A} (w : A -> R) rows : (forall r, In r rows -> 0 <= w r) -> sum_of w rows = 0 -> forall r, In r rows -> w r = 0.
Proof.
  intros Hp. unfold sum_of. induction rows as [|q rows IH]; cbn; intros H r Hr; [tauto|].
  assert (0 <= w q) by (apply Hp; cbn; auto). assert (0 <= sum_of w rows) by (apply sum_of_nonneg; intros; apply Hp; cbn; auto).
  unfold sum_of in *. destruct Hr as [<-|Hr]; [lra|]. apply IH; auto; [|lra]. intros; apply Hp; cbn; auto.
Qed.
Lemma wvar_nonneg c w ddof rows v : complete c rows -> complete w rows -> (forall r, In r rows -> 0 <= at_ w r) ->
  expanded_value (LVar c ddof (Some w)) rows = Fin v -> 0 <= v.
Proof.
  intros Hc Hw Hp. assert (0 <= sum_of (at_ w) rows) as Hs by now apply sum_of_nonneg.
  destruct (Req_dec (sum_of (at_ w) rows) 0) as [E|N].
  - rewrite V_expanded; erewrite V_leaf by reflexivity.
    rewrite V_div, V_sub, V_div, V_sq, !V_dot, V_sum, !xsum_complete by auto using complete_times, complete_sq. rewrite E.
    rewrite (sum_times c w) by assumption.
    rewrite (sum_of_ext (fun r => at_ c r * at_ w r) (fun _ => 0)) by (intros r Hr; rewrite (sum_zero _ _ Hp E r Hr); ring).
    rewrite sum_of_const. unfold xsq at 1. rewrite xmul_fin. replace (0 * size rows * (0 * size rows)) with 0 by ring. rewrite xdiv_0.
    discriminate.
  - assert (0 < sum_of (at_ w) rows) as H0 by lra. destruct (Rtotal_order (IZR ddof) (sum_of (at_ w) rows)) as [L|[L|L]].
    + rewrite wvar_value by assumption. intros H. injection H as <-. apply Rmult_le_pos; [now apply wcross_nonneg|left; apply Rinv_0_lt_compat; lra].
    + rewrite V_expanded; erewrite V_leaf by reflexivity. rewrite V_div, wvar_num, V_sq, V_sqrt by (auto; lra).
      destruct (Z.eqb ddof 0) eqn:E0; [apply Z.eqb_eq in E0; subst ddof; lra|].
      rewrite V_sub, V_sum, V_num, xsum_complete, xsub_fin by assumption. rewrite <- L, Rminus_diag_eq by reflexivity. rewrite xsq_sqrt by lra.
      cbn. destruct (Req_EM_T 0 0); [|lra]. unfold inf_times. destruct (Req_EM_T _ 0); [discriminate|]. unfold neg_inf. destruct (xorb _ _); discriminate.
    + rewrite wvar_toolarge by assumption. discriminate.
Qed.
Lemma xsqrt_nonneg x v : xsqrt x = Fin v -> 0 <= v.
Proof. destruct x; cbn; try discriminate. destruct (Rle_dec 0 r); [|discriminate]. intros H. injection H as <-. apply sqrt_pos. Qed.

Lemma xmul_comm x y : xmul x y = xmul y x.
Proof. destruct x, y; cbn; auto. now rewrite Rmult_comm. Qed.
Lemma col_times_comm a b rows : col_of (Times a b) rows = col_of (Times b a) rows.
Proof. unfold col_of. apply map_ext. intros r. apply xmul_comm. Qed.
Lemma col_times_comm2 a b w rows : col_of (Times (Times a b) w) rows = col_of (Times (Times b a) w) rows.
Proof. unfold col_of. apply map_ext. intros r. cbn. now rewrite (xmul_comm (cellx a r)). Qed.
Lemma cov_sym a b ddof w f rows : count_present (col_of a rows) = count_present (col_of b rows) ->
  expanded_value (LCov a b ddof w f) rows = expanded_value (LCov b a ddof w f) rows.
Proof.
  intros HN. rewrite !V_expanded. erewrite !V_leaf by reflexivity. unfold cov_equivalent.
  assert (V (ESub (ELeaf (LDot a b true)) (EMul (ELeaf (LMean a None)) (ELeaf (LMean b None)))) rows =
          V (ESub (ELeaf (LDot b a true)) (EMul (ELeaf (LMean b None)) (ELeaf (LMean a None)))) rows) as E0.
  { rewrite !V_sub, !V_mul, !V_dotn, !V_mean. now rewrite col_times_comm, (xmul_comm (xmean (col_of a rows))). }
  assert (forall u, V (ESub (ELeaf (LMean (Times a b) (Some u))) (EMul (ELeaf (LMean a (Some u))) (ELeaf (LMean b (Some u))))) rows =
          V (ESub (ELeaf (LMean (Times b a) (Some u))) (EMul (ELeaf (LMean b (Some u))) (ELeaf (LMean a (Some u))))) rows) as E1.
  { intros u. rewrite !V_sub, !V_mul, !V_wmean. rewrite (col_times_comm2 a b u). f_equal. apply xmul_comm. }
  assert (V (ELeaf (LCount a)) rows = V (ELeaf (LCount b)) rows) as E2 by (rewrite !V_count; now rewrite HN).
  destruct w as [w|], f as [f|]; destruct (Z.eqb ddof 0); auto; rewrite !V_div; rewrite ?E0, ?E1; auto.
  rewrite !V_sq, !V_sqrt, !V_sub, !V_div, E2. reflexivity.
Qed.

Lemma both_present_idem a b rows : both_present a b (both_present a b rows) = both_present a b rows.
Proof. unfold both_present. induction rows as [|r rows IH]; auto. cbn [filter]. destruct (_ && _) eqn:E; auto. cbn [filter]. now rewrite E, IH. Qed.
Lemma xcorr_both a b rows : xcorr a b (both_present a b rows) = xcorr a b rows.
Proof. unfold xcorr. now rewrite both_present_idem. Qed.
Lemma both_complete_l a b rows : no_infinity a rows -> complete a (both_present a b rows).
Proof.
  unfold no_infinity, complete, both_present. rewrite !Forall_forall. intros H r Hr. apply filter_In in Hr as [Hr Hn].
  destruct (H r Hr) as [H1 H2]. apply andb_prop in Hn as [Hn _]. destruct (cellx a r); try discriminate; try contradiction; eauto.
Qed.
Lemma both_complete_r a b rows : no_infinity b rows -> complete b (both_present a b rows).
Proof.
  unfold no_infinity, complete, both_present. rewrite !Forall_forall. intros H r Hr. apply filter_In in Hr as [Hr Hn].
  destruct (H r Hr) as [H1 H2]. apply andb_prop in Hn as [_ Hn]. destruct (cellx b r); try discriminate; try contradiction; eauto.
Qed.
Lemma xcorr_nil a b : xcorr a b [] = NaN.
Proof. rewrite (corr_native a b []) by constructor. rewrite V_corr, V_cov_nil. reflexivity. Qed.
Lemma corr_bounds a b rows v : no_infinity a rows -> no_infinity b rows -> xcorr a b rows = Fin v -> -1 <= v <= 1.
Proof.
  intros Ha Hb. rewrite <- xcorr_both. pose proof (both_complete_l a b rows Ha) as Ca. pose proof (both_complete_r a b rows Hb) as Cb.
  revert Ca Cb. generalize (both_present a b rows) as rs. intros rs Ca Cb. destruct rs as [|r rs]; [rewrite xcorr_nil; discriminate|].
  rewrite xcorr_complete by (auto; discriminate). apply corr_bound; auto using cross_nonneg, cross_cauchy.
Qed.
Lemma wcorr_bounds a b w rows v : complete a rows -> complete b rows -> complete w rows -> (forall r, In r rows -> 0 <= at_ w r) -> 0 < sum_of (at_ w) rows ->
  expanded_value (LCorr a b (Some w)) rows = Fin v -> -1 <= v <= 1.
Proof. intros Ha Hb Hw Hp Hs. rewrite V_expanded, wcorr_value by assumption. apply corr_bound; auto using wcross_nonneg, wcross_cauchy. Qed.
Lemma corr_affine a a' b s t rows : complete a rows -> complete a' rows -> complete b rows -> 0 < s -> (forall r, In r rows -> at_ a' r = s * at_ a r + t) ->
  xcorr a' b rows = xcorr a b rows.
Proof.
  intros Ha Ha' Hb Hs E. destruct rows as [|r rows]; [now rewrite !xcorr_nil|]. assert (r :: rows <> []) as Hn by discriminate.
  set (rs := r :: rows) in *. pose proof (size_pos _ Hn). rewrite !xcorr_complete by assumption.
  assert (forall y, cross (at_ a') y rs = s * cross (at_ a) y rs) as EC.
  { intros y. unfold cross. rewrite <- (wcross_affine _ _ _ _ s t) by (rewrite sum_of_1; lra). apply wcross_ext; auto. }
  rewrite !EC.
  assert (cross (at_ a) (at_ a') rs = s * cross (at_ a) (at_ a) rs) as ->.
  { unfold cross at 1. rewrite wcross_sym. apply (EC (at_ a)). }
  apply corr_scale; auto using cross_nonneg.
Qed.
Lemma wcorr_affine a a' b w s t rows : complete a rows -> complete a' rows -> complete b rows -> complete w rows ->
  (forall r, In r rows -> 0 <= at_ w r) -> 0 < sum_of (at_ w) rows -> 0 < s -> (forall r, In r rows -> at_ a' r = s * at_ a r + t) ->
  expanded_value (LCorr a' b (Some w)) rows = expanded_value (LCorr a b (Some w)) rows.
Proof.
  intros Ha Ha' Hb Hw Hp HW Hs E. rewrite !V_expanded, !wcorr_value by assumption.
  assert (forall y, wcross (at_ w) (at_ a') y rows = s * wcross (at_ w) (at_ a) y rows) as EC.
  { intros y. rewrite <- (wcross_affine _ _ _ _ s t) by lra. apply wcross_ext; auto. }
  rewrite !EC. rewrite (wcross_sym (at_ w) (at_ a) (at_ a')), EC. apply corr_scale; auto using wcross_nonneg.
Qed.

(** ** missing values *)
Lemma same_drop a b rows r : same_missing a b rows -> In r rows -> negb (is_nan (cellx a r)) && negb (is_nan (cellx b r)) = false ->
  cellx a r = NaN /\ cellx b r = NaN.
Proof.
  unfold same_missing. rewrite Forall_forall. intros H Hr E. specialize (H r Hr). apply andb_false_iff in E as [E|E];
    (destruct (cellx a r), (cellx b r); cbn in E; try discriminate; try tauto; exfalso; destruct H as [H1 H2]; try discriminate (H1 eq_refl); discriminate (H2 eq_refl)).
Qed.
Lemma cov_same_missing a b ddof rows : same_missing a b rows ->
  expanded_value (LCov a b ddof None None) (both_present a b rows) = expanded_value (LCov a b ddof None None) rows.
Proof.
  intros H. rewrite !V_expanded. erewrite !V_leaf by reflexivity. unfold cov_equivalent.
  assert (forall c, c = a \/ c = b \/ c = Times a b -> xsum (col_of c (both_present a b rows)) = xsum (col_of c rows) /\
    count_present (col_of c (both_present a b rows)) = count_present (col_of c rows)) as HA.
  { intros c Hc. unfold both_present. split; [apply xsum_drop|apply count_drop]; intros r Hr E; destruct (same_drop a b rows r H Hr E) as [E1 E2];
      destruct Hc as [->|[->| ->]]; auto; cbn; now rewrite E1, E2. }
  assert (forall c, c = a \/ c = b \/ c = Times a b -> xmean (col_of c (both_present a b rows)) = xmean (col_of c rows)) as HM.
  { intros c Hc. unfold xmean. destruct (HA c Hc) as [-> ->]. reflexivity. }
  assert (V (ESub (ELeaf (LDot a b true)) (EMul (ELeaf (LMean a None)) (ELeaf (LMean b None)))) (both_present a b rows) =
          V (ESub (ELeaf (LDot a b true)) (EMul (ELeaf (LMean a None)) (ELeaf (LMean b None)))) rows) as E.
  { rewrite !V_sub, !V_mul, !V_dotn, !V_mean, !HM by auto. reflexivity. }
  destruct (Z.eqb ddof 0); auto. rewrite !V_div, E, !V_sq, !V_sqrt, !V_sub, !V_div, !V_count.
  destruct (HA a (or_introl eq_refl)) as [_ ->]. reflexivity.
Qed.

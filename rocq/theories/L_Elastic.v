(** Lasso and ElasticNet in magic mode: from statistics to the loss on the data. *)
From Coq Require Import Reals Lra Lia List Arith Bool.
From Verif Require Import M_Num M_Frame L_Fsum M_Models S_Models M_ElasticNet L_Models L_Ridge L_RidgeNorm L_Fista.
Import ListNotations.
Open Scope R_scope.
Open Scope list_scope.

Lemma feat_centered k rows r i : (i < k)%nat ->
  feat i (map (fun i => feat i r - avg (feat i) rows) (seq 0 k), resp r) = feat i r - avg (feat i) rows.
Proof. intros Hi. unfold feat at 1. cbn [fst]. apply nth_map_seq. exact Hi. Qed.
Lemma centered_nonempty k rows : rows <> [] -> data_centered k rows <> [].
Proof. intros H. unfold data_centered. destruct rows; [congruence|discriminate]. Qed.
Lemma centered_avg k rows i : rows <> [] -> (i < k)%nat -> avg (feat i) (data_centered k rows) = 0.
Proof.
  intros Hr Hi. unfold data_centered. rewrite avg_map.
  rewrite (avg_ext _ (fun r => feat i r - mean_x rows i)); [apply avg_centered; exact Hr|].
  intros r _. rewrite feat_centered by exact Hi. reflexivity.
Qed.
Lemma centered_xx k rows i j : rows <> [] -> (i < k)%nat -> (j < k)%nat ->
  avg (fun r => feat i r * feat j r) (data_centered k rows) = cov rows i j.
Proof.
  intros Hr Hi Hj. unfold data_centered. rewrite avg_map, cov_centered by exact Hr. apply avg_ext.
  intros r _. rewrite !feat_centered by assumption. reflexivity.
Qed.
Lemma centered_xy k rows i : rows <> [] -> (i < k)%nat ->
  avg (fun r => feat i r * resp r) (data_centered k rows) = covy rows i.
Proof.
  intros Hr Hi. unfold data_centered. rewrite avg_map.
  rewrite (avg_ext _ (fun r => feat i r * resp r + (- avg (feat i) rows) * resp r)).
  - rewrite avg_plus, avg_scal. unfold covy. lra.
  - intros r _. rewrite feat_centered by exact Hi. unfold resp at 1. cbn [snd]. ring.
Qed.
Lemma centered_y k rows : avg resp (data_centered k rows) = avg resp rows.
Proof. unfold data_centered. rewrite avg_map. reflexivity. Qed.

Definition stats_get_in k n rows c : In c (stat_cols k true n) -> get (suff_stats k true n rows) c = Some (stat_value rows c).
Proof. intros H. unfold suff_stats. apply get_map. exact H. Qed.
Lemma in_cols_x k n i : In (KX i) (stat_cols k true n) <-> (i < k)%nat.
Proof.
  unfold stat_cols. rewrite !in_app_iff, !in_map_iff. split.
  - intros [[j [E H]]|[[j [E H]]|[[E|E]|[[j [E H]]|H]]]]; try discriminate.
    + injection E as ->. apply in_seq in H. lia.
    + destruct E.
    + destruct n; [destruct H as [H|H]; [discriminate|destruct H]|destruct H].
  - intros H. left. exists i. split; [reflexivity|apply in_seq; lia].
Qed.
Lemma in_cols_xx k n i j : In (KXX i j) (stat_cols k true n) <-> (i <= j < k)%nat.
Proof.
  unfold stat_cols. rewrite !in_app_iff, !in_map_iff. split.
  - intros [[a [E H]]|[[a [E H]]|[[E|E]|[[a [E H]]|H]]]]; try discriminate.
    + destruct a as [a b]. injection E as <- <-. apply triu_in in H. exact H.
    + destruct E.
    + destruct n; [destruct H as [H|H]; [discriminate|destruct H]|destruct H].
  - intros H. right. left. exists (i, j). split; [reflexivity|apply triu_in; exact H].
Qed.
Lemma in_cols_xy k n i : In (KXY i) (stat_cols k true n) <-> (i < k)%nat.
Proof.
  unfold stat_cols. rewrite !in_app_iff, !in_map_iff. split.
  - intros [[a [E H]]|[[a [E H]]|[[E|E]|[[a [E H]]|H]]]]; try discriminate.
    + destruct E.
    + injection E as ->. apply in_seq in H. lia.
    + destruct n; [destruct H as [H|H]; [discriminate|destruct H]|destruct H].
  - intros H. right. right. right. left. exists i. split; [reflexivity|apply in_seq; lia].
Qed.
Lemma in_cols_y k n : In KY (stat_cols k true n).
Proof. unfold stat_cols. rewrite !in_app_iff. right. right. left. left. reflexivity. Qed.

Lemma center_x_spec k n rows : rows <> [] ->
  center_x (suff_stats k true n rows) k = suff_stats k true n (data_centered k rows).
Proof.
  intros Hr. unfold center_x.
  match goal with |- map ?f _ = _ => change (map f (map (fun c => (c, stat_value rows c)) (stat_cols k true n))
     = map (fun c => (c, stat_value (data_centered k rows) c)) (stat_cols k true n)) end.
  rewrite map_map. apply map_ext_in.
  intros c Hc. destruct c as [i|i j| |i|]; cbn [stat_value].
  - apply in_cols_x in Hc. replace (Nat.ltb i k) with true by (symmetry; apply Nat.ltb_lt; exact Hc).
    rewrite centered_avg by assumption. reflexivity.
  - apply in_cols_xx in Hc.
    replace (Nat.ltb i k) with true by (symmetry; apply Nat.ltb_lt; lia).
    replace (Nat.leb i j) with true by (symmetry; apply Nat.leb_le; lia).
    replace (Nat.ltb j k) with true by (symmetry; apply Nat.ltb_lt; lia).
    cbn [andb]. rewrite !stats_get_in by (apply in_cols_x; lia). cbn [stat_value or0].
    rewrite centered_xx by (try assumption; lia). reflexivity.
  - rewrite centered_y. reflexivity.
  - apply in_cols_xy in Hc. replace (Nat.ltb i k) with true by (symmetry; apply Nat.ltb_lt; exact Hc).
    rewrite !stats_get_in by (try apply in_cols_x; try apply in_cols_y; exact Hc). cbn [stat_value or0].
    rewrite centered_xy by assumption. reflexivity.
  - unfold data_centered. rewrite map_length. reflexivity.
Qed.

(** ** the loss *)
Lemma elastic_objective k fit l1 l2 rows w : rows <> [] ->
  elastic_loss k fit l1 l2 rows w
  = avg (fun r => resp r ^ 2) rows / 2 + objective (n_coef k fit) (smooth (n_coef k fit) (gram fit rows) (gvec fit rows)) l1 l2 (free0 fit) (coef w).
Proof.
  intros Hr. assert (Hn := size_pos rows Hr). unfold elastic_loss. rewrite sq_error_avg by exact Hr.
  rewrite (penalty_sum k fit w (fun x => Rabs x)), (penalty_sum k fit w (fun x => x ^ 2)).
  unfold objective, smooth, penal. change (mask (free0 fit)) with (pen fit).
  rewrite (fsum_ext _ (fun i => pen fit i * (l1 * _ + _)) (fun i => l1 * (pen fit i * Rabs (coef w i)) + l2 / 2 * (pen fit i * coef w i ^ 2))) by (intros; ring).
  rewrite fsum_plus, !fsum_scal. field. lra.
Qed.
Lemma objective_mat_ext d A A' b b' l1 l2 fit w : (forall i j, (i < d)%nat -> (j < d)%nat -> A i j = A' i j) -> (forall i, (i < d)%nat -> b i = b' i) ->
  objective d (smooth d A b) l1 l2 (free0 fit) w = objective d (smooth d A' b') l1 l2 (free0 fit) w.
Proof.
  intros HA Hb. unfold objective, smooth, qform. rewrite (bil_mat_ext d A A' w w HA).
  rewrite (fsum_ext d (fun i => b i * w i) (fun i => b' i * w i)); [reflexivity|]. intros i Hi. rewrite Hb by exact Hi. reflexivity.
Qed.
Definition step_of lam := (1 - / 1000000) / lam.
Lemma step_pos lam : 0 < lam -> 0 < step_of lam.
Proof. intros H. unfold step_of. apply Rmult_lt_0_compat; [lra|apply Rinv_0_lt_compat; exact H]. Qed.
Lemma bound_step k fit lam rows u : 0 < lam -> design_bound k fit lam rows ->
  step_of lam * bil (n_coef k fit) (gram fit rows) u u <= fsum (n_coef k fit) (fun i => u i * u i).
Proof.
  intros Hl H. destruct (list_of_vec (n_coef k fit) u) as [l [Hlen Hv]]. specialize (H l Hlen).
  rewrite gram_quad.
  rewrite (avg_ext _ (fun r => predict k fit l r ^ 2)).
  2:{ intros r _. rewrite predict_zf. apply (f_equal (fun z => z ^ 2)). apply fsum_ext. intros i Hi. rewrite Hv by exact Hi. reflexivity. }
  fold (avg (fun r => predict k fit l r ^ 2) rows) in H.
  rewrite (fsum_ext _ (fun i => nth i l 0 ^ 2) (fun i => u i * u i)) in H.
  2:{ intros i Hi. rewrite <- Hv by exact Hi. unfold coef. ring. }
  set (q := fsum (n_coef k fit) (fun i => u i * u i)) in *. set (a := avg _ _) in *.
  assert (Ha : 0 <= a) by (apply avg_nonneg; intros; apply pow2_ge_0).
  assert (E : step_of lam * a <= / lam * a).
  { apply Rmult_le_compat_r; [exact Ha|]. unfold step_of, Rdiv. assert (0 < / lam) by (apply Rinv_0_lt_compat; exact Hl). lra. }
  eapply Rle_trans; [exact E|]. apply (Rmult_le_reg_l lam); [exact Hl|].
  rewrite <- Rmult_assoc, Rinv_r, Rmult_1_l by lra. exact H.
Qed.

(** the result of the loop on the statistics of [rows] *)
Lemma fista_on_rows k fit l1 l2 tol max_iter lam init rows :
  rows <> [] -> (0 < k)%nat -> (0 < max_iter)%nat -> 0 <= l1 -> 0 <= l2 -> 0 < lam -> design_bound k fit lam rows ->
  exists A b, construct_matrix (suff_stats k fit false rows) fit = Some (n_coef k fit, A, b)
  /\ let c := map (fista (n_coef k fit) A (fun i => nth i b 0) l1 l2 lam tol max_iter fit init) (seq 0 (n_coef k fit)) in
  exists N, (1 <= N <= max_iter)%nat /\ (N = max_iter \/ 0 < tol)
   /\ forall star, minimizes (n_coef k fit) (elastic_loss k fit l1 l2 rows) star ->
      elastic_loss k fit l1 l2 rows c - elastic_loss k fit l1 l2 rows star
      <= 2 * fsum (n_coef k fit) (fun i => (init i - nth i star 0) * (init i - nth i star 0)) / (step_of lam * ((INR N + 1) * (INR N + 1))).
Proof.
  intros Hr Hk Hm H1 H2 Hl HB. destruct (construct_spec k fit false rows Hr Hk) as [A [b [E [HA [_ Hb]]]]].
  exists A, b. split; [exact E|]. set (d := n_coef k fit) in *. intros c.
  destruct (loop_iterate d A (fun i => nth i b 0) l1 l2 (step_of lam) fit tol init max_iter 0) as [N [HN [HN' [EN Hstop]]]].
  cbn [run] in EN. exists N. split; [lia|]. split.
  { destruct Hstop as [->|Hs]; [left; lia|right]. eapply Rle_lt_trans; [|exact Hs]. apply fsum_nonneg. intros. apply Rabs_pos. }
  intros star Hstar. destruct N as [|N]; [lia|].
  assert (Esym : forall i j, (i < d)%nat -> (j < d)%nat -> A i j = A j i) by (intros; rewrite !HA by assumption; apply gram_sym).
  assert (Epsd : forall u, 0 <= bil d A u u) by (intros u; rewrite (bil_mat_ext d A (gram fit rows) u u HA); apply gram_psd).
  assert (Estep : forall u, step_of lam * bil d A u u <= fsum d (fun i => u i * u i)).
  { intros u. rewrite (bil_mat_ext d A (gram fit rows) u u HA). apply bound_step; assumption. }
  assert (Eobj : forall w, objective d (smooth d (gram fit rows) (gvec fit rows)) l1 l2 (free0 fit) w = objective d (smooth d A (fun i => nth i b 0)) l1 l2 (free0 fit) w).
  { intros w. symmetry. apply objective_mat_ext; assumption. }
  assert (Eext : forall u v, (forall i, (i < d)%nat -> u i = v i) -> smooth d A (fun i => nth i b 0) u = smooth d A (fun i => nth i b 0) v).
  { intros u v Huv. unfold smooth. rewrite (qform_ext d A _ u v Huv). reflexivity. }
  assert (Eopt : forall v, objective d (smooth d A (fun i => nth i b 0)) l1 l2 (free0 fit) (coef star) <= objective d (smooth d A (fun i => nth i b 0)) l1 l2 (free0 fit) v).
  { intros v. destruct (list_of_vec d v) as [l [Hlen Hv]]. destruct Hstar as [_ Hs]. specialize (Hs l Hlen).
    rewrite !elastic_objective in Hs by exact Hr. fold d in Hs. rewrite !Eobj in Hs.
    rewrite (objective_ext d (smooth d A (fun i => nth i b 0)) l1 l2 (free0 fit) Eext (coef l) v Hv) in Hs. lra. }
  assert (Q := fista_rate d (smooth d A (fun i => nth i b 0)) (qgrad d A (fun i => nth i b 0)) l1 l2 (step_of lam) (free0 fit) Eext
    (fun u v => quad_below d A (fun i => nth i b 0) u v Esym Epsd) (fun u v => quad_above d A (fun i => nth i b 0) (step_of lam) u v Esym Estep)
    (step_pos lam Hl) H1 H2 (coef star) Eopt init N).
  rewrite !elastic_objective by exact Hr. fold d. rewrite !Eobj.
  rewrite (objective_ext d (smooth d A (fun i => nth i b 0)) l1 l2 (free0 fit) Eext (coef c) (xk (qgrad d A (fun i => nth i b 0)) l1 l2 (step_of lam) (free0 fit) init (S N))).
  - eapply Rle_trans; [|exact Q]. lra.
  - intros i Hi. unfold coef, c. rewrite nth_map_seq by exact Hi. unfold fista, xk. rewrite <- EN. reflexivity.
Qed.

(** ** intercept of centered data *)
Section Intercept.
  Variables (k : nat) (rows : list row) (l1 l2 : R).
  Hypothesis Hr : rows <> [].
  Notation cr := (data_centered k rows).
  Lemma shift_loss a c : List.length c = k ->
    elastic_loss k true l1 l2 rows ((a - fsum k (fun i => mean_x rows i * nth i c 0)) :: c) = elastic_loss k true l1 l2 cr (a :: c).
  Proof.
    intros Hc. unfold elastic_loss. unfold data_centered at 2. rewrite map_length.
    replace (squared_error k true cr (a :: c)) with (squared_error k true rows ((a - fsum k (fun i => mean_x rows i * nth i c 0)) :: c)); [reflexivity|].
    unfold squared_error, data_centered. rewrite map_map. apply Rsum_map_ext. intros r _. apply (f_equal (fun z => z ^ 2)).
    unfold resp at 2. cbn [snd]. apply (f_equal (fun z => resp r - z)). unfold predict, intercept, slope. cbn [nth].
    rewrite (fsum_ext k (fun i => nth i c 0 * feat i (map _ _, _)) (fun i => nth i c 0 * feat i r - mean_x rows i * nth i c 0)).
    - rewrite fsum_minus. lra.
    - intros i Hi. rewrite feat_centered by exact Hi. unfold mean_x, avg. ring.
  Qed.
  Lemma best_intercept a c : elastic_loss k true l1 l2 cr (mean_y rows :: c) <= elastic_loss k true l1 l2 cr (a :: c).
  Proof.
    assert (Hc := centered_nonempty k rows Hr).
    rewrite !elastic_objective by exact Hc. apply Rplus_le_compat_l.
    assert (Ep : penal (n_coef k true) l1 l2 (free0 true) (coef (mean_y rows :: c)) = penal (n_coef k true) l1 l2 (free0 true) (coef (a :: c))).
    { unfold penal. cbn [n_coef]. rewrite !fsum_shift. unfold mask, free0. cbn [andb Nat.eqb]. unfold coef. cbn [nth]. lra. }
    unfold objective. rewrite Ep. apply Rplus_le_compat_r. unfold smooth.
    set (A := gram true cr). set (b := gvec true cr). set (w := coef (mean_y rows :: c)). set (v := coef (a :: c)).
    rewrite (qform_expand (n_coef k true) A (fun i j _ _ => gram_sym true cr i j) b w v).
    assert (P := gram_psd k true cr (fun i => v i - w i)). fold A in P.
    assert (Z : fsum (n_coef k true) (fun i => (v i - w i) * qgrad (n_coef k true) A b w i) = 0).
    { cbn [n_coef]. rewrite fsum_shift, (fsum_zero k (fun i => (v (S i) - w (S i)) * _)).
      2:{ intros i _. unfold v, w, coef. cbn [nth]. lra. }
      assert (G : qgrad (S k) A b w 0 = 0); [|rewrite G; lra].
      unfold qgrad. rewrite fsum_shift, (fsum_zero k).
      - unfold A, b, gram, gvec, w, coef. cbn [nth zf]. rewrite (avg_ext _ (fun _ => 1)) by (intros; lra). rewrite avg_const by exact Hc.
        rewrite (avg_ext _ resp) by (intros; lra). rewrite centered_y. unfold mean_y. fold (avg resp rows). lra.
      - intros i Hi. unfold A, gram. cbn [zf]. rewrite (avg_ext _ (feat i)) by (intros; lra). rewrite centered_avg by assumption. lra. }
    rewrite Z. lra.
  Qed.
  Lemma centered_min star : minimizes (S k) (elastic_loss k true l1 l2 rows) star ->
    minimizes (S k) (elastic_loss k true l1 l2 cr) (mean_y rows :: tl star)
    /\ elastic_loss k true l1 l2 cr (mean_y rows :: tl star) <= elastic_loss k true l1 l2 rows star.
  Proof.
    intros [Hlen H]. destruct star as [|s0 c]; [discriminate|]. cbn in Hlen. injection Hlen as Hc. cbn [tl].
    assert (E : elastic_loss k true l1 l2 cr (mean_y rows :: c) <= elastic_loss k true l1 l2 rows (s0 :: c)).
    { replace (s0 :: c) with (((s0 + fsum k (fun i => mean_x rows i * nth i c 0)) - fsum k (fun i => mean_x rows i * nth i c 0)) :: c) by (f_equal; ring).
      rewrite shift_loss by exact Hc. apply best_intercept. }
    split; [|exact E]. split; [cbn; congruence|]. intros v Hv. destruct v as [|a v]; [discriminate|]. cbn in Hv. injection Hv as Hv.
    rewrite <- (shift_loss a v Hv). eapply Rle_trans; [exact E|]. apply H. cbn. congruence.
  Qed.
End Intercept.

(** ** everything together *)
Lemma elastic_coefs_rate k fit l1 l2 tol max_iter lam init rows :
  rows <> [] -> (0 < k)%nat -> (0 < max_iter)%nat -> 0 <= l1 -> 0 <= l2 -> 0 < lam -> design_bound k fit lam (fit_data k fit rows) ->
  exists w N, elastic_coefs k fit l1 l2 tol max_iter lam init (suff_stats k fit false rows) = Some w
   /\ List.length w = n_coef k fit /\ (fit = true -> intercept fit w = mean_y rows - fsum k (fun i => mean_x rows i * slope fit w i))
   /\ (1 <= N <= max_iter)%nat /\ (N = max_iter \/ 0 < tol)
   /\ forall star, minimizes (n_coef k fit) (elastic_loss k fit l1 l2 rows) star ->
      elastic_loss k fit l1 l2 rows w - elastic_loss k fit l1 l2 rows star
      <= 2 * start_distance k fit rows init star / (step_of lam * (INR N + 1) ^ 2).
Proof.
  intros Hr Hk Hm H1 H2 Hl HB. destruct fit; cbn [fit_data] in HB; [change (design_bound k true lam (data_centered k rows)) in HB|].
  - destruct (fista_on_rows k true l1 l2 tol max_iter lam init (data_centered k rows) (centered_nonempty k rows Hr) Hk Hm H1 H2 Hl HB)
      as [A [b [E [N [HN [Ht H]]]]]].
    unfold elastic_coefs. rewrite center_x_spec by exact Hr. rewrite E.
    set (c0 := map _ (seq 0 (n_coef k true))) in *. change (n_coef k true) with (S k) in *.
    assert (Hc0 : List.length c0 = S k) by (unfold c0; rewrite map_length, seq_length; reflexivity).
    destruct c0 as [|x0 c]; [discriminate|]. cbn in Hc0. injection Hc0 as Hc. cbn [tl].
    rewrite stats_get_in by apply in_cols_y.
    rewrite (map_ext_in _ (mean_x rows)).
    2:{ intros i Hi. apply in_seq in Hi. rewrite stats_get_in by (apply in_cols_x; lia). reflexivity. }
    rewrite dot_fsum by exact Hc. cbn [stat_value or0].
    do 2 eexists. split; [reflexivity|].
    assert (Ew : avg resp rows - fsum k (fun i => nth i c 0 * mean_x rows i) = mean_y rows - fsum k (fun i => mean_x rows i * nth i c 0)).
    { unfold mean_y. fold (avg resp rows). apply (f_equal (fun z => avg resp rows - z)). apply fsum_ext. intros. lra. }
    rewrite Ew. split; [cbn; congruence|]. split; [intros _; reflexivity|]. split; [exact HN|]. split; [exact Ht|].
    intros star Hs. destruct (centered_min k rows l1 l2 Hr star Hs) as [Hs' Hle]. specialize (H _ Hs').
    rewrite shift_loss by exact Hc. assert (Hb := best_intercept k rows l1 l2 Hr x0 c).
    replace (start_distance k true rows init star) with (fsum (S k) (fun i => (init i - nth i (mean_y rows :: tl star) 0) * (init i - nth i (mean_y rows :: tl star) 0))).
    + replace ((INR N + 1) ^ 2) with ((INR N + 1) * (INR N + 1)) by ring. lra.
    + unfold start_distance. rewrite fsum_shift. cbn [nth]. unfold slope. destruct Hs as [Hlen _]. destruct star as [|s0 sc]; [discriminate|]. cbn [tl nth].
      rewrite (fsum_ext k (fun i => (init (S i) - nth i sc 0) * _) (fun i => (init (S i) - nth i sc 0) ^ 2)) by (intros; ring). ring.
  - destruct (fista_on_rows k false l1 l2 tol max_iter lam init rows Hr Hk Hm H1 H2 Hl HB) as [A [b [E [N [HN [Ht H]]]]]].
    unfold elastic_coefs. rewrite E. do 2 eexists. split; [reflexivity|].
    split; [rewrite map_length, seq_length; reflexivity|]. split; [discriminate|]. split; [exact HN|]. split; [exact Ht|].
    intros star Hs. specialize (H star Hs). unfold start_distance. cbn [n_coef] in *.
    replace ((INR N + 1) ^ 2) with ((INR N + 1) * (INR N + 1)) by ring.
    rewrite (fsum_ext k (fun i => (init i - slope false star i) ^ 2) (fun i => (init i - nth i star 0) * (init i - nth i star 0))) by (intros; unfold slope; ring).
    rewrite Rplus_0_l. exact H.
Qed.

(** ** with normalization *)
Lemma norm_agree k rows i : (i < k)%nat -> sqrt (norm_squared (data_centered k rows) i) = norm_x rows i.
Proof.
  intros Hi. unfold norm_squared, norm_x, data_centered. rewrite map_map. apply f_equal. apply Rsum_map_ext.
  intros r _. rewrite feat_centered by exact Hi. reflexivity.
Qed.
Lemma data_normalized_eq k rows : data_normalized k rows = normalized k rows.
Proof.
  unfold data_normalized, normalized. unfold data_centered at 2. rewrite map_map. apply map_ext. intros r. unfold resp at 1. cbn [snd].
  f_equal. apply map_ext_in. intros i Hi. apply in_seq in Hi. rewrite norm_agree, feat_centered by lia. reflexivity.
Qed.
Lemma normalized_avg k rows i : rows <> [] -> (i < k)%nat -> avg (feat i) (normalized k rows) = 0.
Proof.
  intros Hr Hi. unfold normalized. rewrite avg_map. rewrite (avg_ext _ (fun r => / norm_x rows i * (feat i r - mean_x rows i))).
  - rewrite avg_scal, avg_centered by exact Hr. lra.
  - intros r _. rewrite feat_normalized by exact Hi. lra.
Qed.
Lemma normalized_stats_eq k rows : rows <> [] -> normalized_stats k rows = suff_stats k true false (normalized k rows).
Proof.
  intros Hr. unfold normalized_stats, suff_stats, stat_cols. rewrite data_normalized_eq, app_nil_r, (map_app _ (map KX (seq 0 k))). f_equal.
  rewrite map_map. apply map_ext_in. intros i Hi. apply in_seq in Hi. cbn [stat_value]. rewrite normalized_avg by (try assumption; lia). reflexivity.
Qed.
Lemma centered_normalized k rows : rows <> [] -> data_centered k (normalized k rows) = normalized k rows.
Proof.
  intros Hr. transitivity (map (fun r : row => r) (normalized k rows)); [|apply map_id]. unfold data_centered. apply map_ext_in.
  intros r Hin. assert (Hl : List.length (fst r) = k).
  { unfold normalized in Hin. apply in_map_iff in Hin. destruct Hin as [r0 [<- _]]. cbn [fst]. rewrite map_length, seq_length. reflexivity. }
  destruct r as [x y]. cbn [fst] in Hl. unfold resp. cbn [snd]. f_equal.
  apply (nth_ext _ _ 0 0); [rewrite map_length, seq_length; symmetry; exact Hl|].
  intros i Hi. rewrite map_length, seq_length in Hi. rewrite nth_map_seq by exact Hi. rewrite normalized_avg by assumption. unfold feat. cbn [fst]. lra.
Qed.
Lemma normalized_coef_eq k rows w : compute_normalized_coef k rows w = rescaled k rows w.
Proof.
  unfold compute_normalized_coef, rescaled.
  assert (E : map (fun i => nth (S i) w 0 / sqrt (norm_squared (data_centered k rows) i)) (seq 0 k) = map (fun i => slope true w i / norm_x rows i) (seq 0 k)).
  { apply map_ext_in. intros i Hi. apply in_seq in Hi. rewrite norm_agree by lia. reflexivity. }
  rewrite E. f_equal. unfold mean_y. fold (avg resp rows). apply (f_equal (fun z => avg resp rows - z)).
  set (c := map (fun i => slope true w i / norm_x rows i) (seq 0 k)).
  assert (Hc : List.length c = k) by (unfold c; rewrite map_length, seq_length; reflexivity).
  assert (D : forall a b, dot a b = dot b a).
  { unfold dot. induction a as [|x a IH]; intros [|y b]; cbn; try reflexivity. rewrite IH. lra. }
  rewrite D, dot_fsum by exact Hc. apply fsum_ext. intros. unfold mean_x. fold (avg (feat i) rows). lra.
Qed.

(** C19-C21: leaf metrics. *)
From Coq Require Import Reals List Bool String ZArith Lia Lra.
From Verif Require Import M_Num M_Frame M_Leaf S_Leaf.
Import ListNotations.
Open Scope R_scope.

(** ** expansion *)
Definition rank (l : leafm) : nat :=
  match l with
  | LSum _ | LCount _ | LOther _ => 0
  | LDot _ _ _ | LMean _ None => 1
  | LMean _ (Some _) => 2
  | LVar _ _ (Some _) => 2
  | LCov _ _ _ _ _ => 3
  | LVar _ _ None => 4
  | LSD _ _ _ => 5
  | LCV _ _ | LCorr _ _ _ => 6
  end.
Fixpoint trank (t : etree) : nat :=
  match t with
  | ELeaf l => rank l
  | ENum _ => 0
  | EAdd a b | ESub a b | EMul a b | EDiv a b => Nat.max (trank a) (trank b)
  | ESqrt a | ESq a => trank a
  end.
Lemma rank_equivalent l e : equivalent l = Some e -> (trank e < rank l)%nat.
Proof.
  destruct l as [c|c|a b [|]|c [w|]|c d [w|]|c d w|c d|a b d [w|] [f|]|a b w|agg]; cbn; intros H; try discriminate; injection H as <-;
    unfold cov_equivalent; try destruct (Z.eqb d 0); cbn; try lia; destruct w; cbn; lia.
Qed.
Lemma trank_expand t : (trank (expand t) <= trank t - 1)%nat.
Proof.
  induction t; cbn; try lia. destruct (equivalent l) as [e|] eqn:E; [apply rank_equivalent in E; lia|].
  cbn. destruct l as [?|?|? ? [|]|? [|]|? ? [|]|? ? ?|? ?|? ? ? ? ?|? ? ?|?]; try discriminate; cbn; lia.
Qed.
Lemma expand_fix t : trank t = 0%nat -> expand t = t.
Proof.
  induction t; cbn; intros H; try (rewrite ?IHt1, ?IHt2, ?IHt by lia; reflexivity).
  destruct l as [?|?|? ? [|]|? [|]|? ? [|]|? ? ?|? ?|? ? ? ? ?|? ? ?|?]; try discriminate; reflexivity.
Qed.
Lemma trank_iter n t : (trank (Nat.iter n expand t) <= trank t - n)%nat.
Proof.
  induction n as [|n IH]; [cbn; lia|]. change (Nat.iter (S n) expand t) with (expand (Nat.iter n expand t)).
  pose proof (trank_expand (Nat.iter n expand t)). lia.
Qed.
Lemma rank_6 l : (rank l <= 6)%nat.
Proof. destruct l as [?|?|? ? ?|? [|]|? ? [|]|? ? ?|? ?|? ? ? ? ?|? ? ?|?]; cbn; lia. Qed.
Lemma trank_6 t : (trank t <= 6)%nat.
Proof. induction t; cbn; try lia. apply rank_6. Qed.
Lemma full_rank t : trank (full t) = 0%nat.
Proof. pose proof (trank_iter 6 t). pose proof (trank_6 t). unfold full. lia. Qed.
Lemma full_fix t : expand (full t) = full t.
Proof. apply expand_fix, full_rank. Qed.
Lemma expands_full t e : expands_to t e -> e = full t.
Proof.
  intros [n [-> H]]. unfold full.
  assert (forall m, Nat.iter (m + n) expand t = Nat.iter n expand t) as HA.
  { induction m as [|m IH]; auto. cbn [Nat.add]. change (Nat.iter (S (m + n)) expand t) with (expand (Nat.iter (m + n) expand t)). rewrite IH. exact H. }
  assert (forall m, Nat.iter (m + 6) expand t = Nat.iter 6 expand t) as HB.
  { induction m as [|m IH]; auto. cbn [Nat.add]. change (Nat.iter (S (m + 6)) expand t) with (expand (Nat.iter (m + 6) expand t)).
    rewrite IH. apply full_fix. }
  destruct (Nat.le_ge_cases n 6) as [L|L].
  - rewrite <- (HA (6 - n)%nat). f_equal. lia.
  - rewrite <- (HB (n - 6)%nat). f_equal. lia.
Qed.

(** ** sums over rows *)
Section Sums.
  Context {A : Type}.
  Implicit Types (f g w x y : A -> R) (rows : list A).
  Lemma sum_of_ext f g rows : (forall r, In r rows -> f r = g r) -> sum_of f rows = sum_of g rows.
  Proof. unfold sum_of. intros H. f_equal. now apply map_ext_in. Qed.
  Lemma sum_of_plus f g rows : sum_of (fun r => f r + g r) rows = sum_of f rows + sum_of g rows.
  Proof. unfold sum_of. induction rows; cbn; lra. Qed.
  Lemma sum_of_scal c f rows : sum_of (fun r => c * f r) rows = c * sum_of f rows.
  Proof. unfold sum_of. induction rows; cbn; lra. Qed.
  Lemma sum_of_const c rows : sum_of (fun _ => c) rows = c * size rows.
  Proof. unfold sum_of, size. induction rows as [|r rows IH]; [cbn; lra|]. cbn [map Rsum List.length]. rewrite IH, S_INR. lra. Qed.
  Lemma sum_of_nonneg f rows : (forall r, In r rows -> 0 <= f r) -> 0 <= sum_of f rows.
  Proof. unfold sum_of. induction rows as [|r rows IH]; cbn; intros H; [lra|]. pose proof (H r (or_introl eq_refl)). assert (0 <= Rsum (List.map f rows)) by auto. lra. Qed.
  Lemma size_pos rows : rows <> [] -> 0 < size rows.
  Proof. unfold size. destruct rows; [congruence|]. intros _. apply lt_0_INR. cbn; lia. Qed.
  (** the computational formula *)
  Lemma wcross_formula w x y rows : sum_of w rows <> 0 ->
    wcross w x y rows = sum_of (fun r => w r * (x r * y r)) rows - sum_of (fun r => w r * x r) rows * sum_of (fun r => w r * y r) rows / sum_of w rows.
  Proof.
    intros H. unfold wcross, wmean_of. set (W := sum_of w rows) in *. set (X := sum_of (fun r => w r * x r) rows). set (Y := sum_of (fun r => w r * y r) rows).
    rewrite (sum_of_ext _ (fun r => w r * (x r * y r) + ((- (Y / W)) * (w r * x r) + ((- (X / W)) * (w r * y r) + (X / W * (Y / W)) * w r)))) by (intros; ring).
    rewrite !sum_of_plus, !sum_of_scal. fold W X Y. field. exact H.
  Qed.
  Lemma wcross_ext w w' x x' y y' rows : (forall r, In r rows -> w r = w' r) -> (forall r, In r rows -> x r = x' r) -> (forall r, In r rows -> y r = y' r) ->
    wcross w x y rows = wcross w' x' y' rows.
  Proof.
    intros Hw Hx Hy. assert (wmean_of w x rows = wmean_of w' x' rows) as E1.
    { unfold wmean_of. f_equal; apply sum_of_ext; auto. intros r Hr. now rewrite Hw, Hx. }
    assert (wmean_of w y rows = wmean_of w' y' rows) as E2.
    { unfold wmean_of. f_equal; apply sum_of_ext; auto. intros r Hr. now rewrite Hw, Hy. }
    unfold wcross. rewrite E1, E2. apply sum_of_ext. intros r Hr. now rewrite Hw, Hx, Hy.
  Qed.
  Lemma sum_of_1 rows : sum_of (fun _ => 1) rows = size rows.
  Proof. rewrite sum_of_const. lra. Qed.
  Lemma cross_formula x y rows : rows <> [] ->
    cross x y rows = sum_of (fun r => x r * y r) rows - sum_of x rows * sum_of y rows / size rows.
  Proof.
    intros H. pose proof (size_pos _ H). unfold cross. rewrite wcross_formula by (rewrite sum_of_1; lra). rewrite sum_of_1.
    f_equal; [apply sum_of_ext; intros; ring|]. f_equal. f_equal; apply sum_of_ext; intros; ring.
  Qed.
  Lemma wcross_nonneg w x rows : (forall r, In r rows -> 0 <= w r) -> 0 <= wcross w x x rows.
  Proof. intros H. apply sum_of_nonneg. intros r Hr. apply Rmult_le_pos; auto. apply Rle_0_sqr. Qed.
  (** Cauchy-Schwarz *)
  Lemma cauchy w x y rows : (forall r, In r rows -> 0 <= w r) ->
    (sum_of (fun r => w r * (x r * y r)) rows) ^ 2 <= sum_of (fun r => w r * (x r * x r)) rows * sum_of (fun r => w r * (y r * y r)) rows.
  Proof.
    intros Hw. set (A1 := sum_of (fun r => w r * (x r * x r)) rows). set (B := sum_of (fun r => w r * (y r * y r)) rows). set (C := sum_of (fun r => w r * (x r * y r)) rows).
    assert (forall s t, 0 <= s * s * A1 + 2 * s * t * C + t * t * B) as HQ.
    { intros s t. replace (s * s * A1 + 2 * s * t * C + t * t * B) with (sum_of (fun r => w r * ((s * x r + t * y r) * (s * x r + t * y r))) rows).
      - apply sum_of_nonneg. intros r Hr. apply Rmult_le_pos; auto. apply Rle_0_sqr.
      - unfold A1, B, C. rewrite <- !sum_of_scal, <- !sum_of_plus. apply sum_of_ext. intros; ring. }
    assert (0 <= B) as HB by (apply sum_of_nonneg; intros; apply Rmult_le_pos; auto; apply Rle_0_sqr).
    destruct (Req_dec B 0) as [E|E].
    - assert (C = 0) as HC.
      { destruct (Req_dec C 0) as [|N]; auto. exfalso. pose proof (HQ 1 (- (A1 + 1) / (2 * C))) as H. rewrite E in H.
        replace (1 * 1 * A1 + 2 * 1 * (- (A1 + 1) / (2 * C)) * C + - (A1 + 1) / (2 * C) * (- (A1 + 1) / (2 * C)) * 0) with (-1) in H by (field; exact N). lra. }
      rewrite HC, E. lra.
    - pose proof (HQ B (- C)) as H. replace (B * B * A1 + 2 * B * - C * C + - C * - C * B) with (B * (A1 * B - C ^ 2)) in H by ring.
      assert (0 < B) by lra. assert (0 <= A1 * B - C ^ 2); [|lra]. apply Rmult_le_reg_l with B; auto. lra.
  Qed.
  Lemma wcross_cauchy w x y rows : (forall r, In r rows -> 0 <= w r) -> (wcross w x y rows) ^ 2 <= wcross w x x rows * wcross w y y rows.
  Proof. intros H. unfold wcross. apply (cauchy w (fun r => x r - wmean_of w x rows) (fun r => y r - wmean_of w y rows)). exact H. Qed.
  Lemma wcross_affine w x y rows a b : sum_of w rows <> 0 -> wcross w (fun r => a * x r + b) y rows = a * wcross w x y rows.
  Proof.
    intros H. rewrite !wcross_formula by assumption.
    rewrite (sum_of_ext (fun r => w r * ((a * x r + b) * y r)) (fun r => a * (w r * (x r * y r)) + b * (w r * y r))) by (intros; ring).
    rewrite (sum_of_ext (fun r => w r * (a * x r + b)) (fun r => a * (w r * x r) + b * w r)) by (intros; ring).
    rewrite !sum_of_plus, !sum_of_scal. field. exact H.
  Qed.
  Lemma wcross_sym w x y rows : wcross w x y rows = wcross w y x rows.
  Proof. unfold wcross. apply sum_of_ext. intros; ring. Qed.
End Sums.

(** ** complete columns *)
Lemma xsum_complete c rows : complete c rows -> xsum (col_of c rows) = Fin (sum_of (at_ c) rows).
Proof.
  unfold col_of, sum_of, at_. induction 1 as [|r rows [a Ha] H IH]; auto.
  cbn [map Rsum]. unfold xsum in *. cbn [fold_right]. rewrite Ha. cbn [is_nan num_of]. rewrite IH. reflexivity.
Qed.
Lemma count_complete c rows : complete c rows -> count_present (col_of c rows) = List.length rows.
Proof.
  unfold count_present, col_of. induction 1 as [|r rows [a Ha] H IH]; auto.
  cbn [map filter]. rewrite Ha. cbn [is_nan negb List.length]. now rewrite IH.
Qed.
Lemma complete_times a b rows : complete a rows -> complete b rows -> complete (Times a b) rows.
Proof.
  unfold complete. rewrite !Forall_forall. intros Ha Hb r Hr. destruct (Ha r Hr) as [x Hx], (Hb r Hr) as [y Hy].
  exists (x * y). cbn. now rewrite Hx, Hy.
Qed.
Lemma complete_sq a rows : complete a rows -> complete (Squared a) rows.
Proof. apply (fun H => complete_times a a rows H H). Qed.
Lemma at_times a b rows r : complete a rows -> complete b rows -> In r rows -> at_ (Times a b) r = at_ a r * at_ b r.
Proof.
  unfold complete. rewrite !Forall_forall. intros Ha Hb Hr. destruct (Ha r Hr) as [x Hx], (Hb r Hr) as [y Hy].
  unfold at_. cbn. now rewrite Hx, Hy.
Qed.
Lemma at_sq a rows r : complete a rows -> In r rows -> at_ (Squared a) r = at_ a r * at_ a r.
Proof. intros H1 H2. exact (at_times a a rows r H1 H1 H2). Qed.
Lemma sum_times a b rows : complete a rows -> complete b rows -> sum_of (at_ (Times a b)) rows = sum_of (fun r => at_ a r * at_ b r) rows.
Proof. intros Ha Hb. apply sum_of_ext. intros r Hr. eapply at_times; eauto. Qed.

Lemma xdiv_fin a b : b <> 0 -> xdiv (Fin a) (Fin b) = Fin (a / b).
Proof. intros H. cbn. destruct (Req_EM_T b 0); [contradiction|reflexivity]. Qed.
Lemma xsqrt_fin a : 0 <= a -> xsqrt (Fin a) = Fin (sqrt a).
Proof. intros H. cbn. destruct (Rle_dec 0 a); [reflexivity|contradiction]. Qed.
Lemma xsqrt_neg a : a < 0 -> xsqrt (Fin a) = NaN.
Proof. intros H. cbn. destruct (Rle_dec 0 a); [lra|reflexivity]. Qed.
Lemma xsq_sqrt a : 0 <= a -> xsq (xsqrt (Fin a)) = Fin a.
Proof. intros H. rewrite xsqrt_fin by exact H. unfold xsq. cbn. now rewrite sqrt_sqrt. Qed.
Lemma xdiv_0 : xdiv (Fin 0) (Fin 0) = NaN.
Proof. cbn. destruct (Req_EM_T 0 0); [|lra]. unfold inf_times. destruct (Req_EM_T 0 0); [reflexivity|lra]. Qed.
Lemma xdiv_nan_r x : xdiv x NaN = NaN. Proof. now destruct x. Qed.
Lemma xsub_fin a b : xsub (Fin a) (Fin b) = Fin (a - b). Proof. reflexivity. Qed.
Lemma xmul_fin a b : xmul (Fin a) (Fin b) = Fin (a * b). Proof. reflexivity. Qed.

(** ** values of expanded trees *)
Definition V (t : etree) rows := evalt native_value (full t) rows.
Lemma iter_in n t : Nat.iter n expand (expand t) = expand (Nat.iter n expand t).
Proof. induction n as [|n IH]; [reflexivity|]. change (expand (Nat.iter n expand (expand t)) = expand (expand (Nat.iter n expand t))). now rewrite IH. Qed.
Lemma full_expand t : full (expand t) = full t.
Proof. unfold full. rewrite iter_in. apply full_fix. Qed.
Lemma V_leaf l e rows : equivalent l = Some e -> V (ELeaf l) rows = V e rows.
Proof. intros E. unfold V. rewrite <- (full_expand (ELeaf l)). cbn [expand]. now rewrite E. Qed.
Lemma iter_bin (F : etree -> etree -> etree) n a b : (forall a b, expand (F a b) = F (expand a) (expand b)) ->
  Nat.iter n expand (F a b) = F (Nat.iter n expand a) (Nat.iter n expand b).
Proof.
  intros H. induction n as [|n IH]; [reflexivity|].
  change (expand (Nat.iter n expand (F a b)) = F (expand (Nat.iter n expand a)) (expand (Nat.iter n expand b))). now rewrite IH, H.
Qed.
Lemma iter_un (F : etree -> etree) n a : (forall a, expand (F a) = F (expand a)) -> Nat.iter n expand (F a) = F (Nat.iter n expand a).
Proof.
  intros H. induction n as [|n IH]; [reflexivity|].
  change (expand (Nat.iter n expand (F a)) = F (expand (Nat.iter n expand a))). now rewrite IH, H.
Qed.
Lemma V_add a b rows : V (EAdd a b) rows = xadd (V a rows) (V b rows). Proof. unfold V, full. now rewrite iter_bin. Qed.
Lemma V_sub a b rows : V (ESub a b) rows = xsub (V a rows) (V b rows). Proof. unfold V, full. now rewrite iter_bin. Qed.
Lemma V_mul a b rows : V (EMul a b) rows = xmul (V a rows) (V b rows). Proof. unfold V, full. now rewrite iter_bin. Qed.
Lemma V_div a b rows : V (EDiv a b) rows = xdiv (V a rows) (V b rows). Proof. unfold V, full. now rewrite iter_bin. Qed.
Lemma V_sqrt a rows : V (ESqrt a) rows = xsqrt (V a rows). Proof. unfold V, full. now rewrite iter_un. Qed.
Lemma V_sq a rows : V (ESq a) rows = xsq (V a rows). Proof. unfold V, full. now rewrite iter_un. Qed.
Lemma V_num r rows : V (ENum r) rows = Fin r. Proof. reflexivity. Qed.
Lemma V_sum c rows : V (ELeaf (LSum c)) rows = xsum (col_of c rows). Proof. reflexivity. Qed.
Lemma V_count c rows : V (ELeaf (LCount c)) rows = Fin (INR (count_present (col_of c rows))). Proof. reflexivity. Qed.
Lemma V_dot a b rows : V (ELeaf (LDot a b false)) rows = xsum (col_of (Times a b) rows).
Proof. erewrite V_leaf by reflexivity. apply V_sum. Qed.
Lemma V_dotn a b rows : V (ELeaf (LDot a b true)) rows = xmean (col_of (Times a b) rows).
Proof. erewrite V_leaf by reflexivity. rewrite V_div, V_sum, V_count. reflexivity. Qed.
Lemma V_mean c rows : V (ELeaf (LMean c None)) rows = xmean (col_of c rows).
Proof. erewrite V_leaf by reflexivity. rewrite V_div, V_sum, V_count. reflexivity. Qed.
Lemma V_wmean c w rows : V (ELeaf (LMean c (Some w))) rows = xdiv (xsum (col_of (Times c w) rows)) (xsum (col_of w rows)).
Proof. erewrite V_leaf by reflexivity. rewrite V_div, V_dot, V_sum. reflexivity. Qed.
Lemma V_expanded l rows : expanded_value l rows = V (ELeaf l) rows. Proof. reflexivity. Qed.

Lemma mean_complete c rows : complete c rows -> rows <> [] -> xmean (col_of c rows) = Fin (mean_of (at_ c) rows).
Proof.
  intros H Hn. unfold xmean. rewrite xsum_complete, count_complete by assumption. pose proof (size_pos _ Hn) as Hs. unfold size in Hs.
  rewrite xdiv_fin by lra. reflexivity.
Qed.
Lemma wmean_complete c w rows : complete c rows -> complete w rows -> sum_of (at_ w) rows <> 0 ->
  V (ELeaf (LMean c (Some w))) rows = Fin (wmean_of (at_ w) (at_ c) rows).
Proof.
  intros Hc Hw Hn. rewrite V_wmean, !xsum_complete by auto using complete_times. rewrite xdiv_fin by assumption. unfold wmean_of. do 2 f_equal.
  rewrite sum_times by assumption. apply sum_of_ext. intros; ring.
Qed.

(** Cov with the weights [w] (a column), normalisation factor 1 - ddof * v2 / v1^2 *)
Lemma div_fact x d : 0 < d -> xdiv (Fin x) (xsq (xsqrt (Fin d))) = Fin (x / d).
Proof. intros H. rewrite xsq_sqrt by lra. apply xdiv_fin. lra. Qed.
Lemma div_fact_neg x d : d < 0 -> xdiv (Fin x) (xsq (xsqrt (Fin d))) = NaN.
Proof. intros H. rewrite xsqrt_neg by lra. reflexivity. Qed.
Lemma wcov_num a b w rows : complete a rows -> complete b rows -> complete w rows -> sum_of (at_ w) rows <> 0 ->
  V (ESub (ELeaf (LMean (Times a b) (Some w))) (EMul (ELeaf (LMean a (Some w))) (ELeaf (LMean b (Some w))))) rows =
  Fin (wcross (at_ w) (at_ a) (at_ b) rows / sum_of (at_ w) rows).
Proof.
  intros Ha Hb Hw Hn. rewrite V_sub, V_mul, !wmean_complete by auto using complete_times. rewrite xmul_fin, xsub_fin. f_equal.
  rewrite wcross_formula by assumption. unfold wmean_of.
  rewrite (sum_of_ext (fun r => at_ w r * at_ (Times a b) r) (fun r => at_ w r * (at_ a r * at_ b r))).
  - field. assumption.
  - intros r Hr. f_equal. eapply at_times; eauto.
Qed.
Lemma cov_num a b rows : complete a rows -> complete b rows -> rows <> [] ->
  V (ESub (ELeaf (LDot a b true)) (EMul (ELeaf (LMean a None)) (ELeaf (LMean b None)))) rows = Fin (cross (at_ a) (at_ b) rows / size rows).
Proof.
  intros Ha Hb Hn. rewrite V_sub, V_mul, V_dotn, !V_mean, !mean_complete by auto using complete_times. rewrite xmul_fin, xsub_fin. f_equal.
  pose proof (size_pos _ Hn). rewrite cross_formula by assumption. unfold mean_of. rewrite sum_times by assumption. field. lra.
Qed.
Lemma cov_value a b ddof rows : complete a rows -> complete b rows -> rows <> [] -> IZR ddof < size rows ->
  expanded_value (LCov a b ddof None None) rows = Fin (cross (at_ a) (at_ b) rows / (size rows - IZR ddof)).
Proof.
  intros Ha Hb Hn Hd. rewrite V_expanded; erewrite V_leaf by reflexivity. unfold cov_equivalent. pose proof (size_pos _ Hn) as Hs.
  destruct (Z.eqb ddof 0) eqn:E.
  - apply Z.eqb_eq in E as ->. rewrite cov_num by assumption. do 2 f_equal. lra.
  - rewrite V_div, cov_num, V_sq, V_sqrt, V_sub, V_div, !V_num, V_count, count_complete by assumption. change (INR (List.length rows)) with (size rows).
    rewrite xdiv_fin, xsub_fin by lra. rewrite div_fact.
    + f_equal. field. split; [lra|]. lra.
    + assert (IZR ddof / size rows < 1); [|lra]. apply Rmult_lt_reg_r with (size rows); auto. replace (IZR ddof / size rows * size rows) with (IZR ddof) by (field; lra). lra.
Qed.
Lemma cov_toolarge a b ddof rows : complete a rows -> complete b rows -> rows <> [] -> size rows < IZR ddof ->
  expanded_value (LCov a b ddof None None) rows = NaN.
Proof.
  intros Ha Hb Hn Hd. rewrite V_expanded; erewrite V_leaf by reflexivity. unfold cov_equivalent. pose proof (size_pos _ Hn) as Hs.
  destruct (Z.eqb ddof 0) eqn:E.
  - apply Z.eqb_eq in E as ->. exfalso. lra.
  - rewrite V_div, cov_num, V_sq, V_sqrt, V_sub, V_div, !V_num, V_count, count_complete by assumption. change (INR (List.length rows)) with (size rows).
    rewrite xdiv_fin, xsub_fin by lra. rewrite div_fact_neg; auto.
    assert (1 < IZR ddof / size rows); [|lra]. apply Rmult_lt_reg_r with (size rows); auto. replace (IZR ddof / size rows * size rows) with (IZR ddof) by (field; lra). lra.
Qed.
Lemma fcov_value a b f ddof rows : complete a rows -> complete b rows -> complete f rows -> 0 < sum_of (at_ f) rows -> IZR ddof < sum_of (at_ f) rows ->
  expanded_value (LCov a b ddof None (Some f)) rows = Fin (wcross (at_ f) (at_ a) (at_ b) rows / (sum_of (at_ f) rows - IZR ddof)).
Proof.
  intros Ha Hb Hf Hs Hd. rewrite V_expanded; erewrite V_leaf by reflexivity. unfold cov_equivalent.
  destruct (Z.eqb ddof 0) eqn:E.
  - apply Z.eqb_eq in E as ->. rewrite wcov_num by (auto; lra). do 2 f_equal. lra.
  - rewrite V_div, wcov_num, V_sq, V_sqrt, V_sub, V_div, !V_num, V_sum, xsum_complete by (auto; lra). set (W := sum_of (at_ f) rows) in *.
    rewrite xdiv_fin, xsub_fin by lra. rewrite div_fact.
    + f_equal. field. split; lra.
    + assert (IZR ddof / W < 1); [|lra]. apply Rmult_lt_reg_r with W; auto. replace (IZR ddof / W * W) with (IZR ddof) by (field; lra). lra.
Qed.
Lemma wfact W d v2 : W <> 0 -> d * v2 < W * W -> 0 < 1 - d * v2 / (W * W).
Proof.
  intros H1 H2. assert (0 < W * W) by (pose proof (Rle_0_sqr W) as H; unfold Rsqr in H; assert (W * W <> 0) by (intros E; apply Rmult_integral in E; tauto); lra).
  assert (d * v2 / (W * W) < 1); [|lra]. apply Rmult_lt_reg_r with (W * W); auto. replace (d * v2 / (W * W) * (W * W)) with (d * v2) by (field; assumption). lra.
Qed.
Lemma acov_value a b w ddof rows : complete a rows -> complete b rows -> complete w rows ->
  let W := sum_of (at_ w) rows in let W2 := sum_of (fun r => at_ w r * at_ w r) rows in
  W <> 0 -> IZR ddof * W2 < W * W ->
  expanded_value (LCov a b ddof (Some w) None) rows = Fin (wcross (at_ w) (at_ a) (at_ b) rows / (W - IZR ddof * W2 / W)).
Proof.
  intros Ha Hb Hf W W2 Hs Hd. rewrite V_expanded; erewrite V_leaf by reflexivity. unfold cov_equivalent. pose proof (wfact W (IZR ddof) W2 Hs Hd) as HF.
  destruct (Z.eqb ddof 0) eqn:E.
  - apply Z.eqb_eq in E as ->. rewrite wcov_num by auto. fold W. do 2 f_equal. field. exact Hs.
  - rewrite V_div, wcov_num, V_sq, V_sqrt, V_sub, V_div, V_mul, V_sq, !V_num, V_dot, V_sum, !xsum_complete by auto using complete_times.
    rewrite sum_times by assumption. fold W W2. unfold xsq at 2. rewrite !xmul_fin.
    rewrite xdiv_fin by (intros E1; apply Rmult_integral in E1; tauto). rewrite xsub_fin, div_fact by exact HF.
    f_equal. field. repeat split; auto.
    + intros E1. replace (W * W - IZR ddof * W2) with ((1 - IZR ddof * W2 / (W * W)) * (W * W)) in E1 by (field; auto).
      apply Rmult_integral in E1 as [E1|E1]; [lra|apply Rmult_integral in E1; tauto].
Qed.
Lemma afcov_value a b w f ddof rows : complete a rows -> complete b rows -> complete w rows -> complete f rows ->
  let wf := fun r => at_ w r * at_ f r in
  let W := sum_of wf rows in let W2 := sum_of (fun r => wf r * at_ w r) rows in
  W <> 0 -> IZR ddof * W2 < W * W ->
  expanded_value (LCov a b ddof (Some w) (Some f)) rows = Fin (wcross wf (at_ a) (at_ b) rows / (W - IZR ddof * W2 / W)).
Proof.
  intros Ha Hb Hw Hf wf W W2 Hs Hd. rewrite V_expanded; erewrite V_leaf by reflexivity. unfold cov_equivalent. pose proof (wfact W (IZR ddof) W2 Hs Hd) as HF.
  assert (complete (Times f w) rows) as Hfw by auto using complete_times.
  assert (sum_of (at_ (Times f w)) rows = W) as EW.
  { rewrite sum_times by assumption. apply sum_of_ext. intros. unfold wf. ring. }
  assert (wcross (at_ (Times f w)) (at_ a) (at_ b) rows = wcross wf (at_ a) (at_ b) rows) as EC.
  { apply wcross_ext; auto. intros r Hr. rewrite (at_times f w rows r) by assumption. unfold wf. ring. }
  destruct (Z.eqb ddof 0) eqn:E.
  - apply Z.eqb_eq in E as ->. rewrite wcov_num by (auto; congruence). rewrite EW, EC. do 2 f_equal. field. exact Hs.
  - rewrite V_div, wcov_num, V_sq, V_sqrt, V_sub, V_div, V_mul, V_sq, !V_num, !V_dot, !xsum_complete by (auto using complete_times; congruence).
    rewrite EW, EC.
    replace (sum_of (at_ (Times w f)) rows) with W by (rewrite sum_times by assumption; reflexivity).
    replace (sum_of (at_ (Times (Times f w) w)) rows) with W2.
    2:{ rewrite sum_times by assumption. apply sum_of_ext. intros r Hr. rewrite (at_times f w rows r) by assumption. unfold wf. ring. }
    unfold xsq at 2. rewrite !xmul_fin.
    rewrite xdiv_fin by (intros E1; apply Rmult_integral in E1; tauto). rewrite xsub_fin, div_fact by exact HF.
    f_equal. field. repeat split; auto.
    + intros E1. replace (W * W - IZR ddof * W2) with ((1 - IZR ddof * W2 / (W * W)) * (W * W)) in E1 by (field; auto).
      apply Rmult_integral in E1 as [E1|E1]; [lra|apply Rmult_integral in E1; tauto].
Qed.
(** weighted Variance *)
Lemma wvar_num c w rows : complete c rows -> complete w rows -> sum_of (at_ w) rows <> 0 ->
  V (ESub (ELeaf (LDot (Squared c) w false)) (EDiv (ESq (ELeaf (LDot c w false))) (ELeaf (LSum w)))) rows =
  Fin (wcross (at_ w) (at_ c) (at_ c) rows).
Proof.
  intros Hc Hw Hn. rewrite V_sub, V_div, V_sq, !V_dot, V_sum, !xsum_complete by auto using complete_times, complete_sq.
  unfold xsq. rewrite xmul_fin, xdiv_fin, xsub_fin by assumption. f_equal. rewrite wcross_formula by assumption.
  rewrite !sum_times by auto using complete_sq. f_equal.
  - apply sum_of_ext. intros r Hr. rewrite (at_sq c rows r) by assumption. ring.
  - f_equal. f_equal; apply sum_of_ext; intros; ring.
Qed.
Lemma wvar_value c w ddof rows : complete c rows -> complete w rows -> 0 < sum_of (at_ w) rows -> IZR ddof < sum_of (at_ w) rows ->
  expanded_value (LVar c ddof (Some w)) rows = Fin (wcross (at_ w) (at_ c) (at_ c) rows / (sum_of (at_ w) rows - IZR ddof)).
Proof.
  intros Hc Hw Hs Hd. rewrite V_expanded; erewrite V_leaf by reflexivity. rewrite V_div, wvar_num, V_sq, V_sqrt by (auto; lra).
  destruct (Z.eqb ddof 0) eqn:E.
  - apply Z.eqb_eq in E as ->. rewrite V_sum, xsum_complete, div_fact by auto. do 2 f_equal. lra.
  - rewrite V_sub, V_sum, V_num, xsum_complete, xsub_fin, div_fact by (auto; lra). reflexivity.
Qed.
Lemma wvar_toolarge c w ddof rows : complete c rows -> complete w rows -> 0 < sum_of (at_ w) rows -> sum_of (at_ w) rows < IZR ddof ->
  expanded_value (LVar c ddof (Some w)) rows = NaN.
Proof.
  intros Hc Hw Hs Hd. rewrite V_expanded; erewrite V_leaf by reflexivity. rewrite V_div, wvar_num, V_sq, V_sqrt by (auto; lra).
  destruct (Z.eqb ddof 0) eqn:E.
  - apply Z.eqb_eq in E as ->. lra.
  - rewrite V_sub, V_sum, V_num, xsum_complete, xsub_fin, div_fact_neg by (auto; lra). reflexivity.
Qed.

(** Ridge with normalization. *)
From Coq Require Import Reals Lra Lia List Arith Bool.
From Verif Require Import M_Num M_Frame L_Fsum L_Frame M_Models S_Models L_Models L_Ridge.
Import ListNotations.
Open Scope R_scope.
Open Scope list_scope.

Lemma dot_fsum a k f : List.length a = k -> dot a (map f (seq 0 k)) = fsum k (fun i => nth i a 0 * f i).
Proof.
  revert k f. induction a as [|x a IH]; intros k f Hl; cbn [List.length] in Hl; subst k; [reflexivity|].
  rewrite fsum_shift. cbn [seq map]. unfold dot in *. cbn [combine map fst snd Rsum nth].
  rewrite <- seq_shift, map_map, IH by reflexivity. reflexivity.
Qed.
Lemma nth_map_seq (f : nat -> R) k i : (i < k)%nat -> nth i (map f (seq 0 k)) 0 = f i.
Proof.
  intros Hi. rewrite (nth_indep _ 0 (f 0%nat)) by (rewrite map_length, seq_length; exact Hi).
  rewrite map_nth, seq_nth by exact Hi. reflexivity.
Qed.
Definition cov rows i j := avg (fun r => feat i r * feat j r) rows - avg (feat i) rows * avg (feat j) rows.
Definition covy rows i := avg (fun r => feat i r * resp r) rows - avg (feat i) rows * avg resp rows.
Lemma cov_sym rows i j : cov rows i j = cov rows j i.
Proof. unfold cov. rewrite (avg_ext (fun r => feat i r * feat j r) (fun r => feat j r * feat i r)) by (intros; lra). lra. Qed.
Lemma cov_centered rows i j : rows <> [] -> cov rows i j = avg (fun r => (feat i r - avg (feat i) rows) * (feat j r - avg (feat j) rows)) rows.
Proof.
  intros Hr. set (a := avg (feat i) rows). set (b := avg (feat j) rows).
  rewrite (avg_ext (fun r => (feat i r - a) * (feat j r - b)) (fun r => feat i r * feat j r + ((- b) * feat i r + ((- a) * feat j r + a * b)))) by (intros; lra).
  rewrite !avg_plus, !avg_scal, avg_const by exact Hr. fold a b. unfold cov. fold a b. lra.
Qed.
Lemma norm_sq rows i : rows <> [] -> norm_x rows i * norm_x rows i = INR (List.length rows) * cov rows i i.
Proof.
  intros Hr. assert (Hn := size_pos rows Hr). unfold norm_x. rewrite sqrt_sqrt.
  - rewrite cov_centered by exact Hr. unfold avg at 1.
    rewrite (Rsum_map_ext (fun r => (feat i r - mean_x rows i) ^ 2) (fun r => (feat i r - avg (feat i) rows) * (feat i r - avg (feat i) rows))).
    + field. lra.
    + intros r _. unfold mean_x, avg. ring.
  - apply Rsum_map_nonneg. intros. apply pow2_ge_0.
Qed.
Lemma stats_has_x k rows i : (i < k)%nat -> get (suff_stats k true true rows) (KX i) = Some (avg (feat i) rows).
Proof.
  intros Hi. unfold suff_stats. rewrite get_map; [reflexivity|]. unfold stat_cols. rewrite in_app_iff. left.
  apply in_map, in_seq. lia.
Qed.
Lemma stats_has_xx k rows i j : (i <= j < k)%nat -> get (suff_stats k true true rows) (KXX i j) = Some (avg (fun r => feat i r * feat j r) rows).
Proof.
  intros Hi. unfold suff_stats. rewrite get_map; [reflexivity|]. unfold stat_cols. rewrite !in_app_iff. right. left.
  apply in_map_iff. exists (i, j). split; [reflexivity|apply triu_in; exact Hi].
Qed.
Lemma stats_has_y k rows : get (suff_stats k true true rows) KY = Some (avg resp rows).
Proof.
  unfold suff_stats. rewrite get_map; [reflexivity|]. unfold stat_cols. rewrite !in_app_iff. right. right. left. left. reflexivity.
Qed.
Lemma stats_has_xy k rows i : (i < k)%nat -> get (suff_stats k true true rows) (KXY i) = Some (avg (fun r => feat i r * resp r) rows).
Proof.
  intros Hi. unfold suff_stats. rewrite get_map; [reflexivity|]. unfold stat_cols. rewrite !in_app_iff. right. right. right. left.
  apply in_map, in_seq. lia.
Qed.
Lemma normalized_system_spec k alpha rows :
  exists A b, normalized_system k (suff_stats k true true rows) alpha = Some (k, A, b)
    /\ (forall i j, (i < k)%nat -> (j < k)%nat -> A i j = cov rows i j + alpha * (if Nat.eqb i j then cov rows i i else 0))
    /\ (forall i, (i < k)%nat -> nth i b 0 = covy rows i).
Proof.
  unfold normalized_system.
  rewrite (mapM_all _ (fun p => cov rows (fst p) (snd p))).
  2:{ intros [i j] H. apply triu_in in H. cbn [fst snd]. unfold centered.
      rewrite stats_has_xx by exact H. rewrite !stats_has_x by lia. reflexivity. }
  rewrite (mapM_all _ (covy rows)).
  2:{ intros i H. apply in_seq in H. unfold centered. rewrite stats_has_xy, stats_has_y, stats_has_x by lia. reflexivity. }
  destruct (symmetrize_spec k (cov rows)) as [A [E H]]. rewrite E.
  assert (HA : forall i j, (i < k)%nat -> (j < k)%nat -> A i j = cov rows i j).
  { intros i j Hi Hj. rewrite H by assumption. destruct (Nat.le_ge_cases i j) as [L|L].
    - rewrite Nat.min_l, Nat.max_r by exact L. reflexivity.
    - rewrite Nat.min_r, Nat.max_l by exact L. apply cov_sym. }
  do 2 eexists. split; [reflexivity|]. split.
  - intros i j Hi Hj. cbv beta. rewrite !HA by assumption. reflexivity.
  - intros i Hi. apply nth_map_seq. exact Hi.
Qed.

(** statistics of the normalized rows *)
Lemma avg_map (g : row -> row) f rows : avg f (map g rows) = avg (fun r => f (g r)) rows.
Proof. unfold avg. rewrite map_map, map_length. reflexivity. Qed.
Lemma avg_centered rows i : rows <> [] -> avg (fun r => feat i r - mean_x rows i) rows = 0.
Proof.
  intros Hr. rewrite (avg_ext _ (fun r => feat i r + (- mean_x rows i))) by (intros; lra).
  rewrite avg_plus, avg_const by exact Hr. unfold mean_x, avg. lra.
Qed.
Lemma feat_normalized k rows r i : (i < k)%nat ->
  feat i (map (fun i => (feat i r - mean_x rows i) / norm_x rows i) (seq 0 k), resp r) = (feat i r - mean_x rows i) * / norm_x rows i.
Proof. intros Hi. unfold feat at 1. cbn [fst]. rewrite nth_map_seq by exact Hi. reflexivity. Qed.
Section Norm.
  Variables (k : nat) (rows : list row).
  Hypothesis Hr : rows <> [].
  Notation nr := (normalized k rows).
  Lemma gram00 : gram true nr 0 0 = 1.
  Proof. unfold gram, normalized. rewrite avg_map. rewrite (avg_ext _ (fun _ => 1)) by (intros; cbn [zf]; lra). apply avg_const. exact Hr. Qed.
  Lemma gram0S i : (i < k)%nat -> gram true nr 0 (S i) = 0.
  Proof.
    intros Hi. unfold gram, normalized. rewrite avg_map.
    rewrite (avg_ext _ (fun r => / norm_x rows i * (feat i r - mean_x rows i))).
    - rewrite avg_scal, avg_centered by exact Hr. lra.
    - intros r _. cbn [zf]. rewrite feat_normalized by exact Hi. lra.
  Qed.
  Lemma gramSS i j : (i < k)%nat -> (j < k)%nat -> gram true nr (S i) (S j) = cov rows i j * / norm_x rows i * / norm_x rows j.
  Proof.
    intros Hi Hj. unfold gram, normalized. rewrite avg_map, cov_centered by exact Hr.
    rewrite (avg_ext _ (fun r => (/ norm_x rows i * / norm_x rows j) * ((feat i r - avg (feat i) rows) * (feat j r - avg (feat j) rows)))).
    - rewrite avg_scal. lra.
    - intros r _. cbn [zf]. rewrite !feat_normalized by assumption. unfold mean_x, avg. ring.
  Qed.
  Lemma gvec0 : gvec true nr 0 = mean_y rows.
  Proof.
    unfold gvec, normalized. rewrite avg_map. unfold mean_y. fold (avg resp rows). apply avg_ext. intros r _. cbn [zf]. unfold resp at 1. cbn [snd]. lra.
  Qed.
  Lemma gvecS i : (i < k)%nat -> gvec true nr (S i) = covy rows i * / norm_x rows i.
  Proof.
    intros Hi. unfold gvec, normalized. rewrite avg_map.
    rewrite (avg_ext _ (fun r => / norm_x rows i * (feat i r * resp r + (- mean_x rows i) * resp r))).
    - rewrite avg_scal, avg_plus, avg_scal. unfold covy, mean_x. fold (avg (feat i) rows). lra.
    - intros r _. cbn [zf]. rewrite feat_normalized by exact Hi. unfold resp at 1. cbn [snd]. ring.
  Qed.
  Hypothesis Hnorm : forall i, (i < k)%nat -> norm_x rows i <> 0.
  (** the code's system for c, and the normal equations for v = (mean y, c_i * norm_i) *)
  Lemma norm_solves alpha v :
    solves (S k) (rmat true nr alpha) (gvec true nr) v <->
    List.length v = S k /\ nth 0 v 0 = mean_y rows
    /\ forall i, (i < k)%nat -> fsum k (fun j => (cov rows i j + alpha * (if Nat.eqb i j then cov rows i i else 0)) * (nth (S j) v 0 / norm_x rows j)) = covy rows i.
  Proof.
    assert (Hn := size_pos rows Hr).
    assert (Hlen : INR (List.length nr) = INR (List.length rows)) by (unfold normalized; rewrite map_length; reflexivity).
    assert (E0 : fsum (S k) (fun j => rmat true nr alpha 0 j * nth j v 0) = nth 0 v 0).
    { rewrite fsum_shift, (fsum_zero k).
      - unfold rmat. rewrite gram00. cbn. lra.
      - intros i Hi. unfold rmat. rewrite gram0S by exact Hi. cbn. lra. }
    assert (ES : forall i, (i < k)%nat -> fsum (S k) (fun j => rmat true nr alpha (S i) j * nth j v 0)
        = / norm_x rows i * fsum k (fun j => (cov rows i j + alpha * (if Nat.eqb i j then cov rows i i else 0)) * (nth (S j) v 0 / norm_x rows j))).
    { intros i Hi. rewrite fsum_shift, <- fsum_scal.
      replace (rmat true nr alpha (S i) 0 * nth 0 v 0) with 0.
      2:{ unfold rmat. rewrite gram_sym, gram0S by exact Hi. cbn. lra. }
      rewrite Rplus_0_l. apply fsum_ext. intros j Hj. unfold rmat. rewrite gramSS, Hlen by assumption. cbn [Nat.eqb pen andb].
      assert (N1 := Hnorm i Hi). assert (N2 := Hnorm j Hj).
      destruct (Nat.eqb_spec i j) as [->|_].
      - cbn [pen andb Nat.eqb]. assert (C := norm_sq rows j Hr).
        unfold pen. cbn [andb Nat.eqb].
        assert (C' : cov rows j j = norm_x rows j * norm_x rows j / INR (List.length rows)) by (rewrite C; field; lra).
        rewrite C'. field. auto with real.
      - field. repeat split; try assumption; lra. }
    unfold solves. split.
    - intros [Hl H]. split; [exact Hl|]. split.
      + rewrite <- gvec0, <- H by lia. symmetry. exact E0.
      + intros i Hi. specialize (H (S i) ltac:(lia)). rewrite ES, gvecS in H by exact Hi.
        assert (N1 := Hnorm i Hi). apply (Rmult_eq_reg_l (/ norm_x rows i)); [|apply Rinv_neq_0_compat; exact N1]. lra.
    - intros [Hl [H0 H]]. split; [exact Hl|]. intros [|i] Hi.
      + rewrite E0, gvec0. exact H0.
      + assert (Hi' : (i < k)%nat) by lia. rewrite ES, gvecS, H by exact Hi'. lra.
  Qed.
  Lemma ridge_magic_norm alpha w : (0 < k)%nat -> 0 <= alpha ->
    (ridge_magic k true true alpha rows w <->
     exists v, minimizes (S k) (ridge_loss k true alpha nr) v /\ w = rescaled k rows v).
  Proof.
    intros Hk Ha.
    assert (Hnr : nr <> []) by (unfold normalized; destruct rows; [congruence|discriminate]).
    destruct (normalized_system_spec k alpha rows) as [A [b [E [HA Hb]]]].
    assert (EX : get_all (suff_stats k true true rows) (map KX (seq 0 k)) = Some (map (mean_x rows) (seq 0 k))).
    { unfold suff_stats. rewrite get_all_map.
      - rewrite map_map. reflexivity.
      - intros c Hc. unfold stat_cols. rewrite in_app_iff. left. exact Hc. }
    unfold ridge_magic, ridge_coefs. cbn [andb]. rewrite E, EX, stats_has_y. split.
    - intros [d [A' [b' [c [ym [xm [E1 [[Hl H] [E2 [E3 ->]]]]]]]]]]. injection E1 as <- <- <-. injection E2 as <-. injection E3 as <-.
      exists (mean_y rows :: map (fun i => nth i c 0 * norm_x rows i) (seq 0 k)). split.
      + change (S k) with (n_coef k true). apply ridge_min_solves; [exact Hnr|exact Ha|].
        change (n_coef k true) with (S k). apply norm_solves. cbn [List.length nth]. rewrite map_length, seq_length.
        split; [reflexivity|]. split; [reflexivity|]. intros i Hi. rewrite <- Hb, <- H by exact Hi.
        apply fsum_ext. intros j Hj. rewrite HA by assumption. rewrite nth_map_seq by exact Hj. field. apply Hnorm. exact Hj.
      + assert (Ec : map (fun i => slope true (mean_y rows :: map (fun i => nth i c 0 * norm_x rows i) (seq 0 k)) i / norm_x rows i) (seq 0 k) = c).
        { apply (nth_ext _ _ 0 0); [rewrite map_length, seq_length; symmetry; exact Hl|].
          intros i Hi. rewrite map_length, seq_length in Hi. rewrite nth_map_seq by exact Hi. unfold slope. cbn [nth].
          rewrite nth_map_seq by exact Hi. field. apply Hnorm. exact Hi. }
        unfold rescaled. rewrite Ec. rewrite dot_fsum by exact Hl.
        f_equal. unfold mean_y. fold (avg resp rows).
        apply (f_equal (fun z => avg resp rows - z)). apply fsum_ext. intros. lra.
    - intros [v [Hv ->]]. change (S k) with (n_coef k true) in Hv. apply ridge_min_solves in Hv; [|exact Hnr|exact Ha].
      change (n_coef k true) with (S k) in Hv. apply norm_solves in Hv. destruct Hv as [Hl [H0 H]].
      unfold rescaled. set (c := map (fun i => slope true v i / norm_x rows i) (seq 0 k)).
      assert (Hc : List.length c = k) by (unfold c; rewrite map_length, seq_length; reflexivity).
      exists k, A, b, c, (avg resp rows), (map (mean_x rows) (seq 0 k)). split; [reflexivity|]. split; [|split; [reflexivity|split; [reflexivity|]]].
      + split; [exact Hc|]. intros i Hi. rewrite Hb, <- H by exact Hi. apply fsum_ext. intros j Hj. rewrite HA by assumption.
        unfold c. rewrite nth_map_seq by exact Hj. reflexivity.
      + rewrite dot_fsum by exact Hc. f_equal. unfold mean_y. fold (avg resp rows).
        apply (f_equal (fun z => avg resp rows - z)). apply fsum_ext. intros. lra.
  Qed.
End Norm.

(** ** Without a penalty, normalization only reparametrizes. *)
Section Ols.
  Variables (k : nat) (rows : list row).
  Hypothesis Hr : rows <> [].
  Hypothesis Hnorm : forall i, (i < k)%nat -> norm_x rows i <> 0.
  Notation nr := (normalized k rows).
  Definition unscale (v : list R) : list R :=
    (nth 0 v 0 - fsum k (fun i => mean_x rows i * (nth (S i) v 0 / norm_x rows i))) :: map (fun i => nth (S i) v 0 / norm_x rows i) (seq 0 k).
  Lemma unscale_loss v : ridge_loss k true 0 nr v = ridge_loss k true 0 rows (unscale v).
  Proof.
    unfold ridge_loss. rewrite !Rmult_0_l, !Rplus_0_r. unfold squared_error, normalized. rewrite map_map.
    apply Rsum_map_ext. intros r _. apply (f_equal (fun z => z ^ 2)).
    unfold resp at 1. cbn [snd]. apply (f_equal (fun z => resp r - z)).
    unfold predict, intercept, slope, unscale. cbn [nth].
    rewrite (fsum_ext k (fun i => nth (S i) v 0 * feat i _) (fun i => nth (S i) v 0 / norm_x rows i * feat i r - mean_x rows i * (nth (S i) v 0 / norm_x rows i))).
    - rewrite fsum_minus. rewrite (fsum_ext k (fun i => nth i (map _ _) 0 * feat i r) (fun i => nth (S i) v 0 / norm_x rows i * feat i r)); [lra|].
      intros i Hi. rewrite nth_map_seq by exact Hi. reflexivity.
    - intros i Hi. rewrite feat_normalized by exact Hi. field. apply Hnorm. exact Hi.
  Qed.
  Lemma unscale_onto u : List.length u = S k -> exists v, List.length v = S k /\ unscale v = u.
  Proof.
    intros Hl. destruct u as [|u0 u]; [discriminate|]. cbn in Hl. injection Hl as Hl.
    exists ((u0 + fsum k (fun i => mean_x rows i * nth i u 0)) :: map (fun i => nth i u 0 * norm_x rows i) (seq 0 k)).
    split; [cbn; rewrite map_length, seq_length; reflexivity|].
    assert (E : forall i, (i < k)%nat -> nth i (map (fun i => nth i u 0 * norm_x rows i) (seq 0 k)) 0 / norm_x rows i = nth i u 0).
    { intros i Hi. rewrite nth_map_seq by exact Hi. field. apply Hnorm. exact Hi. }
    unfold unscale. cbn [nth]. f_equal.
    - rewrite (fsum_ext k (fun i => mean_x rows i * (nth i (map _ _) 0 / _)) (fun i => mean_x rows i * nth i u 0)); [lra|].
      intros i Hi. rewrite E by exact Hi. reflexivity.
    - apply (nth_ext _ _ 0 0); [rewrite map_length, seq_length; symmetry; exact Hl|].
      intros i Hi. rewrite map_length, seq_length in Hi. rewrite nth_map_seq by exact Hi. apply E. exact Hi.
  Qed.
  Lemma unscale_length v : List.length (unscale v) = S k.
  Proof. unfold unscale. cbn. rewrite map_length, seq_length. reflexivity. Qed.
  Lemma ols_normalized w : (0 < k)%nat ->
    (linear_magic k true true rows w <-> minimizes (S k) (ridge_loss k true 0 rows) w).
  Proof.
    intros Hk. unfold linear_magic. rewrite ridge_magic_norm by (try assumption; lra).
    assert (Hnr : nr <> []) by (unfold normalized; destruct rows; [congruence|discriminate]).
    assert (RU : forall v, minimizes (S k) (ridge_loss k true 0 nr) v -> rescaled k rows v = unscale v).
    { intros v Hv. change (S k) with (n_coef k true) in Hv. apply ridge_min_solves in Hv; [|exact Hnr|lra].
      apply norm_solves in Hv; [|exact Hr|exact Hnorm]. destruct Hv as [_ [H0 _]].
      unfold rescaled, unscale, slope. rewrite H0. f_equal. apply (f_equal (fun z => mean_y rows - z)).
      apply fsum_ext. intros i Hi. rewrite nth_map_seq by exact Hi. reflexivity. }
    split.
    - intros [v [Hv ->]]. rewrite (RU v Hv). destruct Hv as [Hl H]. split; [apply unscale_length|].
      intros u Hu. destruct (unscale_onto u Hu) as [v' [Hl' <-]]. rewrite <- !unscale_loss. apply H. exact Hl'.
    - intros [Hl H]. destruct (unscale_onto w Hl) as [v [Hl' Ev]].
      assert (Hv : minimizes (S k) (ridge_loss k true 0 nr) v).
      { split; [exact Hl'|]. intros v' _. rewrite !unscale_loss, Ev. apply H, unscale_length. }
      exists v. split; [exact Hv|]. rewrite RU by exact Hv. symmetry. exact Ev.
  Qed.
End Ols.

(** ** soft thresholding *)
Lemma soft_strong x t z : 0 <= t ->
  (soft_thresholding x t - x) ^ 2 / 2 + t * Rabs (soft_thresholding x t) + (z - soft_thresholding x t) ^ 2 / 2
  <= (z - x) ^ 2 / 2 + t * Rabs z.
Proof.
  intros Ht. unfold soft_thresholding, Rmax, Rmin.
  destruct (Rle_dec (x - t) 0), (Rle_dec (x + t) 0); try (exfalso; lra);
    (unfold Rabs; destruct (Rcase_abs z)); (destruct (Rcase_abs _)); try (exfalso; lra); nra.
Qed.

(** Derivatives, convexity and smoothness of the logistic loss. *)
From Coq Require Import Reals Lra Lia List Arith Bool.
From Verif Require Import M_Num M_Frame L_Fsum M_Models S_Models M_Logistic S_Logistic L_Models L_Ridge L_RidgeNorm L_Fista.
Import ListNotations.
Open Scope R_scope.
Open Scope list_scope.

Lemma one_exp_pos z : 0 < 1 + exp z.
Proof. assert (H := exp_pos z). lra. Qed.
Lemma sigmoid_alt z : sigmoid z = exp z / (1 + exp z).
Proof.
  unfold sigmoid. rewrite exp_Ropp. assert (H := exp_pos z). field. lra.
Qed.
Lemma sig_z_eq z : sig_z z = sigmoid z.
Proof.
  unfold sig_z. destruct (Rlt_dec z 0); [symmetry; apply sigmoid_alt|]. unfold sigmoid, Rdiv. lra.
Qed.
Lemma sig_minus_b_eq z b : sig_minus_b z b = sigmoid z - b.
Proof.
  unfold sig_minus_b. destruct (Rlt_dec z 0).
  - rewrite sigmoid_alt. assert (H := one_exp_pos z). field. lra.
  - unfold sigmoid. assert (H := one_exp_pos (- z)). field. lra.
Qed.
Lemma sigmoid_range z : 0 < sigmoid z < 1.
Proof.
  unfold sigmoid. assert (H := exp_pos (- z)). split; [apply Rinv_0_lt_compat; lra|].
  rewrite <- Rinv_1 at 2. apply Rinv_lt_contravar; lra.
Qed.
(** ** one row *)
Definition softplus z := ln (1 + exp z).
Lemma d_softplus z : derivable_pt_lim softplus z (sigmoid z).
Proof.
  unfold softplus. change (fun z => ln (1 + exp z)) with (comp ln (fun z => 1 + exp z)).
  replace (sigmoid z) with (/ (1 + exp z) * exp z) by (rewrite sigmoid_alt; unfold Rdiv; lra).
  apply derivable_pt_lim_comp; [|apply derivable_pt_lim_ln, one_exp_pos].
  change (fun z => 1 + exp z) with (fct_cte 1 + exp)%F. replace (exp z) with (0 + exp z) by ring.
  apply derivable_pt_lim_plus; [apply derivable_pt_lim_const|apply derivable_pt_lim_exp].
Qed.
Lemma d_sigmoid z : derivable_pt_lim sigmoid z (sigmoid z * (1 - sigmoid z)).
Proof.
  assert (E : forall u, sigmoid u = (fct_cte 1 - (fct_cte 1 / (fct_cte 1 + exp)))%F u).
  { intros u. unfold minus_fct, div_fct, plus_fct, fct_cte. rewrite sigmoid_alt. assert (H := one_exp_pos u). field. lra. }
  assert (D : derivable_pt_lim (fct_cte 1 - (fct_cte 1 / (fct_cte 1 + exp)))%F z (0 - (0 * (1 + exp z) - (0 + exp z) * 1) / Rsqr (1 + exp z))).
  { apply derivable_pt_lim_minus; [apply derivable_pt_lim_const|].
    apply derivable_pt_lim_div with (f1 := fct_cte 1) (f2 := (fct_cte 1 + exp)%F) (l1 := 0) (l2 := 0 + exp z).
    - apply derivable_pt_lim_const.
    - apply derivable_pt_lim_plus; [apply derivable_pt_lim_const|apply derivable_pt_lim_exp].
    - unfold plus_fct, fct_cte. assert (H := one_exp_pos z). lra. }
  replace (sigmoid z * (1 - sigmoid z)) with (0 - (0 * (1 + exp z) - (0 + exp z) * 1) / Rsqr (1 + exp z)).
  - intros eps He. destruct (D eps He) as [dl Hd]. exists dl. intros h Hh Hl. rewrite !E. apply Hd; assumption.
  - rewrite sigmoid_alt. assert (H := one_exp_pos z). unfold Rsqr. field. lra.
Qed.
Lemma softplus_below z d : softplus z + sigmoid z * d <= softplus (z + d).
Proof.
  unfold softplus. set (p := sigmoid z). assert (Hp := sigmoid_range z). fold p in Hp.
  assert (E : 1 + exp (z + d) = (1 + exp z) * ((1 - p) + p * exp d)).
  { unfold p. rewrite sigmoid_alt, exp_plus. assert (H := one_exp_pos z). field. lra. }
  assert (J : exp (p * d) <= (1 - p) + p * exp d).
  { assert (A1 := exp_ineq1_le ((1 - p) * d)). assert (A2 := exp_ineq1_le (- (p * d))). assert (Hx := exp_pos (p * d)).
    replace (exp d) with (exp (p * d) * exp ((1 - p) * d)) by (rewrite <- exp_plus; f_equal; ring).
    assert (B2 : exp (p * d) * (1 - p * d) <= 1).
    { apply (Rmult_le_compat_l (exp (p * d))) in A2; [|lra]. rewrite <- exp_plus in A2. replace (p * d + - (p * d)) with 0 in A2 by ring. rewrite exp_0 in A2. lra. }
    assert (B1 : exp (p * d) * (1 + (1 - p) * d) <= exp (p * d) * exp ((1 - p) * d)) by (apply Rmult_le_compat_l; lra).
    apply (Rmult_le_compat_l p) in B1; [|lra]. apply (Rmult_le_compat_l (1 - p)) in B2; [|lra]. lra. }
  assert (H := one_exp_pos z). assert (Hx := exp_pos (p * d)).
  rewrite E, ln_mult by lra. apply Rplus_le_compat_l. rewrite <- (ln_exp (p * d)). 
  destruct J as [J|J]; [left; apply ln_increasing; lra|right; rewrite J; reflexivity].
Qed.
Lemma sigmoid_lipschitz a b : a <= b -> sigmoid b - sigmoid a <= (b - a) / 4.
Proof.
  intros [H|H]; [|subst; lra].
  destruct (MVT_cor2 sigmoid (fun z => sigmoid z * (1 - sigmoid z)) a b H (fun c _ => d_sigmoid c)) as [c [E _]].
  rewrite E. assert (R := sigmoid_range c). assert (H0 : sigmoid c * (1 - sigmoid c) <= / 4) by (assert (P := pow2_ge_0 (sigmoid c - / 2)); lra).
  apply (Rmult_le_compat_r (b - a)) in H0; lra.
Qed.
(** d/dt of softplus(z + t) - sigmoid z * t - t^2/8 *)
Lemma d_excess z t : derivable_pt_lim (fun t => softplus (z + t) - sigmoid z * t - t * t / 8) t (sigmoid (z + t) - sigmoid z - t / 4).
Proof.
  assert (D1 : derivable_pt_lim (comp softplus (fct_cte z + id)%F) t (sigmoid (z + t) * (0 + 1))).
  { apply derivable_pt_lim_comp; [apply derivable_pt_lim_plus; [apply derivable_pt_lim_const|apply derivable_pt_lim_id]|].
    apply d_softplus. }
  assert (D2 : derivable_pt_lim (mult_real_fct (sigmoid z) id) t (sigmoid z * 1)) by (apply derivable_pt_lim_scal, derivable_pt_lim_id).
  assert (D3 : derivable_pt_lim (mult_real_fct (/ 8) (id * id)%F) t (/ 8 * (1 * id t + id t * 1))) by (apply derivable_pt_lim_scal, derivable_pt_lim_mult; apply derivable_pt_lim_id).
  assert (D := derivable_pt_lim_minus _ _ _ _ _ (derivable_pt_lim_minus _ _ _ _ _ D1 D2) D3).
  replace (sigmoid (z + t) - sigmoid z - t / 4) with (sigmoid (z + t) * (0 + 1) - sigmoid z * 1 - / 8 * (1 * id t + id t * 1)) by (unfold id; field).
  intros eps He. destruct (D eps He) as [dl Hd]. exists dl. intros h Hh Hl. specialize (Hd h Hh Hl).
  unfold minus_fct, comp, mult_real_fct, mult_fct, plus_fct, fct_cte, id in Hd |- *. unfold Rdiv in *.
  replace ((t + h) * (t + h) * / 8) with (/ 8 * ((t + h) * (t + h))) by ring. replace (t * t * / 8) with (/ 8 * (t * t)) by ring. exact Hd.
Qed.
Lemma softplus_above z d : softplus (z + d) <= softplus z + sigmoid z * d + d * d / 8.
Proof.
  set (f := fun t => softplus (z + t) - sigmoid z * t - t * t / 8).
  assert (F0 : f 0 = softplus z) by (unfold f; rewrite Rplus_0_r; lra).
  assert (Q : f d <= f 0); [|unfold f in Q; rewrite F0 in Q || (unfold f in F0; rewrite F0 in Q); lra].
  destruct (Rtotal_order d 0) as [H|[->|H]]; [|lra|].
  - destruct (MVT_cor2 f (fun t => sigmoid (z + t) - sigmoid z - t / 4) d 0 H (fun c _ => d_excess z c)) as [c [E Hc]].
    assert (L := sigmoid_lipschitz (z + c) z ltac:(lra)). assert (0 <= sigmoid (z + c) - sigmoid z - c / 4) by lra.
    assert (0 <= (sigmoid (z + c) - sigmoid z - c / 4) * (0 - d)) by (apply Rmult_le_pos; lra). lra.
  - destruct (MVT_cor2 f (fun t => sigmoid (z + t) - sigmoid z - t / 4) 0 d H (fun c _ => d_excess z c)) as [c [E Hc]].
    assert (L := sigmoid_lipschitz z (z + c) ltac:(lra)). assert (0 <= - (sigmoid (z + c) - sigmoid z - c / 4)) by lra.
    assert (0 <= - (sigmoid (z + c) - sigmoid z - c / 4) * (d - 0)) by (apply Rmult_le_pos; lra). lra.
Qed.

(** ** a data set; [x] is any design *)
Section Data.
  Variables (m : nat) (x : nat -> row -> R) (rows : list row).
  Notation vec := (nat -> R).
  Definition score (w : vec) (r : row) : R := fsum m (fun i => w i * x i r).
  Definition lloss (w : vec) : R := avg (fun r => log_loss (score w r) (resp r)) rows.
  Definition lgrad (w : vec) (j : nat) : R := avg (fun r => x j r * (sigmoid (score w r) - resp r)) rows.
  Definition lhess (w : vec) (i j : nat) : R := avg (fun r => x i r * x j r * (sigmoid (score w r) * (1 - sigmoid (score w r)))) rows.
  Definition upd (w : vec) (j : nat) (t : R) : vec := fun i => if Nat.eqb i j then t else w i.
  Lemma score_upd w j t r : (j < m)%nat -> score (upd w j t) r = score w r + (t - w j) * x j r.
  Proof.
    intros Hj. unfold score.
    rewrite (fsum_ext m _ (fun i => w i * x i r + (if Nat.eqb i j then (t - w i) * x i r else 0))).
    - rewrite fsum_plus, fsum_delta by exact Hj. reflexivity.
    - intros i _. unfold upd. destruct (Nat.eqb_spec i j) as [->|]; ring.
  Qed.
  Lemma score_ext u v r : (forall i, (i < m)%nat -> u i = v i) -> score u r = score v r.
  Proof. intros H. apply fsum_ext. intros i Hi. rewrite H by exact Hi. reflexivity. Qed.
  Lemma lloss_ext u v : (forall i, (i < m)%nat -> u i = v i) -> lloss u = lloss v.
  Proof. intros H. apply avg_ext. intros r _. rewrite (score_ext u v r H). reflexivity. Qed.
  Lemma lgrad_ext u v j : (forall i, (i < m)%nat -> u i = v i) -> lgrad u j = lgrad v j.
  Proof. intros H. apply avg_ext. intros r _. rewrite (score_ext u v r H). reflexivity. Qed.
  Lemma d_ext f g a l : (forall t, f t = g t) -> derivable_pt_lim f a l -> derivable_pt_lim g a l.
  Proof. intros E D eps He. destruct (D eps He) as [dl Hd]. exists dl. intros h Hh Hl. rewrite <- !E. apply Hd; assumption. Qed.
  Lemma d_avg (f : row -> R -> R) (f' : row -> R) a : (forall r, derivable_pt_lim (f r) a (f' r)) ->
    derivable_pt_lim (fun t => avg (fun r => f r t) rows) a (avg f' rows).
  Proof.
    intros H. unfold avg.
    assert (D : derivable_pt_lim (fun t => Rsum (map (fun r => f r t) rows)) a (Rsum (map f' rows))).
    { induction rows as [|r l IH]; cbn [map Rsum]; [apply derivable_pt_lim_const|].
      apply (derivable_pt_lim_plus (f r) (fun t => Rsum (map (fun r => f r t) l))); [apply H|exact IH]. }
    apply d_ext with (f := mult_real_fct (/ INR (List.length rows)) (fun t => Rsum (map (fun r => f r t) rows))).
    - intros t. unfold mult_real_fct, Rdiv. ring.
    - replace (Rsum (map f' rows) / INR (List.length rows)) with (/ INR (List.length rows) * Rsum (map f' rows)) by (unfold Rdiv; ring).
      apply derivable_pt_lim_scal. exact D.
  Qed.
  (** derivative of g (c + (t - a) * e) at a *)
  Lemma d_affine g l c e a : derivable_pt_lim g c l -> derivable_pt_lim (fun t => g (c + (t - a) * e)) a (l * e).
  Proof.
    intros D.
    apply d_ext with (f := comp g (fct_cte c + mult_real_fct e (id - fct_cte a))%F).
    - intros t. unfold comp, plus_fct, mult_real_fct, minus_fct, fct_cte, id. f_equal. ring.
    - replace (l * e) with (l * (0 + e * (1 - 0))) by ring.
      apply derivable_pt_lim_comp.
      + apply derivable_pt_lim_plus; [apply derivable_pt_lim_const|]. apply derivable_pt_lim_scal, derivable_pt_lim_minus; [apply derivable_pt_lim_id|apply derivable_pt_lim_const].
      + replace ((fct_cte c + mult_real_fct e (id - fct_cte a))%F a) with c; [exact D|].
        unfold plus_fct, mult_real_fct, minus_fct, fct_cte, id. ring.
  Qed.
  Lemma d_log_loss y z : derivable_pt_lim (fun z => log_loss z y) z (sigmoid z - y).
  Proof.
    unfold log_loss. replace (sigmoid z - y) with (sigmoid z - y * 1) by ring.
    apply (derivable_pt_lim_minus softplus (mult_real_fct y id)); [apply d_softplus|apply derivable_pt_lim_scal, derivable_pt_lim_id].
  Qed.
  Lemma lloss_derivative w j : (j < m)%nat -> derivable_pt_lim (fun t => lloss (upd w j t)) (w j) (lgrad w j).
  Proof.
    intros Hj. unfold lloss.
    apply d_ext with (f := fun t => avg (fun r => log_loss (score w r + (t - w j) * x j r) (resp r)) rows).
    - intros t. apply avg_ext. intros r _. rewrite score_upd by exact Hj. reflexivity.
    - unfold lgrad. rewrite (avg_ext _ (fun r => (sigmoid (score w r) - resp r) * x j r)) by (intros; ring).
      apply (d_avg (fun r t => log_loss (score w r + (t - w j) * x j r) (resp r))). intros r.
      apply (d_affine (fun z => log_loss z (resp r))). apply d_log_loss.
  Qed.
  Lemma lgrad_derivative w i j : (j < m)%nat -> derivable_pt_lim (fun t => lgrad (upd w j t) i) (w j) (lhess w i j).
  Proof.
    intros Hj. unfold lgrad.
    apply d_ext with (f := fun t => avg (fun r => x i r * (sigmoid (score w r + (t - w j) * x j r) - resp r)) rows).
    - intros t. apply avg_ext. intros r _. rewrite score_upd by exact Hj. reflexivity.
    - unfold lhess. rewrite (avg_ext _ (fun r => x i r * (sigmoid (score w r) * (1 - sigmoid (score w r)) * x j r - 0))) by (intros; ring).
      apply (d_avg (fun r t => x i r * (sigmoid (score w r + (t - w j) * x j r) - resp r))). intros r.
      apply (derivable_pt_lim_scal (fun t => sigmoid (score w r + (t - w j) * x j r) - resp r)).
      apply (derivable_pt_lim_minus (fun t => sigmoid (score w r + (t - w j) * x j r)) (fct_cte (resp r))); [|apply derivable_pt_lim_const].
      apply (d_affine sigmoid). apply d_sigmoid.
  Qed.
  Lemma score_diff u v r : score u r - score v r = fsum m (fun i => (u i - v i) * x i r).
  Proof. unfold score. rewrite <- fsum_minus. apply fsum_ext. intros. ring. Qed.
  Lemma grad_dir u v : fsum m (fun i => (u i - v i) * lgrad v i) = avg (fun r => (score u r - score v r) * (sigmoid (score v r) - resp r)) rows.
  Proof.
    unfold lgrad. rewrite (avg_ext _ (fun r => fsum m (fun i => (u i - v i) * (x i r * (sigmoid (score v r) - resp r))))).
    - rewrite avg_fsum. apply fsum_ext. intros. rewrite avg_scal. reflexivity.
    - intros r _. rewrite score_diff, <- fsum_scal_r. apply fsum_ext. intros. ring.
  Qed.
  Lemma avg_le f g : (forall r, f r <= g r) -> avg f rows <= avg g rows.
  Proof.
    intros H. assert (P := avg_nonneg (fun r => g r + (-1) * f r) rows).
    rewrite avg_plus, avg_scal in P. assert (0 <= avg g rows + -1 * avg f rows) by (apply P; intros r; specialize (H r); lra). lra.
  Qed.
  Lemma lloss_below u v : lloss v + fsum m (fun i => (u i - v i) * lgrad v i) <= lloss u.
  Proof.
    rewrite grad_dir. unfold lloss. rewrite <- avg_plus. apply avg_le. intros r. unfold log_loss.
    assert (Q := softplus_below (score v r) (score u r - score v r)). unfold softplus in Q.
    replace (score v r + (score u r - score v r)) with (score u r) in Q by ring. lra.
  Qed.
  Lemma lloss_above s u v : (forall e, s * avg (fun r => score e r ^ 2) rows <= 4 * fsum m (fun i => e i * e i)) ->
    2 * s * (lloss u - lloss v - fsum m (fun i => (u i - v i) * lgrad v i)) <= dist2 m u v \/ s < 0.
  Proof.
    intros H. destruct (Rlt_le_dec s 0) as [Hs|Hs]; [right; exact Hs|left].
    specialize (H (fun i => u i - v i)). rewrite grad_dir.
    assert (Q : lloss u - lloss v - avg (fun r => (score u r - score v r) * (sigmoid (score v r) - resp r)) rows <= avg (fun r => / 8 * score (fun i => u i - v i) r ^ 2) rows).
    { assert (P := avg_le (fun r => log_loss (score u r) (resp r)) (fun r => log_loss (score v r) (resp r) + ((score u r - score v r) * (sigmoid (score v r) - resp r) + / 8 * score (fun i => u i - v i) r ^ 2))).
      rewrite !avg_plus in P. unfold lloss.
      enough (avg (fun r => log_loss (score u r) (resp r)) rows <= avg (fun r => log_loss (score v r) (resp r)) rows + (avg (fun r => (score u r - score v r) * (sigmoid (score v r) - resp r)) rows + avg (fun r => / 8 * score (fun i => u i - v i) r ^ 2) rows)) by lra.
      apply P. intros r. change (score (fun i => u i - v i) r) with (fsum m (fun i => (u i - v i) * x i r)). rewrite <- score_diff.
      assert (Q := softplus_above (score v r) (score u r - score v r)). unfold softplus in Q. unfold log_loss.
      replace (score v r + (score u r - score v r)) with (score u r) in Q by ring. lra. }
    rewrite avg_scal in Q. apply (Rmult_le_compat_l (2 * s)) in Q; [|lra]. unfold dist2. cbv beta in H. lra.
  Qed.
End Data.

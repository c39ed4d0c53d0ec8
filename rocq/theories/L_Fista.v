(** Convergence of the accelerated proximal gradient iteration of M_ElasticNet. *)
From Coq Require Import Reals Lra Lia List Arith Bool.
From Verif Require Import M_Num M_Frame L_Fsum M_Models S_Models M_ElasticNet L_Models L_Ridge L_RidgeNorm.
Import ListNotations.
Open Scope R_scope.
Open Scope list_scope.

Section Fista.
  (** f is the smooth part, g its gradient; [free j]: coefficient j is not penalized *)
  Variables (d : nat) (f : vec -> R) (g : vec -> vec) (l1 l2 s : R) (free : nat -> bool).
  Definition dist2 (u v : vec) : R := fsum d (fun i => (u i - v i) * (u i - v i)).
  Hypothesis f_ext : forall u v, (forall i, (i < d)%nat -> u i = v i) -> f u = f v.
  Hypothesis below : forall u v, f v + fsum d (fun i => (u i - v i) * g v i) <= f u.
  Hypothesis above : forall u v, 2 * s * (f u - f v - fsum d (fun i => (u i - v i) * g v i)) <= dist2 u v.
  Hypothesis Hs : 0 < s.
  Hypothesis H1 : 0 <= l1.
  Hypothesis H2 : 0 <= l2.
  Definition mask (j : nat) : R := if free j then 0 else 1.
  Lemma mask_nonneg j : 0 <= mask j.
  Proof. unfold mask. destruct (free j); lra. Qed.
  Definition penal (w : vec) : R := fsum d (fun i => mask i * (l1 * Rabs (w i) + l2 / 2 * (w i * w i))).
  Definition objective (w : vec) : R := f w + penal w.

  Lemma k_pos : 0 < l2 * s + 1.
  Proof. assert (0 <= l2 * s) by (apply Rmult_le_pos; lra). lra. Qed.
  (** one coordinate of the proximal step *)
  Definition prox (j : nat) (x : R) : R := if free j then x else soft_thresholding (x / (l2 * s + 1)) (l1 * s / (l2 * s + 1)).
  Lemma soft_sub x t z : 0 <= t -> (x - soft_thresholding x t) * (z - soft_thresholding x t) <= t * Rabs z - t * Rabs (soft_thresholding x t).
  Proof.
    intros Ht. unfold soft_thresholding, Rmax, Rmin.
    destruct (Rle_dec (x - t) 0), (Rle_dec (x + t) 0); try (exfalso; lra);
      (unfold Rabs; destruct (Rcase_abs z)); (destruct (Rcase_abs _)); try (exfalso; lra); nra.
  Qed.
  Lemma prox_sub j x z :
    (x - prox j x) * (z - prox j x) <= s * (mask j * (l1 * Rabs z + l2 / 2 * (z * z)))
       - s * (mask j * (l1 * Rabs (prox j x) + l2 / 2 * (prox j x * prox j x))).
  Proof.
    unfold prox, mask. destruct (free j).
    - rewrite !Rminus_diag_eq by reflexivity. lra.
    - assert (Hk := k_pos). set (k := l2 * s + 1) in *.
      set (p := soft_thresholding (x / k) (l1 * s / k)).
      assert (T : 0 <= l1 * s / k). { apply Rmult_le_pos; [apply Rmult_le_pos; lra|left; apply Rinv_0_lt_compat; lra]. }
      assert (Q := soft_sub (x / k) (l1 * s / k) z T). fold p in Q.
      assert (Q' : (x - k * p) * (z - p) <= l1 * s * Rabs z - l1 * s * Rabs p).
      { apply (Rmult_le_compat_l k) in Q; [|lra].
        replace (k * ((x / k - p) * (z - p))) with ((x - k * p) * (z - p)) in Q by (field; lra).
        replace (k * (l1 * s / k * Rabs z - l1 * s / k * Rabs p)) with (l1 * s * Rabs z - l1 * s * Rabs p) in Q by (field; lra). exact Q. }
      unfold k in Q'. clearbody p. clear T Q.
      assert (0 <= l2 * s) by (apply Rmult_le_pos; lra).
      assert (0 <= l2 * s * ((z - p) * (z - p))) by (apply Rmult_le_pos; [assumption|apply (Rle_0_sqr (z - p))]).
      lra.
  Qed.
  (** the proximal gradient point of v *)
  Definition pg (v : vec) : vec := fun j => prox j (v j - s * g v j).
  Lemma prox_gradient v u : 2 * s * (objective (pg v) - objective u) + dist2 (pg v) u <= dist2 v u.
  Proof.
    set (x := pg v).
    assert (Gx := above x v). assert (Gu := below u v).
    assert (K : fsum d (fun i => (v i - s * g v i - x i) * (u i - x i)) <= s * penal u - s * penal x).
    { unfold penal. rewrite <- !fsum_scal, <- fsum_minus. apply fsum_le. intros i _.
      assert (Q := prox_sub i (v i - s * g v i) (u i)). exact Q. }
    assert (E : dist2 v u - dist2 x u + dist2 x v * - 1
        = 2 * fsum d (fun i => (v i - s * g v i - x i) * (x i - u i))
          + 2 * s * fsum d (fun i => (x i - v i) * g v i) - 2 * s * fsum d (fun i => (u i - v i) * g v i)).
    { unfold dist2. rewrite <- fsum_scal_r, <- fsum_minus, <- fsum_plus, <- !fsum_scal, <- fsum_plus, <- fsum_minus.
      apply fsum_ext. intros. ring. }
    assert (K' : fsum d (fun i => (v i - s * g v i - x i) * (x i - u i)) = - fsum d (fun i => (v i - s * g v i - x i) * (u i - x i))).
    { rewrite <- (Rmult_1_l (fsum d (fun i => _ * (u i - x i)))), <- Ropp_mult_distr_l_reverse, <- fsum_scal. apply fsum_ext. intros. ring. }
    rewrite K' in E. unfold objective.
    set (gx := fsum d (fun i => (x i - v i) * g v i)) in *. set (gu := fsum d (fun i => (u i - v i) * g v i)) in *.
    apply (Rmult_le_compat_l (2 * s)) in Gu; [|lra].
    lra.
  Qed.
  Lemma objective_ext u v : (forall i, (i < d)%nat -> u i = v i) -> objective u = objective v.
  Proof.
    intros H. unfold objective, penal. rewrite (f_ext u v H). apply f_equal.
    apply fsum_ext. intros i Hi. rewrite H by exact Hi. reflexivity.
  Qed.
  (** convexity *)
  Lemma smooth_convex t u v : 0 <= t <= 1 -> f (fun i => (1 - t) * u i + t * v i) <= (1 - t) * f u + t * f v.
  Proof.
    intros Ht. set (p := fun i => (1 - t) * u i + t * v i).
    assert (Pu := below u p). assert (Pv := below v p).
    assert (Z : (1 - t) * fsum d (fun i => (u i - p i) * g p i) + t * fsum d (fun i => (v i - p i) * g p i) = 0).
    { rewrite <- !fsum_scal, <- fsum_plus. apply fsum_zero. intros i _. unfold p. ring. }
    apply (Rmult_le_compat_l (1 - t)) in Pu; [|lra]. apply (Rmult_le_compat_l t) in Pv; [|lra]. lra.
  Qed.
  Lemma objective_convex t u v : 0 <= t <= 1 ->
    objective (fun i => (1 - t) * u i + t * v i) <= (1 - t) * objective u + t * objective v.
  Proof.
    intros Ht. unfold objective. assert (Q := smooth_convex t u v Ht).
    assert (P : penal (fun i => (1 - t) * u i + t * v i) <= (1 - t) * penal u + t * penal v).
    { unfold penal. rewrite <- !fsum_scal, <- fsum_plus. apply fsum_le. intros i _.
      assert (a1 : Rabs ((1 - t) * u i + t * v i) <= (1 - t) * Rabs (u i) + t * Rabs (v i)).
      { eapply Rle_trans; [apply Rabs_triang|]. rewrite !Rabs_mult, (Rabs_pos_eq (1 - t)), (Rabs_pos_eq t) by lra. lra. }
      assert (a2 : ((1 - t) * u i + t * v i) * ((1 - t) * u i + t * v i) <= (1 - t) * (u i * u i) + t * (v i * v i)).
      { assert (0 <= (t * (1 - t)) * ((u i - v i) * (u i - v i))) by (apply Rmult_le_pos; [apply Rmult_le_pos; lra|apply (Rle_0_sqr (u i - v i))]). lra. }
      assert (a3 := mask_nonneg i).
      assert (a4 : l1 * Rabs ((1 - t) * u i + t * v i) + l2 / 2 * (((1 - t) * u i + t * v i) * ((1 - t) * u i + t * v i))
                   <= (1 - t) * (l1 * Rabs (u i) + l2 / 2 * (u i * u i)) + t * (l1 * Rabs (v i) + l2 / 2 * (v i * v i))).
      { apply (Rmult_le_compat_l l1) in a1; [|lra]. apply (Rmult_le_compat_l (l2 / 2)) in a2; [|lra]. lra. }
      apply (Rmult_le_compat_l (mask i)) in a4; [|exact a3]. lra. }
    lra.
  Qed.
  (** ** the iteration *)
  Definition gstep (i : nat) (st : vec * vec) : vec * vec :=
    let v := fun j => fst st j + (INR i - 1) / (INR i + 2) * snd st j in
    (pg v, fun j => pg v j - fst st j).
  (** the state before iteration i *)
  Fixpoint run (init : vec) (n : nat) : vec * vec :=
    match n with O => (init, fun _ => 0) | S n' => gstep n' (run init n') end.
  Definition xk init n : vec := fst (run init n).
  Definition dk init n : vec := snd (run init n).
  Definition vk init n : vec := fun j => xk init n j + (INR n - 1) / (INR n + 2) * dk init n j.
  Lemma xk_S init n j : xk init (S n) j = pg (vk init n) j.
  Proof. reflexivity. Qed.
  Lemma dk_S init n j : dk init (S n) j = xk init (S n) j - xk init n j.
  Proof. reflexivity. Qed.
  (** the auxiliary sequence *)
  Definition uk init n : vec := fun j => xk init n j + (INR n - 1) / 2 * dk init n j.
  Lemma dist2_scale c u v u' v' : (forall j, (j < d)%nat -> u' j - v' j = c * (u j - v j)) -> dist2 u' v' = c * c * dist2 u v.
  Proof. intros H. unfold dist2. rewrite <- fsum_scal. apply fsum_ext. intros j Hj. rewrite H by exact Hj. ring. Qed.
  Lemma dist2_nonneg u v : 0 <= dist2 u v.
  Proof. unfold dist2. apply fsum_nonneg. intros j _. apply (Rle_0_sqr (u j - v j)). Qed.
  Lemma dist2_ext u v u' : (forall j, (j < d)%nat -> u' j = u j) -> dist2 u' v = dist2 u v.
  Proof. intros H. unfold dist2. apply fsum_ext. intros j Hj. rewrite H by exact Hj. reflexivity. Qed.
  Variable star : vec.
  Hypothesis opt : forall v, objective star <= objective v.
  Lemma lyapunov_step init n :
    s * ((INR n + 2) * (INR n + 2)) / 2 * (objective (xk init (S n)) - objective star) + dist2 (uk init (S n)) star
    <= s * (INR n * (INR n + 2)) / 2 * (objective (xk init n) - objective star) + dist2 (uk init n) star.
  Proof.
    assert (Hn := pos_INR n). set (m := INR n) in *. set (t := 2 / (m + 2)).
    assert (Ht : 0 < t <= 1).
    { unfold t. split; [apply Rmult_lt_0_compat; [lra|apply Rinv_0_lt_compat; lra]|].
      apply (Rmult_le_reg_r (m + 2)); [lra|]. unfold Rdiv. rewrite Rmult_assoc, Rinv_l by lra. lra. }
    set (p := fun j => (1 - t) * xk init n j + t * star j).
    assert (Q := prox_gradient (vk init n) p).
    rewrite (objective_ext (pg (vk init n)) (xk init (S n))) in Q by (intros; symmetry; apply xk_S).
    rewrite (dist2_ext (xk init (S n)) p (pg (vk init n))) in Q by (intros; symmetry; apply xk_S).
    assert (C := objective_convex t (xk init n) star ltac:(lra)). fold p in C.
    assert (D1 : dist2 (xk init (S n)) p = t * t * dist2 (uk init (S n)) star).
    { apply dist2_scale. intros j _. unfold p, uk. rewrite dk_S, S_INR. fold m. unfold t. field. lra. }
    assert (D2 : dist2 (vk init n) p = t * t * dist2 (uk init n) star).
    { apply dist2_scale. intros j _. unfold p, uk, vk. fold m. unfold t. field. lra. }
    rewrite D1, D2 in Q.
    set (e1 := objective (xk init (S n)) - objective star). set (e0 := objective (xk init n) - objective star).
    assert (Q2 : 2 * s * (e1 - (1 - t) * e0) + t * t * dist2 (uk init (S n)) star <= t * t * dist2 (uk init n) star).
    { assert (2 * s * (objective p) <= 2 * s * ((1 - t) * objective (xk init n) + t * objective star)) by (apply Rmult_le_compat_l; lra).
      unfold e1, e0. lra. }
    apply (Rmult_le_compat_l ((m + 2) * (m + 2) / 4)) in Q2; [|nra].
    replace ((m + 2) * (m + 2) / 4 * (t * t * dist2 (uk init n) star)) with (dist2 (uk init n) star) in Q2 by (unfold t; field; lra).
    replace ((m + 2) * (m + 2) / 4 * (2 * s * (e1 - (1 - t) * e0) + t * t * dist2 (uk init (S n)) star))
      with (s * ((m + 2) * (m + 2)) / 2 * e1 - s * (m * (m + 2)) / 2 * e0 + dist2 (uk init (S n)) star) in Q2 by (unfold t; field; lra).
    lra.
  Qed.
  Lemma lyapunov init n :
    s * (INR n * (INR n + 2)) / 2 * (objective (xk init n) - objective star) + dist2 (uk init n) star <= dist2 init star.
  Proof.
    induction n as [|n IH].
    - cbn [INR]. rewrite (dist2_ext init star (uk init 0)); [lra|]. intros j _. unfold uk, xk, dk. cbn. lra.
    - eapply Rle_trans; [|apply IH]. eapply Rle_trans; [|apply lyapunov_step]. apply Rplus_le_compat_r.
      rewrite S_INR. assert (Hn := pos_INR n). specialize (opt (xk init (S n))).
      apply Rmult_le_compat_r; [lra|]. unfold Rdiv. apply Rmult_le_compat_r; [lra|]. apply Rmult_le_compat_l; [lra|]. nra.
  Qed.
  Lemma fista_rate init n :
    objective (xk init (S n)) - objective star <= 2 * dist2 init star / (s * ((INR (S n) + 1) * (INR (S n) + 1))).
  Proof.
    assert (Q := Rle_trans _ _ _ (lyapunov_step init n) (lyapunov init n)).
    assert (Hn := pos_INR n). rewrite S_INR. replace (INR n + 1 + 1) with (INR n + 2) by ring.
    set (e := objective (xk init (S n)) - objective star) in *.
    assert (Hd := dist2_nonneg (uk init (S n)) star).
    assert (Hp : 0 < s * ((INR n + 2) * (INR n + 2))) by (apply Rmult_lt_0_compat; nra).
    apply (Rmult_le_reg_l (s * ((INR n + 2) * (INR n + 2)))); [exact Hp|].
    replace (s * ((INR n + 2) * (INR n + 2)) * (2 * dist2 init star / (s * ((INR n + 2) * (INR n + 2))))) with (2 * dist2 init star); [lra|].
    field. split; [lra|]. apply Rgt_not_eq. lra.
  Qed.
  End Fista.


(** ** The quadratic case: ElasticNet *)
Definition free0 (fit : bool) (j : nat) : bool := fit && Nat.eqb j 0.
Notation qrun d A b l1 l2 s fit := (run (qgrad d A b) l1 l2 s (free0 fit)).
(** The loop returns one of the iterates. *)
Lemma loop_iterate d A b l1 l2 s fit tol init n i :
  exists N, (i <= N <= i + n)%nat /\ (0 < n -> i < N)%nat
    /\ fista_loop d A b l1 l2 s fit tol n i (qrun d A b l1 l2 s fit init i) = fst (qrun d A b l1 l2 s fit init N)
    /\ (N = (i + n)%nat \/ fsum d (fun j => Rabs (snd (qrun d A b l1 l2 s fit init N) j)) < tol).
Proof.
  revert i. induction n as [|n IH]; intros i.
  - exists i. repeat split; try lia.
  - cbn [fista_loop].
    replace (fista_step d A b l1 l2 s fit i (qrun d A b l1 l2 s fit init i)) with (qrun d A b l1 l2 s fit init (S i)).
    2:{ cbn [run]. destruct (qrun d A b l1 l2 s fit init i) as [c dl]. reflexivity. }
    destruct (Rlt_dec _ tol) as [H|H].
    + exists (S i). repeat split; try lia. right. exact H.
    + destruct (IH (S i)) as [N [H1 [H2 [H3 H4]]]]. exists N. split; [lia|]. split; [lia|]. split; [exact H3|].
      destruct H4 as [->|H4]; [left; lia|right; exact H4].
Qed.
Definition smooth d A b (w : vec) : R := qform d A b w / 2.
Lemma quad_below d A b u v : (forall i j, (i < d)%nat -> (j < d)%nat -> A i j = A j i) -> (forall u, 0 <= bil d A u u) ->
  smooth d A b v + fsum d (fun i => (u i - v i) * qgrad d A b v i) <= smooth d A b u.
Proof.
  intros sym psd. unfold smooth. rewrite (qform_expand d A sym b v u). specialize (psd (fun i => u i - v i)). lra.
Qed.
Lemma quad_above d A b s u v : (forall i j, (i < d)%nat -> (j < d)%nat -> A i j = A j i) ->
  (forall u, s * bil d A u u <= fsum d (fun i => u i * u i)) ->
  2 * s * (smooth d A b u - smooth d A b v - fsum d (fun i => (u i - v i) * qgrad d A b v i)) <= dist2 d u v.
Proof.
  intros sym step. unfold smooth. rewrite (qform_expand d A sym b v u). specialize (step (fun i => u i - v i)).
  unfold dist2. cbv beta in step. lra.
Qed.

(** Normal equations, uniqueness and existence of least squares solutions. *)
From Coq Require Import Reals List Arith Lia Lra.
From Verif Require Import M_Num S_Leaf L_Fsum S_AdjustMany L_Leaf.
Import ListNotations.
Open Scope R_scope.

Section Normal.
  Context {A : Type}.
  Implicit Types (x : nat -> A -> R) (y : A -> R) (rows : list A).
  Definition orth p x y rows a b : Prop :=
    sum_of (fun r => y r - prediction p x a b r) rows = 0 /\
    forall i, (i < p)%nat -> sum_of (fun r => (y r - prediction p x a b r) * x i r) rows = 0.
  Lemma sum_of_fsum n (f : nat -> A -> R) rows : sum_of (fun r => fsum n (fun i => f i r)) rows = fsum n (fun i => sum_of (f i) rows).
  Proof.
    induction n as [|n IH]; cbn [fsum].
    - rewrite sum_of_const. ring.
    - rewrite sum_of_plus, IH. reflexivity.
  Qed.
  Lemma prediction_lin p x a b a' b' t r : prediction p x (a + t * a') (fun i => b i + t * b' i) r = prediction p x a b r + t * prediction p x a' b' r.
  Proof.
    unfold prediction. rewrite (fsum_ext _ (fun i => (b i + t * b' i) * x i r) (fun i => b i * x i r + t * (b' i * x i r))) by (intros; ring).
    rewrite fsum_plus, fsum_scal. ring.
  Qed.
  Lemma prediction_ext p x x' a b r : (forall i, (i < p)%nat -> x i r = x' i r) -> prediction p x a b r = prediction p x' a b r.
  Proof. intros H. unfold prediction. f_equal. apply fsum_ext. intros i Hi. now rewrite H. Qed.
  Lemma sum_prediction p x a b (f : A -> R) rows : sum_of (fun r => f r * prediction p x a b r) rows = a * sum_of f rows + fsum p (fun i => b i * sum_of (fun r => f r * x i r) rows).
  Proof.
    rewrite (sum_of_ext _ (fun r => a * f r + fsum p (fun i => b i * (f r * x i r)))).
    - rewrite sum_of_plus, sum_of_scal, sum_of_fsum. f_equal. apply fsum_ext. intros i _. now rewrite sum_of_scal.
    - intros r _. unfold prediction. rewrite (fsum_ext _ (fun i => b i * (f r * x i r)) (fun i => f r * (b i * x i r))) by (intros; ring). rewrite fsum_scal. ring.
  Qed.
  Lemma orth_prediction p x y rows a b a' b' : orth p x y rows a b -> sum_of (fun r => (y r - prediction p x a b r) * prediction p x a' b' r) rows = 0.
  Proof.
    intros [H1 H2]. rewrite sum_prediction, H1. rewrite fsum_zero; [ring|]. intros i Hi. rewrite H2 by assumption. ring.
  Qed.
  Lemma sse_split p x y rows a b a' b' t : sum_of (fun r => (y r - prediction p x (a + t * a') (fun i => b i + t * b' i) r) ^ 2) rows =
    sum_of (fun r => (y r - prediction p x a b r) ^ 2) rows - 2 * t * sum_of (fun r => (y r - prediction p x a b r) * prediction p x a' b' r) rows +
    t ^ 2 * sum_of (fun r => prediction p x a' b' r ^ 2) rows.
  Proof.
    rewrite (sum_of_ext _ (fun r => (y r - prediction p x a b r) ^ 2 + (- (2 * t) * ((y r - prediction p x a b r) * prediction p x a' b' r) + t ^ 2 * prediction p x a' b' r ^ 2)))
      by (intros r _; rewrite prediction_lin; ring).
    rewrite !sum_of_plus, !sum_of_scal. ring.
  Qed.
  Lemma prediction_b p x a b b' r : (forall i, (i < p)%nat -> b i = b' i) -> prediction p x a b r = prediction p x a b' r.
  Proof. intros H. unfold prediction. f_equal. apply fsum_ext. intros i Hi. now rewrite H. Qed.
  Lemma orth_error p x y rows a b a' b' : orth p x y rows a b -> sum_of (fun r => (y r - prediction p x a' b' r) ^ 2) rows =
    sum_of (fun r => (y r - prediction p x a b r) ^ 2) rows + sum_of (fun r => prediction p x (a' - a) (fun i => b' i - b i) r ^ 2) rows.
  Proof.
    intros H. pose proof (sse_split p x y rows a b (a' - a) (fun i => b' i - b i) 1) as E.
    rewrite (orth_prediction _ _ _ _ _ _ _ _ H) in E.
    rewrite <- (sum_of_ext (fun r => (y r - prediction p x (a + 1 * (a' - a)) (fun i => b i + 1 * (b' i - b i)) r) ^ 2)); [rewrite E; ring|].
    intros r _. f_equal. f_equal. replace (a + 1 * (a' - a)) with a' by ring. apply prediction_b. intros; ring.
  Qed.
  Lemma orth_fits p x y rows a b : orth p x y rows a b -> fits p x y rows a b.
  Proof.
    intros H a' b'. rewrite (orth_error _ _ _ _ _ _ a' b' H).
    assert (0 <= sum_of (fun r => prediction p x (a' - a) (fun i => b' i - b i) r ^ 2) rows) by (apply sum_of_nonneg; intros; apply pow2_ge_0). lra.
  Qed.
  Lemma fits_direction p x y rows a b a' b' : fits p x y rows a b -> sum_of (fun r => (y r - prediction p x a b r) * prediction p x a' b' r) rows = 0.
  Proof.
    intros H. set (C := sum_of _ rows). set (Q := sum_of (fun r => prediction p x a' b' r ^ 2) rows).
    assert (HQ : 0 <= Q) by (apply sum_of_nonneg; intros; apply pow2_ge_0).
    set (t := C / (Q + 1)). pose proof (H (a + t * a') (fun i => b i + t * b' i)) as HH. rewrite sse_split in HH. fold C Q in HH.
    assert (0 <= t ^ 2 * Q - 2 * t * C) by lra.
    assert (E : t ^ 2 * Q - 2 * t * C = - (C ^ 2 * (Q + 2)) / (Q + 1) ^ 2) by (unfold t; field; lra).
    rewrite E in H0. assert (HP : 0 < (Q + 1) ^ 2) by (apply pow_lt; lra).
    assert (H1 : 0 <= - (C ^ 2 * (Q + 2))).
    { replace (- (C ^ 2 * (Q + 2))) with (- (C ^ 2 * (Q + 2)) / (Q + 1) ^ 2 * (Q + 1) ^ 2) by (field; lra). apply Rmult_le_pos; lra. }
    pose proof (pow2_ge_0 C). nra.
  Qed.
  Lemma fits_orth p x y rows a b : fits p x y rows a b -> orth p x y rows a b.
  Proof.
    intros H. split.
    - pose proof (fits_direction _ _ _ _ _ _ 1 (fun _ => 0) H) as E.
      rewrite (sum_of_ext _ (fun r => y r - prediction p x a b r)) in E; [exact E|]. intros r _.
      assert (prediction p x 1 (fun _ => 0) r = 1) as ->; [|ring]. unfold prediction. rewrite fsum_zero; [ring|]. intros; ring.
    - intros i Hi. pose proof (fits_direction _ _ _ _ _ _ 0 (fun j => if Nat.eqb j i then 1 else 0) H) as E.
      rewrite (sum_of_ext _ (fun r => (y r - prediction p x a b r) * x i r)) in E; [exact E|]. intros r _.
      assert (prediction p x 0 (fun j => if Nat.eqb j i then 1 else 0) r = x i r) as ->; [|ring]. unfold prediction.
      rewrite (fsum_ext _ _ (fun j => if Nat.eqb j i then x j r else 0)); [rewrite fsum_delta by assumption; ring|]. intros j _. destruct (Nat.eqb j i); ring.
  Qed.
  Lemma sum_sq_zero (f : A -> R) rows : sum_of (fun r => f r ^ 2) rows <= 0 -> forall r, In r rows -> f r = 0.
  Proof.
    induction rows as [|q rows IH]; intros H r Hr; [destruct Hr|]. unfold sum_of in *. cbn [List.map Rsum] in H.
    assert (0 <= Rsum (List.map (fun r => f r ^ 2) rows)) by (apply (sum_of_nonneg (fun r => f r ^ 2)); intros; apply pow2_ge_0).
    pose proof (pow2_ge_0 (f q)). destruct Hr as [<-|Hr]; [nra|]. apply IH; [lra|assumption].
  Qed.
  (** Two least squares solutions predict the same. *)
  Lemma fits_predict p x y rows a b a' b' : fits p x y rows a b -> fits p x y rows a' b' -> forall r, In r rows -> prediction p x a b r = prediction p x a' b' r.
  Proof.
    intros H H' r Hr. pose proof (orth_error _ _ _ _ _ _ a' b' (fits_orth _ _ _ _ _ _ H)) as E. specialize (H' a b).
    pose proof (sum_sq_zero (fun r => prediction p x (a' - a) (fun i => b' i - b i) r) rows) as Z. cbv beta in Z.
    specialize (Z ltac:(lra) r Hr). pose proof (prediction_lin p x a b (a' - a) (fun i => b' i - b i) 1 r) as L. rewrite Z in L.
    rewrite <- (prediction_b p x a' (fun i => b i + 1 * (b' i - b i))) by (intros; ring). replace a' with (a + 1 * (a' - a)) by ring. rewrite L. ring.
  Qed.
  Lemma fits_unique p x y rows a b a' b' : independent p x rows -> fits p x y rows a b -> fits p x y rows a' b' -> a = a' /\ forall i, (i < p)%nat -> b i = b' i.
  Proof.
    intros HI H H'. pose proof (fits_predict _ _ _ _ _ _ _ _ H H') as E.
    destruct (HI (a - a') (fun i => b i - b' i)) as [E1 E2].
    - intros r Hr. specialize (E r Hr). pose proof (prediction_lin p x a b a' b' (-1) r) as L. rewrite <- E in L.
      rewrite <- (prediction_b p x _ (fun i => b i + -1 * b' i)) by (intros; ring). replace (a - a') with (a + -1 * a') by ring. rewrite L. ring.
    - split; [lra|]. intros i Hi. specialize (E2 i Hi). lra.
  Qed.
  Lemma fits_null p x y rows a b a0 b0 : fits p x y rows a b -> (forall r, In r rows -> prediction p x a0 b0 r = 0) -> fits p x y rows (a + a0) (fun i => b i + b0 i).
  Proof.
    intros H HZ a' b'. specialize (H a' b'). rewrite (sum_of_ext _ (fun r => (y r - prediction p x a b r) ^ 2)); [exact H|].
    intros r Hr. f_equal. f_equal. pose proof (prediction_lin p x a b a0 b0 1 r) as L. rewrite (HZ r Hr) in L.
    rewrite <- (prediction_b p x _ (fun i => b i + 1 * b0 i)) by (intros; ring). replace (a + a0) with (a + 1 * a0) by ring. rewrite L. ring.
  Qed.
  Lemma fits_intercept p x y rows a b a' b' : intercept_determined p x rows -> fits p x y rows a b -> fits p x y rows a' b' -> a = a'.
  Proof.
    intros HI H H'. pose proof (fits_predict _ _ _ _ _ _ _ _ H H') as E.
    pose proof (HI (a - a') (fun i => b i - b' i)) as E1. apply Rminus_diag_uniq. apply E1. intros r Hr. specialize (E r Hr).
    pose proof (prediction_lin p x a b a' b' (-1) r) as L. rewrite <- E in L.
    rewrite <- (prediction_b p x _ (fun i => b i + -1 * b' i)) by (intros; ring). replace (a - a') with (a + -1 * a') by ring. rewrite L. ring.
  Qed.
  Lemma fits_ext p x x' y y' rows a b : (forall i r, (i < p)%nat -> In r rows -> x i r = x' i r) -> (forall r, In r rows -> y r = y' r) -> fits p x y rows a b -> fits p x' y' rows a b.
  Proof.
    intros HX HY H a' b'. specialize (H a' b').
    rewrite (sum_of_ext _ (fun r => (y' r - prediction p x' a b r) ^ 2)) in H by (intros r Hr; rewrite HY by assumption; rewrite (prediction_ext p x x') by (intros; auto); reflexivity).
    rewrite (sum_of_ext (fun r => (y r - prediction p x a' b' r) ^ 2) (fun r => (y' r - prediction p x' a' b' r) ^ 2)) in H
      by (intros r Hr; rewrite HY by assumption; rewrite (prediction_ext p x x') by (intros; auto); reflexivity). exact H.
  Qed.
  (** Shifting the covariates moves the intercept only. *)
  Lemma prediction_shift p x d a b r : prediction p (fun i r => x i r - d i) a b r = prediction p x (a - fsum p (fun i => b i * d i)) b r.
  Proof.
    unfold prediction. rewrite (fsum_ext _ (fun i => b i * (x i r - d i)) (fun i => b i * x i r - b i * d i)) by (intros; ring). rewrite fsum_minus. ring.
  Qed.
  Lemma fits_shift p x d y rows a b : fits p (fun i r => x i r - d i) y rows a b <-> fits p x y rows (a - fsum p (fun i => b i * d i)) b.
  Proof.
    split; intros H a' b'.
    - specialize (H (a' + fsum p (fun i => b' i * d i)) b'). rewrite (sum_of_ext _ (fun r => (y r - prediction p x (a - fsum p (fun i => b i * d i)) b r) ^ 2)) in H by (intros; now rewrite prediction_shift).
      rewrite (sum_of_ext (fun r => (y r - prediction p (fun i r => x i r - d i) (a' + fsum p (fun i => b' i * d i)) b' r) ^ 2) (fun r => (y r - prediction p x a' b' r) ^ 2)) in H; [exact H|].
      intros r _. rewrite prediction_shift. now replace (a' + fsum p (fun i => b' i * d i) - fsum p (fun i => b' i * d i)) with a' by ring.
    - rewrite (sum_of_ext _ (fun r => (y r - prediction p x (a - fsum p (fun i => b i * d i)) b r) ^ 2)) by (intros; now rewrite prediction_shift).
      rewrite (sum_of_ext (fun r => (y r - prediction p (fun i r => x i r - d i) a' b' r) ^ 2) (fun r => (y r - prediction p x (a' - fsum p (fun i => b' i * d i)) b' r) ^ 2)) by (intros; now rewrite prediction_shift).
      apply H.
  Qed.
  Lemma independent_shift p x d rows : independent p x rows -> independent p (fun i r => x i r - d i) rows.
  Proof.
    intros H a b E. destruct (H (a - fsum p (fun i => b i * d i)) b) as [E1 E2].
    - intros r Hr. rewrite <- prediction_shift. auto.
    - split; [|exact E2]. rewrite fsum_zero in E1; [lra|]. intros i Hi. rewrite E2 by assumption. ring.
  Qed.

  (** A least squares solution, by orthogonalization. *)
  Fixpoint ols (p : nat) x y rows : R * (nat -> R) :=
    match p with
    | O => (mean_of y rows, fun _ => 0)
    | S q => let ab := ols q x y rows in let ce := ols q x (x q) rows in
             let rho r := x q r - prediction q x (fst ce) (snd ce) r in
             let den := sum_of (fun r => rho r ^ 2) rows in
             if Req_EM_T den 0 then (fst ab, fun i => if Nat.eqb i q then 0 else snd ab i)
             else let g := sum_of (fun r => y r * rho r) rows / den in
                  (fst ab - g * fst ce, fun i => if Nat.eqb i q then g else snd ab i - g * snd ce i)
    end.
  Lemma prediction_S q x a b r : prediction (S q) x a b r = prediction q x a b r + b q * x q r.
  Proof. unfold prediction. cbn [fsum]. ring. Qed.
  Lemma ols_orth rows : rows <> [] -> forall p x y, orth p x y rows (fst (ols p x y rows)) (snd (ols p x y rows)).
  Proof.
    intros Hn. assert (Hs : 0 < size rows) by (unfold size; destruct rows; [congruence|]; apply lt_0_INR; cbn; lia).
    induction p as [|q IH]; intros x y.
    - split; [|intros i Hi; lia]. cbn [ols fst snd]. unfold prediction. cbn [fsum].
      rewrite (sum_of_ext _ (fun r => y r + (- mean_of y rows))) by (intros; ring). rewrite sum_of_plus, sum_of_const. unfold mean_of. field. lra.
    - cbn [ols]. set (ab := ols q x y rows). set (ce := ols q x (x q) rows).
      pose proof (IH x y) as O1. pose proof (IH x (x q)) as O2. fold ab in O1. fold ce in O2.
      set (rho := fun r => x q r - prediction q x (fst ce) (snd ce) r).
      change (orth q x (x q) rows (fst ce) (snd ce)) with (sum_of rho rows = 0 /\ forall i, (i < q)%nat -> sum_of (fun r => rho r * x i r) rows = 0) in O2.
      assert (ORP : forall a b, sum_of (fun r => rho r * prediction q x a b r) rows = 0) by (intros a b; exact (orth_prediction q x (x q) rows (fst ce) (snd ce) a b O2)).
      set (den := sum_of (fun r => rho r ^ 2) rows).
      change (let ab' := if Req_EM_T den 0 then (fst ab, fun i => if Nat.eqb i q then 0 else snd ab i)
        else (fst ab - sum_of (fun r => y r * rho r) rows / den * fst ce, fun i => if Nat.eqb i q then sum_of (fun r => y r * rho r) rows / den else snd ab i - sum_of (fun r => y r * rho r) rows / den * snd ce i) in
        orth (S q) x y rows (fst ab') (snd ab')). cbv zeta.
      destruct (Req_EM_T den 0) as [D|D]; cbn [fst snd].
      + assert (EP : forall r, prediction (S q) x (fst ab) (fun i => if Nat.eqb i q then 0 else snd ab i) r = prediction q x (fst ab) (snd ab) r).
        { intros r. rewrite prediction_S, Nat.eqb_refl, (prediction_b q x _ _ (snd ab)); [ring|]. intros i Hi. destruct (Nat.eqb_spec i q); [lia|reflexivity]. }
        split.
        * rewrite (sum_of_ext _ (fun r => y r - prediction q x (fst ab) (snd ab) r)) by (intros; now rewrite EP). apply O1.
        * intros i Hi. destruct (Nat.eq_dec i q) as [->|N].
          -- rewrite (sum_of_ext _ (fun r => (y r - prediction q x (fst ab) (snd ab) r) * prediction q x (fst ce) (snd ce) r)).
             ++ apply orth_prediction, O1.
             ++ intros r Hr. rewrite EP. f_equal. pose proof (sum_sq_zero rho rows) as Z. fold den in Z. specialize (Z ltac:(lra) r Hr). unfold rho in Z. lra.
          -- rewrite (sum_of_ext _ (fun r => (y r - prediction q x (fst ab) (snd ab) r) * x i r)) by (intros; now rewrite EP). apply O1. lia.
      + set (g := sum_of (fun r => y r * rho r) rows / den). change (sum_of (fun r => y r * rho r) rows / den) with g.
        assert (EP : forall r, prediction (S q) x (fst ab - g * fst ce) (fun i => if Nat.eqb i q then g else snd ab i - g * snd ce i) r = prediction q x (fst ab) (snd ab) r + g * rho r).
        { intros r. rewrite prediction_S, Nat.eqb_refl. rewrite (prediction_b q x _ _ (fun i => snd ab i + (-g) * snd ce i)).
          - replace (fst ab - g * fst ce) with (fst ab + (- g) * fst ce) by ring. rewrite prediction_lin. unfold rho. ring.
          - intros i Hi. destruct (Nat.eqb_spec i q); [lia|ring]. }
        assert (ER : forall r, y r - prediction (S q) x (fst ab - g * fst ce) (fun i => if Nat.eqb i q then g else snd ab i - g * snd ce i) r = (y r - prediction q x (fst ab) (snd ab) r) + (- g) * rho r) by (intros; rewrite EP; ring).
        destruct O1 as [O11 O12]. destruct O2 as [O21 O22]. split.
        * rewrite (sum_of_ext _ (fun r => (y r - prediction q x (fst ab) (snd ab) r) + (- g) * rho r)) by (intros; apply ER). rewrite sum_of_plus, sum_of_scal, O11, O21. ring.
        * intros i Hi. rewrite (sum_of_ext _ (fun r => (y r - prediction q x (fst ab) (snd ab) r) * x i r + (- g) * (rho r * x i r))) by (intros; rewrite ER; ring).
          rewrite sum_of_plus, sum_of_scal. destruct (Nat.eq_dec i q) as [->|N].
          -- (* x q = rho + its prediction *)
             rewrite (sum_of_ext (fun r => (y r - prediction q x (fst ab) (snd ab) r) * x q r) (fun r => (y r * rho r + (-1) * (rho r * prediction q x (fst ab) (snd ab) r)) + (y r - prediction q x (fst ab) (snd ab) r) * prediction q x (fst ce) (snd ce) r))
               by (intros; unfold rho; ring).
             rewrite !sum_of_plus, sum_of_scal, ORP, (orth_prediction q x y rows _ _ _ _ (conj O11 O12)).
             rewrite (sum_of_ext (fun r => rho r * x q r) (fun r => rho r ^ 2 + rho r * prediction q x (fst ce) (snd ce) r)) by (intros; unfold rho; ring).
             rewrite sum_of_plus, ORP. fold den. unfold g. field. exact D.
          -- rewrite O12, O22 by lia. ring.
  Qed.
  Lemma ols_fits rows p x y : rows <> [] -> fits p x y rows (fst (ols p x y rows)) (snd (ols p x y rows)).
  Proof. intros H. apply orth_fits, ols_orth, H. Qed.
End Normal.

(** Data after a map. *)
Lemma fits_map {A B} (g : A -> B) p x y rows a b : fits p x y (List.map g rows) a b <-> fits p (fun i r => x i (g r)) (fun r => y (g r)) rows a b.
Proof.
  unfold fits. split; intros H a' b'; specialize (H a' b'); unfold sum_of in *; rewrite !List.map_map in *; exact H.
Qed.

(** Finite sums over 0..n-1. *)
From Coq Require Import Reals Lra Lia List.
Import ListNotations.
Open Scope R_scope.

Fixpoint fsum (n : nat) (f : nat -> R) : R :=
  match n with O => 0 | S n' => fsum n' f + f n' end.

Lemma fsum_ext n f g : (forall i, (i < n)%nat -> f i = g i) -> fsum n f = fsum n g.
Proof.
  induction n as [|n IH]; intros H; [reflexivity|].
  cbn [fsum]. rewrite IH by (intros i Hi; apply H; lia). rewrite (H n) by lia. reflexivity.
Qed.
Lemma fsum_plus n f g : fsum n (fun i => f i + g i) = fsum n f + fsum n g.
Proof. induction n as [|n IH]; cbn [fsum]; [lra|rewrite IH; lra]. Qed.
Lemma fsum_minus n f g : fsum n (fun i => f i - g i) = fsum n f - fsum n g.
Proof. induction n as [|n IH]; cbn [fsum]; [lra|rewrite IH; lra]. Qed.
Lemma fsum_scal n c f : fsum n (fun i => c * f i) = c * fsum n f.
Proof. induction n as [|n IH]; cbn [fsum]; [lra|rewrite IH; lra]. Qed.
Lemma fsum_scal_r n c f : fsum n (fun i => f i * c) = fsum n f * c.
Proof. induction n as [|n IH]; cbn [fsum]; [lra|rewrite IH; lra]. Qed.
Lemma fsum_zero n f : (forall i, (i < n)%nat -> f i = 0) -> fsum n f = 0.
Proof.
  induction n as [|n IH]; intros H; [reflexivity|].
  cbn [fsum]. rewrite IH by (intros i Hi; apply H; lia). rewrite (H n) by lia. lra.
Qed.
Lemma fsum_le n f g : (forall i, (i < n)%nat -> f i <= g i) -> fsum n f <= fsum n g.
Proof.
  induction n as [|n IH]; intros H; [cbn; lra|].
  cbn [fsum]. specialize (IH (fun i Hi => H i ltac:(lia))). specialize (H n ltac:(lia)). lra.
Qed.
Lemma fsum_nonneg n f : (forall i, (i < n)%nat -> 0 <= f i) -> 0 <= fsum n f.
Proof.
  intros H. replace 0 with (fsum n (fun _ => 0)) by (apply fsum_zero; reflexivity).
  apply fsum_le. exact H.
Qed.
Lemma fsum_sq_zero n f : fsum n (fun i => f i * f i) = 0 -> forall i, (i < n)%nat -> f i = 0.
Proof.
  induction n as [|n IH]; intros H i Hi; [lia|].
  cbn [fsum] in H.
  assert (H0 : 0 <= fsum n (fun i => f i * f i)) by (apply fsum_nonneg; intros; nra).
  assert (H1 : 0 <= f n * f n) by nra.
  destruct (Nat.eq_dec i n) as [->|Hne].
  - nra.
  - apply IH; [lra|lia].
Qed.
(** the sum that keeps one term *)
Lemma fsum_delta n k f : (k < n)%nat -> fsum n (fun i => if Nat.eqb i k then f i else 0) = f k.
Proof.
  induction n as [|n IH]; intros H; [lia|].
  cbn [fsum]. destruct (Nat.eq_dec k n) as [->|Hne].
  - rewrite Nat.eqb_refl, fsum_zero; [lra|].
    intros i Hi. destruct (Nat.eqb_spec i n); [lia|reflexivity].
  - rewrite IH by lia. destruct (Nat.eqb_spec n k); [lia|lra].
Qed.
Lemma fsum_shift n f : fsum (S n) f = f 0%nat + fsum n (fun i => f (S i)).
Proof.
  induction n as [|n IH]; [cbn; lra|].
  change (fsum (S (S n)) f) with (fsum (S n) f + f (S n)). rewrite IH. cbn [fsum]. lra.
Qed.
Lemma fsum_swap n m f : fsum n (fun i => fsum m (fun j => f i j)) = fsum m (fun j => fsum n (fun i => f i j)).
Proof.
  induction n as [|n IH]; cbn [fsum].
  - symmetry. apply fsum_zero. reflexivity.
  - rewrite IH, <- fsum_plus. reflexivity.
Qed.
Lemma fsum_prod n f g : fsum n f * fsum n g = fsum n (fun i => fsum n (fun j => f i * g j)).
Proof.
  rewrite <- fsum_scal_r. apply fsum_ext. intros i _. rewrite fsum_scal. reflexivity.
Qed.
Lemma fsum_abs n f : Rabs (fsum n f) <= fsum n (fun i => Rabs (f i)).
Proof.
  induction n as [|n IH]; cbn [fsum]; [rewrite Rabs_R0; lra|].
  eapply Rle_trans; [apply Rabs_triang|]. lra.
Qed.

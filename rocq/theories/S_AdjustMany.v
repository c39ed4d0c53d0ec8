(** Least squares with several covariates, for the properties of PrePostChange and CUPED. *)
From Coq Require Import Reals List.
From Verif Require Import M_Num S_Leaf L_Fsum.
Open Scope R_scope.

Section LeastSquares.
  Context {A : Type}.
  (** a + b_0 x_0 + ... + b_(p-1) x_(p-1) *)
  Definition prediction (p : nat) (x : nat -> A -> R) (a : R) (b : nat -> R) (r : A) : R :=
    a + fsum p (fun i => b i * x i r).
  (** the sum of the squared errors is as small as it can be *)
  Definition fits (p : nat) (x : nat -> A -> R) (y : A -> R) (rows : list A) (a : R) (b : nat -> R) : Prop :=
    forall a' b', sum_of (fun r => (y r - prediction p x a b r) ^ 2) rows <= sum_of (fun r => (y r - prediction p x a' b' r) ^ 2) rows.
  (** No affine combination of the covariates vanishes on all rows, except the trivial one. *)
  Definition independent (p : nat) (x : nat -> A -> R) (rows : list A) : Prop :=
    forall a b, (forall r, In r rows -> prediction p x a b r = 0) -> a = 0 /\ forall i, (i < p)%nat -> b i = 0.
  (** Wherever an affine combination vanishes on all rows its constant is 0: the rows determine the fitted
      value at covariates (0, ..., 0). *)
  Definition intercept_determined (p : nat) (x : nat -> A -> R) (rows : list A) : Prop :=
    forall a b, (forall r, In r rows -> prediction p x a b r = 0) -> a = 0.
  (** b0 + b1 treated + sum of b2_i x_i + treated * sum of b3_i x_i is a best fit to the rows of the baseline
      (treated = 0) and of one treatment (treated = 1): the model of the class doc of PrePostChange. *)
  Definition best_interaction_model_many (p : nat) (x : nat -> A -> R) (y : A -> R) (baseline treatment : list A)
      (b0 b1 : R) (b2 b3 : nat -> R) : Prop :=
    let error (c0 c1 : R) (c2 c3 : nat -> R) :=
      sum_of (fun r => (y r - (c0 + c1 * 0 + fsum p (fun i => c2 i * x i r) + 0 * fsum p (fun i => c3 i * x i r))) ^ 2) baseline +
      sum_of (fun r => (y r - (c0 + c1 * 1 + fsum p (fun i => c2 i * x i r) + 1 * fsum p (fun i => c3 i * x i r))) ^ 2) treatment in
    forall c0 c1 c2 c3, error b0 b1 b2 b3 <= error c0 c1 c2 c3.
  (** Every covariate u_i is, on the rows, an affine combination of the covariates x_j. *)
  Definition combinations (q : nat) (u : nat -> A -> R) (p : nat) (x : nat -> A -> R) (rows : list A) : Prop :=
    forall i, (i < q)%nat -> exists d m, forall r, In r rows -> u i r = prediction p x d m r.
End LeastSquares.

(** A regression that returns a least squares solution whenever there is data. *)
Definition solves (lm : nat -> list ((nat -> R) * R) -> R * (nat -> R)) : Prop :=
  forall p data, data <> nil -> fits p (fun i d => fst d i) snd data (fst (lm p data)) (snd (lm p data)).

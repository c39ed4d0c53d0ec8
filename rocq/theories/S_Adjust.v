(** Least squares, for the properties of PrePostChange and CUPED. *)
From Coq Require Import Reals List.
From Verif Require Import M_Num S_Leaf.
Open Scope R_scope.

(** a + b x is a line of least squares through the points (x, y) of the rows. *)
Definition least_squares {A} (x y : A -> R) (rows : list A) (a b : R) : Prop :=
  forall a' b', sum_of (fun r => (y r - (a + b * x r)) ^ 2) rows <= sum_of (fun r => (y r - (a' + b' * x r)) ^ 2) rows.
(** b0 + b1 treated + b2 x + b3 treated x is a best fit to the rows of the baseline (treated = 0) and
    of one treatment (treated = 1): the model of the class doc of PrePostChange. *)
Definition best_interaction_model {A} (x y : A -> R) (baseline treatment : list A) (b0 b1 b2 b3 : R) : Prop :=
  let error (c0 c1 c2 c3 : R) :=
    sum_of (fun r => (y r - (c0 + c1 * 0 + c2 * x r + c3 * 0 * x r)) ^ 2) baseline +
    sum_of (fun r => (y r - (c0 + c1 * 1 + c2 * x r + c3 * 1 * x r)) ^ 2) treatment in
  forall c0 c1 c2 c3, error b0 b1 b2 b3 <= error c0 c1 c2 c3.

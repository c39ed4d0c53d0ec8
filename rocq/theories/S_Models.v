(** What the fitted coefficients of a linear model are: minimizers of the penalized squared loss.
    [w] lists the intercept first when there is one. *)
From Coq Require Import Reals List.
From Verif Require Import M_Num M_Frame L_Fsum M_Models.
Import ListNotations.
Open Scope R_scope.

Definition n_coef (k : nat) (fit_intercept : bool) : nat := if fit_intercept then S k else k.
Definition intercept (fit_intercept : bool) (w : list R) : R := if fit_intercept then nth 0 w 0 else 0.
Definition slope (fit_intercept : bool) (w : list R) (i : nat) : R := nth (if fit_intercept then S i else i) w 0.
Definition predict (k : nat) (fit_intercept : bool) (w : list R) (r : row) : R :=
  intercept fit_intercept w + fsum k (fun i => slope fit_intercept w i * feat i r).
Definition squared_error k fit_intercept (rows : list row) (w : list R) : R :=
  Rsum (map (fun r => (resp r - predict k fit_intercept w r) ^ 2) rows).
(** sklearn's Ridge loss; alpha = 0 is ordinary least squares *)
Definition ridge_loss k fit_intercept alpha rows w : R :=
  squared_error k fit_intercept rows w + alpha * fsum k (fun i => slope fit_intercept w i ^ 2).
(** sklearn's ElasticNet loss; l1 = alpha * l1_ratio, l2 = alpha * (1 - l1_ratio); l2 = 0 is the lasso *)
Definition elastic_loss k fit_intercept l1 l2 rows w : R :=
  squared_error k fit_intercept rows w / (2 * INR (List.length rows))
  + l1 * fsum k (fun i => Rabs (slope fit_intercept w i)) + l2 / 2 * fsum k (fun i => slope fit_intercept w i ^ 2).
Definition minimizes (d : nat) (loss : list R -> R) (w : list R) : Prop :=
  List.length w = d /\ forall v, List.length v = d -> loss w <= loss v.

(** The data normalized as in the pandas computation, models.py 112-117: x -= mean, x /= l2 norm. *)
Definition mean_x rows i : R := Rsum (map (feat i) rows) / INR (List.length rows).
Definition mean_y (rows : list row) : R := Rsum (map resp rows) / INR (List.length rows).
Definition norm_x rows i : R := sqrt (Rsum (map (fun r => (feat i r - mean_x rows i) ^ 2) rows)).
Definition normalized k rows : list row :=
  map (fun r => (map (fun i => (feat i r - mean_x rows i) / norm_x rows i) (seq 0 k), resp r)) rows.
(** models.py 119-130: the coefficients reported for the original data, from those [v] of the normalized data *)
Definition rescaled k rows (v : list R) : list R :=
  let c := map (fun i => slope true v i / norm_x rows i) (seq 0 k) in
  (mean_y rows - fsum k (fun i => mean_x rows i * nth i c 0)) :: c.

(** ** For the iterative solver *)
(** the data the iteration runs on: x centered when there is an intercept *)
Definition fit_data (k : nat) (fit_intercept : bool) (rows : list row) : list row :=
  if fit_intercept then map (fun r => (map (fun i => feat i r - mean_x rows i) (seq 0 k), resp r)) rows else rows.
(** [lam] bounds the quadratic form X'X / n of the design matrix of [rows] (as its largest eigenvalue does) *)
Definition design_bound (k : nat) (fit_intercept : bool) (lam : R) (rows : list row) : Prop :=
  forall u, List.length u = n_coef k fit_intercept ->
    Rsum (map (fun r => predict k fit_intercept u r ^ 2) rows) / INR (List.length rows)
    <= lam * fsum (n_coef k fit_intercept) (fun i => nth i u 0 ^ 2).
(** squared distance of the initial guess from [star] in the coordinates of [fit_data], where the best intercept is the
    mean of y *)
Definition start_distance (k : nat) (fit_intercept : bool) (rows : list row) (init : nat -> R) (star : list R) : R :=
  (if fit_intercept then (init 0%nat - mean_y rows) ^ 2 else 0)
  + fsum k (fun i => (init (if fit_intercept then S i else i) - slope fit_intercept star i) ^ 2).

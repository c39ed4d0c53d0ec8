(** The logistic loss.  [w] lists the intercept first when there is one. *)
From Coq Require Import Reals List.
From Verif Require Import M_Num M_Frame L_Fsum M_Models S_Models.
Import ListNotations.
Open Scope R_scope.

Definition sigmoid (z : R) : R := / (1 + exp (- z)).
(** minus the log-likelihood of y in {0, 1} when P(y = 1) = sigmoid(score) *)
Definition log_loss (score y : R) : R := ln (1 + exp score) - y * score.
Definition mean_log_loss k fit_intercept (rows : list row) (w : list R) : R :=
  Rsum (map (fun r => log_loss (predict k fit_intercept w r) (resp r)) rows) / INR (List.length rows).
(** sklearn's loss C * sum of log losses + |w|^2 / 2, divided by C * n; None: no penalty *)
Definition logistic_loss k fit_intercept (c : option R) rows w : R :=
  mean_log_loss k fit_intercept rows w
  + match c with
    | Some c => fsum k (fun i => slope fit_intercept w i ^ 2) / (2 * INR (List.length rows) * c)
    | None => 0
    end.
(** sklearn's elastic net loss sum of log losses * C + l1_ratio * |w|_1 + (1 - l1_ratio) / 2 * |w|^2, divided by C * n *)
Definition logistic_elastic_loss k fit_intercept (c l1_ratio : R) rows w : R :=
  mean_log_loss k fit_intercept rows w
  + (l1_ratio * fsum k (fun i => Rabs (slope fit_intercept w i))
     + (1 - l1_ratio) / 2 * fsum k (fun i => slope fit_intercept w i ^ 2)) / (c * INR (List.length rows)).
Definition set_nth (j : nat) (t : R) (l : list R) : list R := map (fun i => if Nat.eqb i j then t else nth i l 0) (seq 0 (List.length l)).

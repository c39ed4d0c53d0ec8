(** What C70 asks of a metric. *)
From Coq Require Import Reals List Bool String Permutation.
From Verif Require Import M_Num M_Frame M_Leaf M_SqlGlobal M_SqlLeaf M_SqlOps.
Import ListNotations.
Open Scope list_scope.

(** Metrics other than Sum, Count, Mean, Dot, Max, Min, Count(distinct), Variance, StandardDeviation, CV, Cov, Correlation have
    to be functions of the bag of rows. *)
Definition order_free_leaf (l : leaf) : Prop :=
  match l with Lf (LOther agg) => forall rows rows', Permutation rows rows' -> agg rows = agg rows' | _ => True end.
Fixpoint order_free_metric (m : metric) : Prop :=
  match m with
  | MLeaf l _ => order_free_leaf l
  | MOp _ a b _ => order_free_metric a /\ order_free_metric b
  | MConstL _ _ a _ | MConstR _ a _ _ | MSqrt a _ | MSq a _ => order_free_metric a
  end.
Fixpoint order_free (m : otree) : Prop :=
  match m with
  | OLeaf m _ => order_free_metric m
  | ODist _ c _ | OCum _ _ _ c _ | OChange _ _ _ _ c _ | ODiv _ _ c _ => order_free c
  | OBin _ a b _ _ => order_free a /\ order_free b
  | OConstL _ _ c _ _ | OConstR _ c _ _ _ => order_free c
  end.

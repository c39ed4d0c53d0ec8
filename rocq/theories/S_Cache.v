(** What the caching properties are about, in terms of metric trees, data and filters only. *)
From Coq Require Import List String ZArith QArith Bool Permutation.
From Verif Require Import M_Metric M_Cache.
Import ListNotations.
Open Scope string_scope.
Open Scope list_scope.

(** Facts about the computations on data that the cache relies on: the product, correlation
    and covariance of two columns do not depend on their order; the mean of a column is its
    sum divided by its count; a slice has one value per column. *)
Record laws {V} (S : sem V) : Prop := Laws {
  dot_sym : forall a b n df sb, lsem S (LDot a b n) df sb = lsem S (LDot b a n) df sb;
  corr_sym : forall a b w m df sb, lsem S (LCorrelation a b w m) df sb = lsem S (LCorrelation b a w m) df sb;
  cov_sym : forall a b bi d w f df sb, lsem S (LCov a b bi d w f) df sb = lsem S (LCov b a bi d w f) df sb;
  mean_is_sum_over_count : forall v df sb,
    lsem S (LMean v None) df sb =
    rbind (lsem S (LSum v) df sb) (fun s => rbind (lsem S (LCount v false) df sb) (fun c => csem S BDiv (CV s) (CV c) sb));
  groups_length : forall df sb vals, In vals (groups S df sb) -> List.length vals = List.length sb
}.

Definition builtin_classes : list string :=
  ["MetricList"; "CompositeMetric"; "Count"; "Sum"; "Dot"; "Mean"; "Max"; "Min"; "Nth"; "Quantile";
   "Variance"; "StandardDeviation"; "CV"; "Correlation"; "Cov"; "Distribution"; "CumulativeDistribution";
   "PercentChange"; "AbsoluteChange"; "HHI"; "Entropy"; "TopK"; "Nxx"].

(** A condition on every node of a tree. *)
Fixpoint every (P : nat -> kind -> list string -> list metric -> Prop) (m : metric) : Prop :=
  match m with
  | Const _ => True
  | Node i k w cs => P i k w cs /\ fold_right (fun c r => every P c /\ r) True cs
  end.

(** Trees as the API builds them: leaves have no children, user classes are not named like
    built-in ones, composites come from the arithmetic operators (or the user uses one
    function per template), MetricLists leave children_return_dataframe at its default. *)
Definition built (i : nat) (k : kind) (w : list string) (cs : list metric) : Prop :=
  match k with
  | KLeaf l => cs = [] /\ match l with LCustom c _ => ~ In c builtin_classes | _ => True end
  | KCustom c => ~ In c builtin_classes /\ cs <> []
  | KComp b => match b with BUser _ _ => False | _ => True end
  | KList crd => crd = true
  | KOp _ _ _ => True
  end.

(** The children of a composite are Sum(v) and Count(v) with the same filter. *)
Definition sum_and_count (cs : list metric) (v : string) (w : list string) : Prop :=
  exists i j w', cs = [Node i (KLeaf (LSum v)) w []; Node j (KLeaf (LCount v false)) w' []] /\
                 Permutation w w'.

(** Composites of Sum(v) and Count(v) are only divisions and are not filtered themselves. *)
Definition safe_mean (i : nat) (k : kind) (w : list string) (cs : list metric) : Prop :=
  match k with
  | KComp b => forall v w', sum_and_count cs v w' -> b = BDiv /\ w = []
  | _ => True
  end.
(** ... and neither are the Sum and the Count. *)
Definition unfiltered_mean (i : nat) (k : kind) (w : list string) (cs : list metric) : Prop :=
  match k with KComp b => forall v w', sum_and_count cs v w' -> w' = [] | _ => True end.

Definition fingerprintable (m : metric) : Prop := every built m /\ every safe_mean m.
Definition cacheable (m : metric) : Prop :=
  every built m /\ every safe_mean m /\ every unfiltered_mean m.

(** No object is a proper part of itself. *)
Definition acyclic : metric -> Prop :=
  every (fun i _ _ cs => ~ In i (flat_map oids cs)).

(** [sb]: columns split by; [D]: columns whose value is already fixed by the current slice. No
    operation splits again by a column that is already fixed or split by. *)
Fixpoint fresh_splits (D sb : list string) (m : metric) : Prop :=
  match m with
  | Const _ => True
  | Node _ k _ cs =>
      NoDup sb /\ (forall c, In c sb -> ~ In c D) /\
      match k with
      | KOp _ ex _ => fold_right (fun c r => fresh_splits D (sb ++ ex) c /\ r) True cs
      | KCustom _ => fold_right (fun c r => fresh_splits (D ++ sb) [] c /\ r) True cs
      | _ => fold_right (fun c r => fresh_splits D sb c /\ r) True cs
      end
  end.

(** No object has a cache_key, as before any computation. *)
Definition no_keys : nat -> option ckey := fun _ => None.

(** What a call is supposed to return. *)
Definition expected {V} (S : sem V) (c : call) : res (ret V) :=
  value S (c_metric c) (c_df c) (c_split c) (c_rdf c).
Definition well_formed (c : call) : Prop :=
  cacheable (c_metric c) /\ acyclic (c_metric c) /\ fresh_splits [] (c_split c) (c_metric c).

Definition root (m : metric) : option nat := match m with Node i _ _ _ => Some i | _ => None end.
Definition where_of (m : metric) : list string := match m with Node _ _ w _ => w | _ => [] end.
Definition inner_oids (m : metric) : list nat := match m with Node _ _ _ cs => flat_map oids cs | _ => [] end.

(** [c2] may come after [c1] if the metric computed in [c2] is not a part of the metric computed
    in [c1], and if it is the same metric then it was not split when it now isn't. *)
Definition may_follow (c1 c2 : call) : Prop :=
  (forall i, root (c_metric c2) = Some i -> ~ In i (inner_oids (c_metric c1))) /\
  (root (c_metric c1) = root (c_metric c2) ->
     where_of (c_metric c1) = where_of (c_metric c2) /\ (c_split c2 = [] -> c_split c1 = [])).

(** The user gives the same key only for the same data and no falsy key. *)
Definition honest_keys (dfof : raw -> frame) (c : call) : Prop :=
  forall r, c_key c = Some r -> r <> "" /\ c_df c = dfof r.

(** No user metric with children; all filters are valid. *)
Definition no_custom : metric -> Prop := every (fun _ k _ _ => match k with KCustom _ => False | _ => True end).
Definition valid_filters {V} (S : sem V) : metric -> Prop := every (fun _ _ w _ => existsb (qbad S) w = false).

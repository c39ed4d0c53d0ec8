(** What C66 compares, and for which MH and data. *)
From Coq Require Import Reals List Bool String.
From Verif Require Import M_Num M_Frame M_Ops M_SqlGlobal M_SqlLeaf S_SqlLeaf M_SqlOps S_SqlOps M_SqlList S_SqlList M_SqlMH.
Import ListNotations.
Open Scope list_scope.

(** A baseline label for every condition column; numerator and denominator are supported (S_SqlOps), have the same index columns and different
    names and are not the same metric under two names. *)
Definition supported_mh (x : mh_op) (split_by : list string) : Prop :=
  mh_cond x <> [] /\ List.length (mh_base x) = List.length (mh_cond x) /\
  supported_tree (mh_by x split_by) (mh_numer x) /\ supported_tree (mh_by x split_by) (mh_denom x) /\
  extra_idx (mh_denom x) = extra_idx (mh_numer x) /\ value_name (mh_numer x) <> value_name (mh_denom x) /\
  ~ renamed (mh_child_sql x split_by (mh_numer x)) (mh_child_sql x split_by (mh_denom x)) /\
  ~ In (mh_value x) (mh_index x split_by).
Definition mh_leaves_fit (parse : string -> cond) (x : mh_op) (split_by : list string) (t : stable) : Prop :=
  let wh := get_global_filter (mh_filter_tree x) in
  forall m, m = mh_numer x \/ m = mh_denom x -> forall metric above loc by',
    In (metric, above, loc, by') (bottoms wh m (mh_by x split_by) (mh_where x ++ mh_child_where x) (mh_local x)) -> leaf_fits parse wh metric above loc by' t.
(** The baseline occurs, in each stratum the denominators of the baseline and of another condition do not cancel, and pandas divides no
    nonzero number by zero. *)
Definition mh_data_fits (n nc ns : nat) (base : list string) (include_base : bool) (fr : frame2) : Prop :=
  (exists k q, In (k, q) fr /\ cond_of n nc k = base) /\
  (forall s c rest ka na kb nb, List.length s = n -> List.length c = nc ->
     In (s ++ c ++ rest, (ka, Fin na)) fr -> In (s ++ base ++ rest, (kb, Fin nb)) fr -> (na + nb = 0)%R -> na = 0%R) /\
  (forall res k v, mh n nc ns base include_base fr = Some res -> In (k, v) res -> v <> PInf /\ v <> NInf).
Definition mh_fits (parse : string -> cond) (psort : cum_how -> bool -> nat -> rframe -> rframe) (x : mh_op) (split_by : list string) (df : table) : Prop :=
  let df' := filter (pfilters parse (mh_child_where x)) (filter (pfilters parse (mh_where x)) df) in
  tree_fits parse psort (mh_numer x) (mh_by x split_by) df' /\ tree_fits parse psort (mh_denom x) (mh_by x split_by) df' /\
  forall fr, mh_children parse psort x split_by df = Some fr ->
    mh_data_fits (List.length split_by) (List.length (mh_cond x)) (List.length (mh_strata x)) (mh_base x) (mh_include_base x) fr.

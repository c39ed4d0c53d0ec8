(** What C81 compares, and for which operations and data. *)
From Coq Require Import Reals List Bool String.
From Verif Require Import M_Num M_Frame M_Ops M_SqlGlobal M_SqlLeaf S_SqlLeaf M_SqlOps S_SqlOps M_SqlList S_SqlList M_Adjust M_SqlMHList M_SqlAdjust.
Import ListNotations.
Open Scope string_scope.
Open Scope list_scope.

(** A baseline label for every condition column, at least one column of strata; two leaf metrics (C16) with different names and different
    expressions; no column has the name of another. *)
Definition supported_adj (x : adj_op) (split_by : list string) : Prop :=
  let y := value_name (a_child x) in let c := value_name (a_cov x) in
  a_cond x <> [] /\ List.length (a_base x) = List.length (a_cond x) /\ a_strata x <> [] /\ NoDup (adj_by x split_by) /\
  (exists m name, a_child x = OLeaf m name) /\ (exists m name, a_cov x = OLeaf m name) /\ y <> c /\
  ~ renamed (adj_child_sql x split_by (a_child x)) (adj_child_sql x split_by (a_cov x)) /\
  ~ In y (adj_by x split_by) /\ ~ In c (adj_by x split_by) /\ ~ In (adj_name x) (adj_index x split_by) /\
  ~ In (String.append y (match a_kind x with PrePost => " Percent Change" | Cuped => " Absolute Change" end)) (adj_index x split_by) /\
  (a_kind x = Cuped -> c <> String.append y "_theta" /\ ~ In (String.append y "_theta") (adj_by x split_by)).
Definition adj_leaves_fit (parse : string -> cond) (x : adj_op) (split_by : list string) (t : stable) : Prop :=
  let wh := get_global_filter (adj_filter_tree x) in
  forall m, m = a_child x \/ m = a_cov x -> forall metric above loc by',
    In (metric, above, loc, by') (bottoms wh m (adj_by x split_by) (a_where x) (adj_local x)) -> leaf_fits parse wh metric above loc by' t.
(** The child and the covariate have a number for every combination of labels; every slice of split_by has the baseline, and for PrePost no
    adjusted baseline is 0. *)
Definition adj_fits (parse : string -> cond) (psort : cum_how -> bool -> nat -> rframe -> rframe) (x : adj_op) (split_by : list string) (df : table) : Prop :=
  forall a b, adj_children parse psort x split_by df = Some (a, b) ->
    (forall k, In k (List.map fst a) \/ In k (List.map fst b) -> (exists u, In (k, Fin u) a) /\ (exists v, In (k, Fin v) b)) /\
    match a_kind x with
    | PrePost => change_fits true (List.length split_by) (a_base x)
        (prepost_adjusted split_by (a_cond x) (value_name (a_child x)) (value_name (a_cov x)) (aligned (adj_by x split_by) (value_name (a_child x)) (value_name (a_cov x)) a b))
    | Cuped => change_fits false (List.length split_by) (a_base x)
        (cuped_adjusted split_by (a_cond x) (value_name (a_child x)) (value_name (a_cov x)) (aligned (adj_by x split_by) (value_name (a_child x)) (value_name (a_cov x)) a b))
    end.

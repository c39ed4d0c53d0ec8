(** What C84 compares, and for which lists and data. *)
From Coq Require Import Reals List Bool String.
From Verif Require Import M_Num M_Frame M_Ops M_SqlGlobal M_SqlLeaf S_SqlLeaf M_SqlOps S_SqlOps M_SqlList S_SqlList M_OpList S_OpList M_SqlMHList S_SqlMHList M_SqlDistList.
Import ListNotations.
Open Scope string_scope.
Open Scope list_scope.

(** The distribution without its child. *)
Definition dist_of (x : dl_op) : lop := LDist (d_over x).
(** Leaf metrics (C16) with different names, none of which, and no result column of which, is called as an index column; no two of them are the
    same metric under two names. *)
Definition supported_dl (x : dl_op) (split_by : list string) : Prop :=
  d_metrics x <> [] /\
  (forall m, In m (d_metrics x) -> is_leaf m /\ supported_tree (dl_index x split_by) m /\ ~ In (String.append "Distribution of " (value_name m)) (dl_index x split_by)) /\
  NoDup (List.map value_name (d_metrics x)) /\
  ForallOrdPairs (fun m m' => ~ renamed (dl_child_sql x split_by m) (dl_child_sql x split_by m')) (d_metrics x).
Definition dl_leaves_fit (parse : string -> cond) (x : dl_op) (split_by : list string) (t : stable) : Prop :=
  let wh := get_global_filter (dl_filter_tree x) in
  forall m, In m (d_metrics x) -> forall metric above loc by',
    In (metric, above, loc, by') (bottoms wh m (dl_index x split_by) (d_where x ++ d_list_where x) (dl_local x)) -> leaf_fits parse wh metric above loc by' t.
(** No division of a nonzero number by zero, for any metric (C62). *)
Definition dl_fits (parse : string -> cond) (psort : cum_how -> bool -> nat -> rframe -> rframe) (x : dl_op) (split_by : list string) (df : table) : Prop :=
  forall m fr, In m (d_metrics x) -> child_of parse psort (dist_of x) (d_where x) (d_list_where x) split_by df m = Some fr ->
    dist_fits (List.length split_by) fr.

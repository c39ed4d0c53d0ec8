(** What C83 compares, and for which lists and data. *)
From Coq Require Import Reals List Bool String.
From Verif Require Import M_Num M_Frame M_Ops M_SqlGlobal M_SqlLeaf S_SqlLeaf M_SqlOps S_SqlOps M_SqlList S_SqlList M_OpList S_OpList M_SqlMHList S_SqlMHList M_SqlChangeList.
Import ListNotations.
Open Scope list_scope.

(** The comparison without its child. *)
Definition change_of (x : chl_op) : lop := LChange (h_percent x) (h_cond x) (h_base x) (h_include x).
(** A baseline label for every condition column; leaf metrics (C16) with different names, none of which, and no result column of which, is
    called as an index column; no two of them are the same metric under two names. *)
Definition supported_chl (x : chl_op) (split_by : list string) : Prop :=
  h_cond x <> [] /\ List.length (h_base x) = List.length (h_cond x) /\ h_metrics x <> [] /\
  (forall m, In m (h_metrics x) -> is_leaf m /\ supported_tree (chl_index x split_by) m /\ ~ In (chl_name x (value_name m)) (chl_index x split_by)) /\
  NoDup (List.map value_name (h_metrics x)) /\
  ForallOrdPairs (fun m m' => ~ renamed (chl_child_sql x split_by m) (chl_child_sql x split_by m')) (h_metrics x).
Definition chl_leaves_fit (parse : string -> cond) (x : chl_op) (split_by : list string) (t : stable) : Prop :=
  let wh := get_global_filter (chl_filter_tree x) in
  forall m, In m (h_metrics x) -> forall metric above loc by',
    In (metric, above, loc, by') (bottoms wh m (chl_index x split_by) (h_where x ++ h_list_where x) (chl_local x)) -> leaf_fits parse wh metric above loc by' t.
(** The data fits the comparison of every metric (C62). *)
Definition chl_fits (parse : string -> cond) (psort : cum_how -> bool -> nat -> rframe -> rframe) (x : chl_op) (split_by : list string) (df : table) : Prop :=
  forall m fr, In m (h_metrics x) -> child_of parse psort (change_of x) (h_where x) (h_list_where x) split_by df m = Some fr ->
    change_fits (h_percent x) (List.length split_by) (h_base x) fr.

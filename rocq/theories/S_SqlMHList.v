(** What C80 compares, and for which MH and data. *)
From Coq Require Import Reals List Bool String.
From Verif Require Import M_Num M_Frame M_Ops M_SqlGlobal M_SqlLeaf S_SqlLeaf M_SqlOps S_SqlOps M_SqlList S_SqlList M_SqlMH S_SqlMH M_OpList M_SqlMHList.
Import ListNotations.
Open Scope list_scope.

(** The MH of one ratio of the list alone. *)
Definition mh_alone (x : mhl_op) (r : mh_ratio) : mh_op :=
  MHOp (l_cond x) (l_base x) (l_strata x) (l_include_base x) (r_numer r) (r_denom r) (r_name r) (l_list_where x ++ r_where r) (l_where x).
Definition is_leaf (m : otree) : Prop := match m with OLeaf _ _ => True | _ => False end.
(** A baseline label for every condition column; ratios of leaf metrics (C16) with different names; no two of them are the same ratio under two names;
    no value column is called as an index column. *)
Definition supported_mhl (x : mhl_op) (split_by : list string) : Prop :=
  l_cond x <> [] /\ List.length (l_base x) = List.length (l_cond x) /\ l_ratios x <> [] /\
  (forall r, In r (l_ratios x) -> is_leaf (r_numer r) /\ is_leaf (r_denom r) /\
     supported_tree (mhl_by x split_by) (r_numer r) /\ supported_tree (mhl_by x split_by) (r_denom r)) /\
  (forall raw c, mhl_raw x split_by = Some raw -> In c (lcolumns raw) -> ~ In c (mhl_by x split_by)) /\
  NoDup (List.map mh_name (l_ratios x)) /\ (forall r, In r (l_ratios x) -> ~ In (mh_name r) (mhl_index x split_by)) /\
  ForallOrdPairs (fun r r' => ~ (renamed (mhl_child_sql x split_by r (r_numer r)) (mhl_child_sql x split_by r' (r_numer r')) /\
                                renamed (mhl_child_sql x split_by r (r_denom r)) (mhl_child_sql x split_by r' (r_denom r')))) (l_ratios x).
Definition mhl_leaves_fit (parse : string -> cond) (x : mhl_op) (split_by : list string) (t : stable) : Prop :=
  let wh := get_global_filter (mhl_filter_tree x) in
  forall r m, In r (l_ratios x) -> m = r_numer r \/ m = r_denom r -> forall metric above loc by',
    In (metric, above, loc, by') (bottoms wh m (mhl_by x split_by) (l_where x ++ l_list_where x ++ r_where r) (mhl_local x r)) -> leaf_fits parse wh metric above loc by' t.
(** The data fits the MH of every ratio (C66). *)
Definition mhl_fits (parse : string -> cond) (psort : cum_how -> bool -> nat -> rframe -> rframe) (x : mhl_op) (split_by : list string) (df : table) : Prop :=
  forall r fr, In r (l_ratios x) -> mh_children parse psort (mh_alone x r) split_by df = Some fr ->
    mh_data_fits (List.length split_by) (List.length (l_cond x)) (List.length (l_strata x)) (l_base x) (l_include_base x) fr.

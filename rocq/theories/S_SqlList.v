(** What C64 compares, and for which lists. *)
From Coq Require Import Reals List Bool String Permutation.
From Verif Require Import M_Num M_Frame M_SqlGlobal M_SqlLeaf S_SqlLeaf M_SqlOps S_SqlOps M_SqlList.
Import ListNotations.
Open Scope list_scope.

(** The rows as the caller gets them: labels of the index columns and the values. *)
Definition list_shown (index names : list string) (rows : list row) : list (list (option string) * list num) :=
  List.map (fun r => (List.map (fun c => label (r c)) index, List.map (fun v => fetch (number (r v))) names)) rows.
(** Queries that differ in the name of the value column only. *)
Inductive renamed : sqlq -> sqlq -> Prop :=
  | renamed_leaf q a b : renamed (SqlLeaf q a) (SqlLeaf q b)
  | renamed_sel cols a b x from w g : renamed (SqlSel (cols ++ [(a, x)]) from w g) (SqlSel (cols ++ [(b, x)]) from w g).
(** Supported children with the same index columns and different names; no two of them are the same under two names. *)
Definition supported_list (l : mlist) (by_ : list string) : Prop :=
  ml_children l <> [] /\
  (forall m, In m (ml_children l) -> supported_tree by_ m /\ extra_idx m = list_extra l) /\
  NoDup (List.map value_name (ml_children l)) /\
  ForallOrdPairs (fun m m' => ~ renamed (child_sql l by_ m) (child_sql l by_ m')) (ml_children l).
(** The data fits every child (S_SqlOps), under the filters of the list. *)
Definition list_leaves_fit (parse : string -> cond) (l : mlist) (by_ : list string) (t : stable) : Prop :=
  let wh := get_global_filter (mfilter_tree l) in
  forall m, In m (ml_children l) -> forall metric above loc by', In (metric, above, loc, by') (bottoms wh m by_ (ml_where l) (remove (add (add [] (ml_where l)) []) wh)) -> leaf_fits parse wh metric above loc by' t.
Definition list_fits (parse : string -> cond) (psort : cum_how -> bool -> nat -> rframe -> rframe) (l : mlist) (by_ : list string) (df : table) : Prop :=
  forall m, In m (ml_children l) -> tree_fits parse psort m by_ (filter (pfilters parse (ml_where l)) df).

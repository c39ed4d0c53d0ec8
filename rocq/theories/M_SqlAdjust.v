(** PrePostChange and CUPED with one covariate, from the table of the user: the query (operations.py 436-530, 815-905, 1046-1144; metrics.py
    1266-1330, 1539-1608) run on it, and the same change computed by pandas (operations.py 717-806, 962-1037).

    The operation is the root; its child is MetricList((child, covariate)) of two leaf metrics (C16) with one column each; the MetricList has no name_tmpl
    and no filter.  The query has three or four steps; each runs on the table that the one before gives.  Names of WITH tables are C12's. *)
From Coq Require Import Reals List Bool String Arith ZArith.
From Verif Require Import M_Num M_Frame M_Ops M_Leaf M_SqlGlobal M_SqlLeaf M_SqlOps M_SqlList M_Adjust M_SqlMHList.
Import ListNotations.
Open Scope string_scope.
Open Scope list_scope.

(** PrePostChange(a_cond, a_base, a_child, a_cov, a_strata, a_include_base, where=a_where), or CUPED *)
Inductive adjustment := PrePost | Cuped.
Record adj_op := AdjOp {
  a_kind : adjustment; a_cond : list string; a_base : list string; a_strata : list string; a_include_base : bool;
  a_child : otree; a_cov : otree; a_where : list string }.
(** split_by and extra_split_by: stratified_by + condition_column, 705-712, 950-957 *)
Definition adj_by (x : adj_op) (split_by : list string) : list string := split_by ++ a_strata x ++ a_cond x.
(** split_by and extra_index, 713, 958 *)
Definition adj_index (x : adj_op) (split_by : list string) : list string := split_by ++ a_cond x.
(** name_tmpl, 696, 941 *)
Definition adj_name (x : adj_op) : string := String.append (value_name (a_child x)) (match a_kind x with PrePost => " PrePost Percent Change" | Cuped => " CUPED Change" end).

(** ** pandas *)
Section Pandas.
  Variable parse : string -> cond.
  Variable psort : cum_how -> bool -> nat -> rframe -> rframe.
  (** compute_children, 717-728, 962-971: the child and the covariate by split_by, stratified_by and condition_column *)
  Definition adj_children (x : adj_op) (split_by : list string) (df : table) : option (rframe * rframe) :=
    let df := filter (pfilters parse (a_where x)) df in
    match op_compute parse psort (a_child x) (adj_by x split_by) df, op_compute parse psort (a_cov x) (adj_by x split_by) df with
    | Some a, Some b => Some (a, b)
    | _, _ => None
    end.
  (** pd.concat([child, covariates], axis=1), 756, 1000, as a table; the index labels are columns of groupby. *)
  Definition aligned (by_ : list string) (y x : string) (a b : rframe) : table :=
    List.map (fun k => Row (fun c => assoc c (combine by_ k)) (fun c => if String.eqb c y then lookup k a else if String.eqb c x then lookup k b else NaN))
             (nodup (list_eq_dec string_dec) (List.map fst a ++ List.map fst b)).
  (** adjust_value and the comparison: M_Adjust *)
  Definition adj_pandas (x : adj_op) (split_by : list string) (df : table) : option rframe :=
    match adj_children x split_by df with
    | Some (a, b) => (match a_kind x with PrePost => prepost | Cuped => cuped end)
                       split_by (a_cond x) (value_name (a_child x)) (value_name (a_cov x)) (a_base x) (a_include_base x)
                       (aligned (adj_by x split_by) (value_name (a_child x)) (value_name (a_cov x)) a b)
    | None => None
    end.
End Pandas.

(** ** SQL *)
Definition adj_filter_tree (x : adj_op) : ftree :=
  FNode (match a_kind x with PrePost => "PrePostChange" | Cuped => "CUPED" end) (a_where x) [FNode "MetricList" [] [ofilter_tree (a_child x); ofilter_tree (a_cov x)]].
(** 855-857, 1092-1094, then the MetricList, metrics.py 1295-1298 *)
Definition adj_local (x : adj_op) : list string :=
  let glob := get_global_filter (adj_filter_tree x) in
  remove (add (add [] []) (remove (add (add [] (a_where x)) []) glob)) glob.
Definition adj_child_sql (x : adj_op) (split_by : list string) (m : otree) : sqlq :=
  tree_sql (get_global_filter (adj_filter_tree x)) (adj_local x) (adj_index x split_by) (adj_by x split_by) m.
(** PrePostRaw, CUPEDRaw, 858-863, 1095-1100 *)
Definition adj_raw (x : adj_op) (split_by : list string) : option ltable :=
  one_table [table_of (adj_child_sql x split_by (a_child x)); table_of (adj_child_sql x split_by (a_cov x))].
(** child_sql.all_columns[-1] (872, 1110), and the first column that is none of the index (887-889, 1106-1109) *)
Definition adj_covariate (q : ltable) : string := List.last (lcolumns q) "".
Definition adj_value (q : ltable) : string := List.hd "" (lcolumns q).
(** The rows of a WITH table, read by the next query *)
Definition as_table (rows : list row) : stable := List.map (fun r => SRow (fun c => label (r c)) (fun c => number (r c))) rows.

Definition mean_metric (c : colx) : metric := MLeaf (Lf (LMean c None)) [].
Definition cov_metric (y x : string) : metric := MLeaf (Lf (LCov (Col y) (Col x) 1 None None)) [].
Definition var_metric (x : string) : metric := MLeaf (Lf (LVar (Col x) 1 None)) [].
(** Mean(c) - Mean(covariate) * Cov(c, covariate) / Variance(covariate), 890-893 *)
Definition prepost_metric (y x : string) : metric :=
  MOp OpSub (mean_metric (Col y)) (MOp OpDiv (MOp OpMul (mean_metric (Col x)) (cov_metric y x) []) (var_metric x) []) [].
(** (Cov(c, covariate) / Variance(covariate)), named c_theta, 1111-1118 *)
Definition theta_name (y : string) : string := String.append y "_theta".
Definition theta_sql_metric (y x : string) : metric := MOp OpDiv (cov_metric y x) (var_metric x) [].
(** AVG(c) - AVG(c_theta * covariate), 1125-1134: written as the arithmetic of two means *)
Definition cuped_metric (y x : string) : metric :=
  MOp OpSub (mean_metric (Col y)) (mean_metric (Times (Col (theta_name y)) (Col x))) [].

Section Run.
  Variable parse : string -> cond.
  Variable srt : list okey -> list env -> list env.
  (** PrePostcovariateCentered, 867-881: covariate - AVG(covariate) OVER (PARTITION BY split_by), the other columns as they are *)
  Definition centered_sql (split_by : list string) (x : string) (t : stable) : stable :=
    List.map (fun r => SRow (slab r) (fun c =>
        if String.eqb c x then lift2 Rminus (snum r c) (sagg_value parse (AVG (AIf [] (Col x))) (M_SqlLeaf.group split_by (srow_key split_by r) t)) else snum r c)) t.
  (** CUPEDTheta, 1111-1123; CUPEDRaw FULL JOIN CUPEDTheta USING (split_by), CROSS JOIN without split_by, 1136-1141 *)
  Definition cuped_joined (split_by : list string) (q : ltable) (t : stable) : stable :=
    let raw := run_table parse srt q t in
    let theta := run_sql parse srt (SqlLeaf (Query (sql_column [] [] (theta_sql_metric (adj_value q) (adj_covariate q))) [] split_by) (theta_name (adj_value q))) (as_table raw) in
    List.map (fun e => SRow (fun c => label (e (Plain c))) (fun c => number (e (Plain c))))
             (full_join "CUPEDRaw" (lall_columns q) "CUPEDTheta" split_by raw theta).
  (** ChangeRaw and the comparison, 436-530.  ChangeRaw is the query of a leaf metric; the comparison is that of PercentChange or
      AbsoluteChange over a metric with that query, with another name for the column. *)
  Definition change_of (x : adj_op) (m : metric) (y : string) : otree :=
    OChange (match a_kind x with PrePost => true | Cuped => false end) (a_cond x) (a_base x) (a_include_base x) (OLeaf m y) [].
  Definition adj_rename (index : list string) (from to_ : string) (r : row) : row :=
    fun c => if mem c index then r c else if String.eqb c to_ then r from else Null.
  Definition adj_sql (x : adj_op) (split_by : list string) (t : stable) : option (list row) :=
    match adj_raw x split_by with
    | None => None
    | Some q =>
        let y := adj_value q in let cov := adj_covariate q in
        let m := change_of x (match a_kind x with PrePost => prepost_metric y cov | Cuped => cuped_metric y cov end) y in
        let source := match a_kind x with PrePost => centered_sql split_by cov (as_table (run_table parse srt q t)) | Cuped => cuped_joined split_by q t end in
        Some (List.map (adj_rename (adj_index x split_by) (value_name m) (adj_name x)) (run_sql parse srt (op_to_sql m split_by) source))
    end.
End Run.

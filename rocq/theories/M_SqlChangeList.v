(** The SQL generated for PercentChange and AbsoluteChange over a MetricList (operations.py 430-550, metrics.py 1266-1350), run on a table.
    By pandas it is M_OpList.olist_compute with LChange.

    The MetricList is the child of the comparison, which is the root; name_tmpl and rename_columns of the list are None; its children have one
    value column each and the same index columns, and their queries merge into one table (leaf metrics always do). *)
From Coq Require Import Reals List Bool String Arith.
From Verif Require Import M_Num M_Frame M_Ops M_SqlGlobal M_SqlLeaf M_SqlOps M_SqlList M_OpList M_SqlMHList.
Import ListNotations.
Open Scope string_scope.
Open Scope list_scope.

(** PercentChange(h_cond, h_base, MetricList(h_metrics, where=h_list_where), include_base=h_include, where=h_where), or AbsoluteChange *)
Record chl_op := CHL {
  h_percent : bool; h_cond : list string; h_base : list string; h_include : bool;
  h_metrics : list otree; h_list_where : list string; h_where : list string }.
(** The columns of the index, which are those the children are split by: split_by and condition_column. *)
Definition chl_index (x : chl_op) (split_by : list string) : list string := split_by ++ h_cond x.
Definition chl_filter_tree (x : chl_op) : ftree :=
  FNode (if h_percent x then "PercentChange" else "AbsoluteChange") (h_where x) [FNode "MetricList" (h_list_where x) (List.map ofilter_tree (h_metrics x))].
(** The filters above a metric that are not in the WHERE clause: get_change_raw_sql, operations.py 541-543, and metrics.py 1295-1298. *)
Definition chl_local (x : chl_op) : list string :=
  let glob := get_global_filter (chl_filter_tree x) in
  remove (add (add [] (h_list_where x)) (remove (add (add [] (h_where x)) []) glob)) glob.
Definition chl_child_sql (x : chl_op) (split_by : list string) (m : otree) : sqlq :=
  tree_sql (get_global_filter (chl_filter_tree x)) (chl_local x) (chl_index x split_by) (chl_index x split_by) m.
(** ChangeRaw, 485-489 *)
Definition chl_raw (x : chl_op) (split_by : list string) : option ltable := one_table (List.map (fun m => table_of (chl_child_sql x split_by m)) (h_metrics x)).
(** ChangeBase has the columns of ChangeRaw without those of the condition, 496-500. *)
Definition chl_base_columns (x : chl_op) (raw : ltable) : list string := difference (add_cols (lgroupby raw) (lcolumns raw)) (h_cond x).
Definition chl_name (x : chl_op) (c : string) : string := String.append c (if h_percent x then " Percent Change" else " Absolute Change").
(** 507-521: the last columns of both tables in parallel *)
Definition chl_columns (x : chl_op) (split_by : list string) (raw : ltable) : list (string * vx) :=
  let last := last_values (List.length (lall_columns raw)) (List.length (chl_index x split_by)) in
  fold_left add_column
    (List.map (fun p => (chl_name x (fst p), change_expr (h_percent x) (fst p) (snd p))) (combine (last (lall_columns raw)) (last (chl_base_columns x raw)))) [].

Section Run.
  Variable parse : string -> cond.
  Variable srt : list okey -> list env -> list env.
  (** The names of the value columns and the rows, 522-530. *)
  Definition chl_sql (x : chl_op) (split_by : list string) (t : stable) : option (list string * list row) :=
    match chl_raw x split_by with
    | None => None
    | Some q =>
        let raw := run_table parse srt q t in
        let base_cond := combine (h_cond x) (h_base x) in
        let base_cols := chl_base_columns x q in
        (* ChangeBase *)
        let base_ := List.map (fun r => fun c => if mem c base_cols then r c else Null) (filter (fun r => where_pass (Some (WEq base_cond)) (plain_env r)) raw) in
        let index := chl_index x split_by in
        let using_ := difference index (h_cond x) in
        let joined := flat_map (fun r1 => List.map (join_env "ChangeRaw" r1 "ChangeBase") (filter (match_using using_ r1) base_)) raw in
        let cols := chl_columns x split_by q in
        Some (List.map fst cols,
              List.map (fun e : env => fun c => if mem c index then e (Plain c) else match assoc c cols with Some v => of_number (value [] [] e v) | None => Null end)
                (filter (where_pass (if h_include x then None else Some (WNot base_cond))) joined))
    end.
End Run.

(** The SQL generated for Distribution over a MetricList (operations.py 227-269, metrics.py 1266-1350), run on a table.
    By pandas it is M_OpList.olist_compute with LDist.

    The MetricList is the child of the distribution, which is the root; name_tmpl and rename_columns of the list are None; its children have one
    value column each and the same index columns, and their queries merge into one table (leaf metrics always do). *)
From Coq Require Import Reals List Bool String Arith.
From Verif Require Import M_Num M_Frame M_Ops M_SqlGlobal M_SqlLeaf M_SqlOps M_SqlList M_OpList M_SqlMHList.
Import ListNotations.
Open Scope string_scope.
Open Scope list_scope.

(** Distribution(d_over, MetricList(d_metrics, where=d_list_where), where=d_where) *)
Record dl_op := DL { d_over : list string; d_metrics : list otree; d_list_where : list string; d_where : list string }.
(** all_split_by, 254; also the columns of the index. *)
Definition dl_index (x : dl_op) (split_by : list string) : list string := split_by ++ d_over x.
Definition dl_filter_tree (x : dl_op) : ftree :=
  FNode "Distribution" (d_where x) [FNode "MetricList" (d_list_where x) (List.map ofilter_tree (d_metrics x))].
(** The filters above a metric that are not in the WHERE clause: operations.py 251-253 and metrics.py 1295-1298. *)
Definition dl_local (x : dl_op) : list string :=
  let glob := get_global_filter (dl_filter_tree x) in
  remove (add (add [] (d_list_where x)) (remove (add (add [] (d_where x)) []) glob)) glob.
Definition dl_child_sql (x : dl_op) (split_by : list string) (m : otree) : sqlq :=
  tree_sql (get_global_filter (dl_filter_tree x)) (dl_local x) (dl_index x split_by) (dl_index x split_by) m.
(** DistributionRaw, 255-258 *)
Definition dl_raw (x : dl_op) (split_by : list string) : option ltable := one_table (List.map (fun m => table_of (dl_child_sql x split_by m)) (d_metrics x)).
(** 261-268: the columns of the child without those of the groupby *)
Definition dl_columns (x : dl_op) (split_by : list string) (raw : ltable) : list (string * vx) :=
  let vals := filter (fun c => negb (mem c (dl_index x split_by))) (lall_columns raw) in
  fold_left add_column (List.map (fun c => (String.append "Distribution of " c, VDiv (VRef (Plain c)) (VSumOver c split_by))) vals) [].

Section Run.
  Variable parse : string -> cond.
  Variable srt : list okey -> list env -> list env.
  (** The names of the value columns and the rows, 269. *)
  Definition dl_sql (x : dl_op) (split_by : list string) (t : stable) : option (list string * list row) :=
    match dl_raw x split_by with
    | None => None
    | Some q =>
        let rows := List.map plain_env (run_table parse srt q t) in
        let index := dl_index x split_by in
        let cols := dl_columns x split_by q in
        Some (List.map fst cols,
              List.map (fun e : env => fun c => if mem c index then e (Plain c) else match assoc c cols with Some v => of_number (value rows [] e v) | None => Null end) rows)
    end.
End Run.

(** MH over a MetricList of ratios (operations.py 1205-1246): by pandas, and the SQL generated for it (1361-1467) run on a table.

    The MetricList is the child of the MH, which is the root; name_tmpl and rename_columns of the list are None; its children are ratios of
    two metrics with one value column each. *)
From Coq Require Import Reals List Bool String Arith.
From Verif Require Import M_Num M_Frame M_Ops M_SqlGlobal M_SqlLeaf M_SqlOps M_SqlList M_SqlJackknife M_SqlJackFast M_SqlMixedJack M_OpList M_SqlMH.
Import ListNotations.
Open Scope string_scope.
Open Scope list_scope.

(** Ratio, or a composite that divides *)
Record mh_ratio := MHRatio { r_name : string; r_where : list string; r_numer : otree; r_denom : otree }.
(** MH(l_cond, l_base, l_strata, MetricList(l_ratios, where=l_list_where), where=l_where) *)
Record mhl_op := MHL {
  l_cond : list string; l_base : list string; l_strata : list string; l_include_base : bool;
  l_ratios : list mh_ratio; l_list_where : list string; l_where : list string }.
(** split_by and the extra_split_by of MH *)
Definition mhl_by (x : mhl_op) (split_by : list string) : list string := split_by ++ l_cond x ++ l_strata x.
(** name_tmpl, 1176 *)
Definition mh_name (r : mh_ratio) : string := String.append (r_name r) " MH Ratio".

(** ** pandas *)
Section Pandas.
  Variable parse : string -> cond.
  Variable psort : cum_how -> bool -> nat -> rframe -> rframe.
  (** compute_children, 1220-1233: for each ratio MetricList([MetricList(m.children, where=m.where_)], where=child.where_) *)
  Definition ratio_children (x : mhl_op) (split_by : list string) (df : table) (r : mh_ratio) : option frame2 :=
    let df := filter (pfilters parse (r_where r)) (filter (pfilters parse (l_list_where x)) (filter (pfilters parse (l_where x)) df)) in
    match op_compute parse psort (r_numer r) (mhl_by x split_by) df, op_compute parse psort (r_denom r) (mhl_by x split_by) df with
    | Some a, Some b => Some (List.map (fun k => (k, (lookup k a, lookup k b))) (nodup (list_eq_dec string_dec) (List.map fst a ++ List.map fst b)))
    | _, _ => None
    end.
  (** compute_mh, 1248-1277 *)
  Definition ratio_mh (x : mhl_op) (split_by : list string) (df : table) (r : mh_ratio) : option rframe :=
    match ratio_children x split_by df r with
    | Some fr => mh (List.length split_by) (List.length (l_cond x)) (List.length (l_strata x)) (l_base x) (l_include_base x) fr
    | None => None
    end.
  (** compute_on_children, 1238-1245: the names of the columns and pd.concat(res, axis=1); concat of nothing raises. *)
  Definition mhl_pandas (x : mhl_op) (split_by : list string) (df : table) : option (list string * wframe) :=
    match l_ratios x with
    | [] => None
    | rs => option_map (fun res => (List.map mh_name rs, concat_frames res)) (all_some (List.map (ratio_mh x split_by df) rs))
    end.
End Pandas.

(** ** SQL *)
Definition mhl_filter_tree (x : mhl_op) : ftree :=
  FNode "MH" (l_where x) [FNode "MetricList" (l_list_where x)
    (List.map (fun r => FNode "CompositeMetric" (r_where r) [ofilter_tree (r_numer r); ofilter_tree (r_denom r)]) (l_ratios x))].
(** The filters above the metrics of a ratio: those of the MH (1361-1363), of the list and of the ratio (1365-1369 and metrics.py 1295-1298). *)
Definition mhl_local (x : mhl_op) (r : mh_ratio) : list string :=
  let glob := get_global_filter (mhl_filter_tree x) in
  remove (add (add [] (r_where r)) (remove (add (add [] (l_list_where x)) (remove (add (add [] (l_where x)) []) glob)) glob)) glob.
Definition mhl_child_sql (x : mhl_op) (split_by : list string) (r : mh_ratio) (m : otree) : sqlq :=
  tree_sql (get_global_filter (mhl_filter_tree x)) (mhl_local x r) (mhl_by x split_by) (mhl_by x split_by) m.
(** A MetricList all of whose queries merge into one (metrics.py 1304-1323); otherwise (ratios of operations) its query is a join, not modelled here. *)
Definition one_table (qs : list ltable) : option ltable := match put_all [] qs with ([q], _) => Some q | _ => None end.
(** MHRaw, 1364-1381: a MetricList of a MetricList per ratio *)
Definition mhl_raw (x : mhl_op) (split_by : list string) : option ltable :=
  match all_some (List.map (fun r => one_table [table_of (mhl_child_sql x split_by r (r_numer r)); table_of (mhl_child_sql x split_by r (r_denom r))]) (l_ratios x)) with
  | Some qs => one_table qs
  | None => None
  end.
(** 1409-1427: the numerator's query is merged into MHRaw again, which gives its last column the alias that the column
    with the same expression has there (sql.py 443-454). *)
Definition alias_in (raw : ltable) (q : sqlq) : string :=
  let a := List.last (columns_of q) "" in
  match raw, table_of q with
  | LLeaf cols _ _, LLeaf [(_, e)] _ _ => match find (fun c => same (snd c) e) cols with Some c => fst c | None => a end
  | _, _ => a
  end.
(** 1396-1403 *)
Definition mhl_weighted (n d a b : string) : vx :=
  let den t := VRef (Of t d) in VDiv (VMul (VRef (Of a n)) (den b)) (VAdd (den "MHBase") (den "MHRaw")).
(** A column of the result: the arguments of the two SUMs of col_tmpl, 1404-1406; columns.add, 1428-1435 *)
Definition mhl_columns (x : mhl_op) (split_by : list string) (raw : ltable) : list (string * (vx * vx)) :=
  fold_left add_column
    (List.map (fun r => let n := alias_in raw (mhl_child_sql x split_by r (r_numer r)) in
                        let d := alias_in raw (mhl_child_sql x split_by r (r_denom r)) in
                        (mh_name r, (mhl_weighted n d "MHRaw" "MHBase", mhl_weighted n d "MHBase" "MHRaw"))) (l_ratios x)) [].
(** the columns of the index and of USING, as in M_SqlMH *)
Definition mhl_index (x : mhl_op) (split_by : list string) : list string := split_by ++ l_cond x.
Definition mhl_using (x : mhl_op) (split_by : list string) : list string := add_cols (difference (mhl_index x split_by) (l_cond x)) (l_strata x).

Section Run.
  Variable parse : string -> cond.
  Variable srt : list okey -> list env -> list env.
  (** The names of the value columns and the rows. *)
  Definition mhl_sql (x : mhl_op) (split_by : list string) (t : stable) : option (list string * list row) :=
    match mhl_raw x split_by with
    | None => None
    | Some q =>
        let raw := run_table parse srt q t in
        let base_cond := combine (l_cond x) (l_base x) in
        (* MHBase, 1383-1393 *)
        let base_ := List.map (fun r => fun c => if mem c (l_cond x) then Null else r c) (filter (fun r => where_pass (Some (WEq base_cond)) (plain_env r)) raw) in
        (* 1455-1464 *)
        let joined := filter (fun p => where_pass (if l_include_base x then None else Some (WNot base_cond)) (plain_env (fst p))) (left_join (mhl_using x split_by) raw base_) in
        let index := mhl_index x split_by in
        let key (p : row * row) := List.map (fun c => label (fst p c)) index in
        let cols := mhl_columns x split_by q in
        Some (List.map fst cols, List.map (fun k =>
          let rows := filter (fun p => if skey_dec (key p) k then true else false) joined in
          let total e := coalesce0 (ssum (List.map (fun p => value [] [] (join_env "MHRaw" (fst p) "MHBase" (snd p)) e) rows)) in
          fun c => match assoc c (combine index k) with
                   | Some l => of_label l
                   | None => match assoc c cols with
                             | Some (num, den) => of_number (option_map (fun r => 100 * r - 100)%R (vdiv (total num) (total den)))
                             | None => Null
                             end
                   end)
          (nodup skey_dec (List.map key joined)))
    end.
End Run.

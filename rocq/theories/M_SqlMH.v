(** SQL generated for MH (operations.py 1297-1467), run on a table, and MH computed by pandas on the same data.

    The child is a ratio of two metrics with one value column each; the MH is the root.  As in M_SqlOps the tables of the WITH clause are
    nested in place.  Simplified: the strata come before the children's own index columns in the index of MHRaw. *)
From Coq Require Import Reals List Bool String Arith.
From Verif Require Import M_Num M_Frame M_Ops M_SqlGlobal M_SqlLeaf M_SqlOps M_SqlList M_SqlJackknife M_SqlJackFast.
Import ListNotations.
Open Scope string_scope.
Open Scope list_scope.

(** MH(mh_cond, mh_base, mh_strata, Ratio with mh_numer and mh_denom, named mh_child and filtered by mh_child_where), operations.py 1169-1189 *)
Record mh_op := MHOp {
  mh_cond : list string; mh_base : list string; mh_strata : list string; mh_include_base : bool;
  mh_numer : otree; mh_denom : otree; mh_child : string; mh_child_where : list string; mh_where : list string }.
Definition mh_filter_tree (x : mh_op) : ftree :=
  FNode "MH" (mh_where x) [FNode "CompositeMetric" (mh_child_where x) [ofilter_tree (mh_numer x); ofilter_tree (mh_denom x)]].
(** utils.get_extra_idx of the children *)
Definition mh_rest (x : mh_op) : list string := extra_idx (mh_numer x).
(** The filters above the children's queries: 1361-1363, then those of the MetricList in between, metrics.py 1295-1298 *)
Definition mh_local (x : mh_op) : list string :=
  let glob := get_global_filter (mh_filter_tree x) in
  remove (add (add [] (mh_child_where x)) (remove (add (add [] (mh_where x)) []) glob)) glob.
(** split_by and the extra_split_by of MH, 1375 *)
Definition mh_by (x : mh_op) (split_by : list string) : list string := split_by ++ mh_cond x ++ mh_strata x.
Definition mh_child_sql (x : mh_op) (split_by : list string) (m : otree) : sqlq :=
  tree_sql (get_global_filter (mh_filter_tree x)) (mh_local x) (mh_by x split_by ++ mh_rest x) (mh_by x split_by) m.
(** MHRaw, 1372-1381 *)
Definition mh_raw (x : mh_op) (split_by : list string) : listq :=
  list_query (mh_by x split_by ++ mh_rest x) [mh_child_sql x split_by (mh_numer x); mh_child_sql x split_by (mh_denom x)].
(** the columns of the index, metrics.py 700-706 *)
Definition mh_index (x : mh_op) (split_by : list string) : list string := split_by ++ mh_cond x ++ mh_rest x.
(** 1454: indexes.difference(cond_cols).add(self.stratified_by) *)
Definition mh_using (x : mh_op) (split_by : list string) : list string := add_cols (difference (mh_index x split_by) (mh_cond x)) (mh_strata x).
(** name_tmpl, 1176 *)
Definition mh_value (x : mh_op) : string := String.append (mh_child x) " MH Ratio".
(** 1398-1409: SAFE_DIVIDE(MHRaw.numer * MHBase.denom, MHBase.denom + MHRaw.denom) and SAFE_DIVIDE(MHBase.numer * MHRaw.denom, ..) *)
Definition mh_weighted (x : mh_op) (a b : string) : vx :=
  let d t := VRef (Of t (value_name (mh_denom x))) in
  VDiv (VMul (VRef (Of a (value_name (mh_numer x)))) (d b)) (VAdd (d "MHBase") (d "MHRaw")).

Section Run.
  Variable parse : string -> cond.
  Variable srt : list okey -> list env -> list env.

  Definition mh_sql (x : mh_op) (split_by : list string) (t : stable) : list row :=
    let raw := run_list parse srt (mh_raw x split_by) t in
    let base_cond := combine (mh_cond x) (mh_base x) in
    (* MHBase, 1383-1393: the rows of the baseline, without the condition columns *)
    let base_ := List.map (fun r => fun c => if mem c (mh_cond x) then Null else r c) (filter (fun r => where_pass (Some (WEq base_cond)) (plain_env r)) raw) in
    (* 1455-1464 *)
    let joined := filter (fun p => where_pass (if mh_include_base x then None else Some (WNot base_cond)) (plain_env (fst p))) (left_join (mh_using x split_by) raw base_) in
    let index := mh_index x split_by in
    let key (p : row * row) := List.map (fun c => label (fst p c)) index in
    List.map (fun k =>
        let rows := filter (fun p => if skey_dec (key p) k then true else false) joined in
        let total e := coalesce0 (ssum (List.map (fun p => value [] [] (join_env "MHRaw" (fst p) "MHBase" (snd p)) e) rows)) in
        fun c => match assoc c (combine index k) with
                 | Some l => of_label l
                 | None => if String.eqb c (mh_value x)
                           then of_number (option_map (fun r => 100 * r - 100)%R (vdiv (total (mh_weighted x "MHRaw" "MHBase")) (total (mh_weighted x "MHBase" "MHRaw"))))
                           else Null
                 end)
      (nodup skey_dec (List.map key joined)).

  (** ** pandas *)
  Variable psort : cum_how -> bool -> nat -> rframe -> rframe.
  (** compute_children, 1214-1236: a MetricList of the numerator and the denominator *)
  Definition mh_children (x : mh_op) (split_by : list string) (df : table) : option frame2 :=
    let df := filter (pfilters parse (mh_child_where x)) (filter (pfilters parse (mh_where x)) df) in
    match op_compute parse psort (mh_numer x) (mh_by x split_by) df, op_compute parse psort (mh_denom x) (mh_by x split_by) df with
    | Some a, Some b => Some (List.map (fun k => (k, (lookup k a, lookup k b))) (nodup (list_eq_dec string_dec) (List.map fst a ++ List.map fst b)))
    | _, _ => None
    end.
  Definition mh_pandas (x : mh_op) (split_by : list string) (df : table) : option rframe :=
    match mh_children x split_by df with
    | Some fr => mh (List.length split_by) (List.length (mh_cond x)) (List.length (mh_strata x)) (mh_base x) (mh_include_base x) fr
    | None => None
    end.
End Run.

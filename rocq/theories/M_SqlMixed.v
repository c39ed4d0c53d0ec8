(** compute_on_sql(mode='mixed'): only leaf metrics are computed in SQL, the rest of the tree in Python on what the
    database returns.  metrics.py 643-690, 748-765, 1247-1266; operations.py 166-171, 1276-1295. *)
From Coq Require Import Reals List Bool String Arith.
From Verif Require Import M_Num M_Frame M_Leaf M_Ops M_SqlGlobal M_SqlLeaf M_SqlOps M_SqlList M_SqlMH.
Import ListNotations.
Open Scope string_scope.
Open Scope list_scope.

(** res.sort_values(split_by, kind='mergesort'), metrics.py 688-689: a stable sort by the labels *)
Fixpoint insert_row (x : list string * num) (l : rframe) : rframe :=
  match l with
  | [] => [x]
  | y :: l' => match key_cmp (fst x) (fst y) with Gt => y :: insert_row x l' | _ => x :: l end
  end.
Definition sort_rows (l : rframe) : rframe := fold_right insert_row [] l.
(** Labels as they arrive in pandas.  A NULL label arrives as None, which is not a label here (the theorems exclude it). *)
Definition read_key (k : skey) : list string := List.map (fun x => match x with Some s => s | None => EmptyString end) k.

Section Mixed.
  Variable parse : string -> cond.
  (** The order in which the database returns the rows of a query without ORDER BY. *)
  Variable dbo : query -> list (skey * option R) -> list (skey * option R).
  Variable psort : cum_how -> bool -> nat -> rframe -> rframe.

  (** compute_on_sql_sql_mode, metrics.py 676-690, of a leaf metric: the query, set_index, sort_values if there is a split_by *)
  Definition sql_leaf_frame (l : leaf) (w split_by : list string) (t : stable) : rframe :=
    let q := to_sql (MLeaf l w) split_by in
    let res := List.map (fun kv => (read_key (fst kv), fetch (snd kv))) (dbo q (run_query parse q t)) in
    match split_by with [] => res | _ => sort_rows res end.
  (** compute_through_sql, metrics.py 643-659: SELECT * FROM table WHERE where, then the children (748-765), then compute_on_children of
      CompositeMetric (1447-1510) *)
  Definition sub_table (w : list string) (t : stable) : stable := filter (spass parse w) t.
  Fixpoint mixed_metric (m : metric) (split_by : list string) (t : stable) : rframe :=
    match m with
    | MLeaf l w => sql_leaf_frame l w split_by t
    | MOp op a b w => M_SqlLeaf.align op (mixed_metric a split_by (sub_table w t)) (mixed_metric b split_by (sub_table w t))
    | MConstL op r a w => List.map (fun kv => (fst kv, num_op op (Fin r) (snd kv))) (mixed_metric a split_by (sub_table w t))
    | MConstR op a r w => List.map (fun kv => (fst kv, num_op op (snd kv) (Fin r))) (mixed_metric a split_by (sub_table w t))
    | MSqrt a w => List.map (fun kv => (fst kv, xsqrt (snd kv))) (mixed_metric a split_by (sub_table w t))
    | MSq a w => List.map (fun kv => (fst kv, xsq (snd kv))) (mixed_metric a split_by (sub_table w t))
    end.
  (** Operation.compute_on_sql_mixed_mode, operations.py 166-171: the child split by split_by and the columns of the operation, then
      compute_on_children as in pandas (M_Ops).  None is an exception. *)
  Fixpoint mixed (m : otree) (split_by : list string) (t : stable) : option rframe :=
    let n := List.length split_by in
    match m with
    | OLeaf m _ => Some (mixed_metric m split_by t)
    | ODist over c w => option_map (distribution n) (mixed c (split_by ++ over) (sub_table w t))
    | OCum over how asc c w =>
        let s := match how with
                 | CumOrder o => ByOrder (if asc then o else rev o)
                 | _ => BySort (psort how asc n)
                 end in
        option_map (cumulative_distribution n s) (mixed c (split_by ++ over) (sub_table w t))
    | OChange p cond base incl c w =>
        match mixed c (split_by ++ cond) (sub_table w t) with
        | Some fr => (if p then percent_change else absolute_change) n (List.length cond) base incl fr
        | None => None
        end
    | ODiv d over c w =>
        option_map (match d with HHI => hhi n | Entropy => entropy n | TopK k => top_k k n | Nxx s => nxx s n end)
                   (mixed c (split_by ++ over) (sub_table w t))
    | OBin op a b _ w =>
        match mixed a split_by (sub_table w t), mixed b split_by (sub_table w t) with
        | Some fa, Some fb => Some (align_levels op (split_by ++ extra_idx a) (split_by ++ extra_idx b) fa fb)
        | _, _ => None
        end
    | OConstL op r c _ w =>
        option_map (List.map (fun kv => (fst kv, num_op op (Fin r) (snd kv)))) (mixed c split_by (sub_table w t))
    | OConstR op c r _ w =>
        option_map (List.map (fun kv => (fst kv, num_op op (snd kv) (Fin r)))) (mixed c split_by (sub_table w t))
    end.
  (** MetricList.compute_children_sql, metrics.py 1247-1266: a child that raises makes the whole list raise *)
  Definition mixed_list (l : mlist) (split_by : list string) (t : stable) : option (list string * list (list string * list num)) :=
    let res := List.map (fun m => option_map (pair (value_name m)) (mixed m split_by (sub_table (ml_where l) t))) (ml_children l) in
    if existsb (fun r => match r with None => true | Some _ => false end) res then None
    else let res := flat_map (fun r => match r with Some x => [x] | None => [] end) res in
         Some (List.map fst res, concat_frames (List.map snd res)).
  (** MH.compute_children_sql, operations.py 1276-1295: the MetricList of the numerator and the denominator, then compute_mh (M_Ops.mh) *)
  Definition mixed_mh (x : mh_op) (split_by : list string) (t : stable) : option rframe :=
    let t := sub_table (mh_child_where x) (sub_table (mh_where x) t) in
    match mixed (mh_numer x) (mh_by x split_by) t, mixed (mh_denom x) (mh_by x split_by) t with
    | Some a, Some b =>
        mh (List.length split_by) (List.length (mh_cond x)) (List.length (mh_strata x)) (mh_base x) (mh_include_base x)
           (List.map (fun k => (k, (lookup k a, lookup k b))) (nodup (list_eq_dec string_dec) (List.map fst a ++ List.map fst b)))
    | _, _ => None
    end.
End Mixed.

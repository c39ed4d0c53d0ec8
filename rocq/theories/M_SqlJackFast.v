(** SQL of a Jackknife whose leaves are Sum and Count (the default): operations.py 2067-2101 (to_sql), 3163-3202
    (get_preaggregated_metric_tree), 3355-3468 (get_jackknife_data_fast), 3471-3547
    (modify_descendants_for_jackknife_fast), 2102-2220 (get_sql_and_with_clause).

    The tree has been expanded: its leaves are Sum and Count (C19).  Column names are those of the arguments [pre] (the
    preaggregated data, UnitSliceCount, TotalCount) and [loo] (LOO); the code derives them from the
    leaves and changes them if they are taken (C10, C52). *)
From Coq Require Import Reals List Bool String Arith ZArith.
From Verif Require Import M_Num M_Frame M_Ops M_Leaf M_SqlGlobal M_SqlLeaf M_SqlOps M_SqlJackknife.
Import ListNotations.
Open Scope string_scope.
Open Scope list_scope.

(** ** The tree *)
(** utils.push_filters_to_leaf, then every leaf is replaced by Sum of its column (operations.py 3163-3186; 3525-3533) *)
Fixpoint push_metric (name : leaf -> list string -> string) (above : list string) (m : metric) : metric :=
  match m with
  | MLeaf l w => MLeaf (Lf (LSum (Col (name l (above ++ w))))) []
  | MOp op a b w => MOp op (push_metric name (above ++ w) a) (push_metric name (above ++ w) b) []
  | MConstL op r a w => MConstL op r (push_metric name (above ++ w) a) []
  | MConstR op a r w => MConstR op (push_metric name (above ++ w) a) r []
  | MSqrt a w => MSqrt (push_metric name (above ++ w) a) []
  | MSq a w => MSq (push_metric name (above ++ w) a) []
  end.
Fixpoint push_tree (name : leaf -> list string -> string) (above : list string) (m : otree) : otree :=
  match m with
  | OLeaf m n => OLeaf (push_metric name above m) n
  | ODist over c w => ODist over (push_tree name (above ++ w) c) []
  | OCum over how asc c w => OCum over how asc (push_tree name (above ++ w) c) []
  | OChange p cond base incl c w => OChange p cond base incl (push_tree name (above ++ w) c) []
  | ODiv d over c w => ODiv d over (push_tree name (above ++ w) c) []
  | OBin op a b n w => OBin op (push_tree name (above ++ w) a) (push_tree name (above ++ w) b) n []
  | OConstL op r c n w => OConstL op r (push_tree name (above ++ w) c) n []
  | OConstR op c r n w => OConstR op (push_tree name (above ++ w) c) r n []
  end.
(** utils.get_leaf_metrics after pushing the filters *)
Fixpoint metric_leaves (above : list string) (m : metric) : list (leaf * list string) :=
  match m with
  | MLeaf l w => [(l, above ++ w)]
  | MOp _ a b w => metric_leaves (above ++ w) a ++ metric_leaves (above ++ w) b
  | MConstL _ _ a w | MConstR _ a _ w | MSqrt a w | MSq a w => metric_leaves (above ++ w) a
  end.
Fixpoint tree_leaves (above : list string) (m : otree) : list (leaf * list string) :=
  match m with
  | OLeaf m _ => metric_leaves above m
  | ODist _ c w | OCum _ _ _ c w | OChange _ _ _ _ c w | ODiv _ _ c w | OConstL _ _ c _ w | OConstR _ c _ _ w => tree_leaves (above ++ w) c
  | OBin _ a b _ w => tree_leaves (above ++ w) a ++ tree_leaves (above ++ w) b
  end.
(** utils.get_extra_split_by(return_superset=True), utils.py 177-202 *)
Fixpoint extra_split (m : otree) : list string :=
  match m with
  | OLeaf _ _ => []
  | ODist over c _ | OCum over _ _ c _ | OChange _ over _ _ c _ | ODiv _ over c _ => over ++ extra_split c
  | OBin _ a b _ _ => add_cols (extra_split a) (extra_split b)
  | OConstL _ _ c _ _ | OConstR _ c _ _ _ => extra_split c
  end.

(** ** The tables *)
(** SELECT by_, aggregates FROM t GROUP BY by_ *)
Definition grouped (by_ : list string) (aggs : string -> stable -> option R) (t : stable) : stable :=
  List.map (fun k => SRow (fun c => match assoc c (combine by_ k) with Some l => l | None => None end) (fun c => aggs c (group by_ k t)))
           (match by_ with [] => [[]] | _ => nodup skey_dec (List.map (srow_key by_) t) end).
Definition column_of (name : leaf -> list string -> string) (leaves : list (leaf * list string)) (c : string) : option (leaf * list string) :=
  find (fun lf => String.eqb c (name (fst lf) (snd lf))) leaves.
Definition coalesce0 (x : option R) : option R := match x with Some _ => x | None => Some 0%R end.

Section Run.
  Variable parse : string -> cond.
  Variable srt : list okey -> list env -> list env.

  (** The column of a leaf, 2081-2084: SUM(IF(filters, x, NULL)), COUNT(IF(filters, x, NULL)) *)
  Definition leaf_column (l : leaf) (fs : list string) (rows : stable) : option R :=
    match l with
    | Lf (LSum c) => sagg_value parse (SUM (AIf fs c)) rows
    | Lf (LCount c) => sagg_value parse (COUNT (AIf fs c)) rows
    | _ => None                                             (* does not occur *)
    end.
  (** 2075-2085 *)
  Definition preagg (pre : leaf -> list string -> string) (leaves : list (leaf * list string)) (cols : list string) (t : stable) : stable :=
    grouped cols (fun c rows => match column_of pre leaves c with Some lf => leaf_column (fst lf) (snd lf) rows | None => None end) t.
  (** SUM(c) *)
  Definition sum_of (c : string) (rows : stable) : option R := sagg_value parse (SUM (AIf [] (Col c))) rows.
  (** UnitSliceCount, 3418-3422: COUNT( * ) AS ct and the sums of the columns *)
  Definition unit_slice (cols : list string) (t : stable) : stable :=
    grouped cols (fun c rows => if String.eqb c "ct" then Some (INR (List.length rows)) else sum_of c rows) t.
  (** TotalCount, 3424-3429 *)
  Definition total_count (cols : list string) (u : stable) : stable := grouped cols sum_of u.

  (** c = c for all the columns of USING *)
  Definition using_match (cols : list string) (a b : string -> option string) : bool :=
    forallb (fun c => match sql_eq (a c) (b c) with Some true => true | _ => false end) cols.
  (** LOO, 3431-3467.  (SELECT DISTINCT split_by, unit FROM UnitSliceCount) RIGHT JOINed to total_table USING (split_by) (CROSS
      JOIN if there is no split_by), LEFT JOIN unit_slice_table USING (all columns);
      WHERE total_table.ct - COALESCE(unit_slice_table.ct, 0) > 0; the columns: 3506-3510, 3527-3530 *)
  Definition null_row : srow := SRow (fun _ => None) (fun _ => None).
  Definition loo_columns (adjust : bool) (pre loo : leaf -> list string -> string) (leaves : list (leaf * list string)) (total unit_ : srow) (c : string) : option R :=
    match column_of loo leaves c with
    | Some lf => let p := pre (fst lf) (snd lf) in
                 lift2 Rminus (snum total p) (if adjust then coalesce0 (snum unit_ p) else snum unit_ p)
    | None => None
    end.
  Definition loo_table (adjust : bool) (pre loo : leaf -> list string -> string) (leaves : list (leaf * list string))
      (split_by cols : list string) (unit : string) (u total : stable) : stable :=
    flat_map (fun a : skey =>
      let sl := fun c => match assoc c (combine (split_by ++ [unit]) a) with Some l => l | None => None end in
      flat_map (fun tot =>
        let here := fun c => if mem c (split_by ++ [unit]) then sl c else slab tot c in
        flat_map (fun us =>
          match lift2 Rminus (snum tot "ct") (coalesce0 (snum us "ct")) with
          | Some d => if Rltb 0 d then [SRow (fun c => if String.eqb c resample_idx then sl unit else here c) (loo_columns adjust pre loo leaves tot us)] else []
          | None => []
          end)
          (match filter (fun us => using_match (cols ++ [unit]) here (slab us)) u with [] => [null_row] | l => l end))
        (match filter (fun tot => using_match split_by (slab tot) sl) total with [] => [null_row] | l => l end))
      (nodup skey_dec (List.map (srow_key (split_by ++ [unit])) u)).

  (** 3408-3412, 2099: a leaf has a filter, or an operation has index columns *)
  Definition needs_adjustment (m : otree) : bool :=
    existsb (fun lf => match snd lf with [] => false | _ => true end) (tree_leaves [] m) || match extra_idx m with [] => false | _ => true end.

  Definition jackknife_sql_fast (pre loo : leaf -> list string -> string) (where_ : list string) (unit : string) (m : otree) (split_by : list string) (t : stable) : list row :=
    let leaves := tree_leaves [] m in
    let cols := split_by ++ extra_split m in
    let data := preagg pre leaves (cols ++ [unit]) (filter (spass parse where_) t) in
    let u := unit_slice (cols ++ [unit]) data in
    let samples := samples_sql (push_tree loo [] m) split_by in
    let point := point_sql (push_tree pre [] m) split_by in
    with_se (split_by ++ extra_idx m) samples
            (run_sql parse srt samples (loo_table (needs_adjustment m) pre loo leaves split_by cols unit u (total_count cols u)))
            point (run_sql parse srt point data).
End Run.

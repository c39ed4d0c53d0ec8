(** Bootstrap and PoissonBootstrap on data frames: operations.py 2564-3205.
    Metrics are trees whose leaves are Sum, Count, Max, Min (the fully expanded equivalents of
    operations.py 2655-2657, see C19); filters are query texts interpreted by [keep] (df.query).
    The random generator is an oracle: the positions, or the weights, it returns. *)
From Coq Require Import Reals List Bool String Arith.
From Verif Require Import M_Num M_Frame M_Ops M_Slices M_Leaf M_Jackknife M_SqlText M_SqlFilter.
Import ListNotations.
Open Scope list_scope.

Inductive pkind := KSum | KCount | KMax | KMin.
Definition agg_of (k : pkind) (v : string) : table -> num :=
  match k with KSum => agg_sum v | KCount => agg_count v | KMax => agg_max v | KMin => agg_min v end.
(** A metric: where=... is a list of query texts on any node. *)
Inductive btree :=
  | BLeaf (k : pkind) (v : string) (w : list string)
  | BWhere (w : list string) (t : btree)
  | BConst (f : num -> num) (t : btree)
  | BBinary (f : num -> num -> num) (a b : btree)
  | BOp (extra extra_index : list string) (op : nat -> rframe -> option rframe) (t : btree).
Definition keep_all (keep : string -> drow -> bool) (w : list string) (r : drow) : bool :=
  forallb (fun q => keep q r) w.
(** The metric as the tree computed by compute_on. *)
Fixpoint plain_tree (keep : string -> drow -> bool) (t : btree) : mtree :=
  match t with
  | BLeaf k v w => TWhere (keep_all keep w) (TLeaf (agg_of k v))
  | BWhere w t' => TWhere (keep_all keep w) (plain_tree keep t')
  | BConst f t' => TConst f (plain_tree keep t')
  | BBinary f a b => TBinary f (plain_tree keep a) (plain_tree keep b)
  | BOp extra idx op t' => TOp extra idx op (plain_tree keep t')
  end.

(** ** Preaggregation: get_preaggregated_data, operations.py 3116-3205. *)
(** A leaf after push_filters_to_leaf (utils.py 230-271; the filters are collected in a set,
    metrics.py 278). *)
Record pleaf := PLeaf { pk : pkind; pvar : string; pwhere : list string }.
Definition push (w w0 : list string) : list string := nodup string_dec (w ++ w0).
Fixpoint pushed_leaves (w : list string) (t : btree) : list pleaf :=
  match t with
  | BLeaf k v w0 => [PLeaf k v (push w w0)]
  | BWhere w0 t' => pushed_leaves (push w w0) t'
  | BConst _ t' => pushed_leaves w t'
  | BBinary _ a b => pushed_leaves w a ++ pushed_leaves w b
  | BOp _ _ _ t' => pushed_leaves w t'
  end.
(** get_preaggregated_metric_var, operations.py 3189-3205, and Column.alias, sql.py 265-270 *)
Definition kind_text (k : pkind) : chars :=
  match k with KSum => to_chars "sum" | KCount => to_chars "count" | KMax => to_chars "max" | KMin => to_chars "min" end.
Definition leaf_text (l : pleaf) : chars :=
  kind_text (pk l) ++ to_chars "(" ++ to_chars (pvar l) ++ to_chars ")" ++
  match pwhere l with [] => [] | w => to_chars " where " ++ metric_where (List.map to_chars w) end.
Definition colname (l : pleaf) : string :=
  match escape_chars (leaf_text l) with Some c => of_chars c | None => EmptyString end.
(** The leaf computed on the data, 3161-3163 *)
Definition leaf_frame (keep : string -> drow -> bool) (l : pleaf) (cols : list string) (df : table) : rframe :=
  compute_leaf (agg_of (pk l) (pvar l)) cols (filter (keep_all keep (pwhere l)) df).
(** One row of the preaggregated data: 3160 original_idx, 3164-3166 columns renamed, of columns with
    the same name the first is kept, missing slices are filled with NaN.  [ls] are the leaves in the
    order the set yields them. *)
Fixpoint key_label (cols : list string) (k : list string) (c : string) : option string :=
  match cols, k with
  | c' :: cols', x :: k' => if string_dec c' c then Some x else key_label cols' k' c
  | _, _ => None
  end.
Definition pre_value (keep : string -> drow -> bool) (ls : list pleaf) (all : list string) (df : table)
    (k : list string) (c : string) : num :=
  match find (fun l => if string_dec (colname l) c then true else false) ls with
  | Some l => lookup k (leaf_frame keep l all df)
  | None => NaN
  end.
Definition pre_row keep ls all df (k : list string) : drow := Row (key_label all k) (pre_value keep ls all df k).
Definition pre_df keep ls all df : table := List.map (pre_row keep ls all df) (group_keys all df).
(** get_preaggregated_metric_tree, 3177-3199 *)
Definition pre_agg (l : pleaf) : table -> num :=
  match pk l with KMax => agg_max (colname l) | KMin => agg_min (colname l) | _ => agg_sum (colname l) end.
Fixpoint pre_tree (w : list string) (t : btree) : mtree :=
  match t with
  | BLeaf k v w0 => TLeaf (pre_agg (PLeaf k v (push w w0)))
  | BWhere w0 t' => pre_tree (push w w0) t'
  | BConst f t' => TConst f (pre_tree w t')
  | BBinary f a b => TBinary f (pre_tree w a) (pre_tree w b)
  | BOp extra idx op t' => TOp extra idx op (pre_tree w t')
  end.
Fixpoint extra_columns (t : btree) : list string :=
  match t with
  | BLeaf _ _ _ => [] | BWhere _ t' => extra_columns t' | BConst _ t' => extra_columns t'
  | BBinary _ a b => extra_columns a ++ extra_columns b
  | BOp extra _ _ t' => extra ++ extra_columns t'
  end.

(** ** Resampling: Bootstrap.get_samples, operations.py 2662-2693. *)
(** sample(frac=1, replace=True) on groups: [ds] are the positions drawn in each group. *)
Definition pick {A} (g : list A) (d : list nat) : list A :=
  flat_map (fun i => match nth_error g i with Some x => [x] | None => [] end) d.
Fixpoint sample_groups {A} (gs : list (list A)) (ds : list (list nat)) : list A :=
  match gs, ds with
  | g :: gs', d :: ds' => pick g d ++ sample_groups gs' ds'
  | _, _ => []
  end.
(** The units of each slice, 2675-2679 *)
Definition unit_groups (split_by : list string) (unit : string) (df : table) : list (list (list string)) :=
  let units := group_keys (split_by ++ [unit]) df in
  let n := List.length split_by in
  List.map (fun g => filter (fun k => key_eqb (firstn n k) g) units)
           (match split_by with [] => [[]] | _ => sort_uniq (List.map (firstn n) units) end).
(** df.loc[resampled], 2689 *)
Definition rows_of_units (cols : list string) (ks : list (list string)) (df : table) : table :=
  flat_map (fun k => slice cols k df) ks.
Definition sample_by_unit (split_by : list string) (unit : string) (df : table) (ds : list (list nat)) : table :=
  rows_of_units (split_by ++ [unit]) (sample_groups (unit_groups split_by unit df) ds) df.
Definition sample_by_row (split_by : list string) (df : table) (ds : list (list nat)) : table :=
  sample_groups (List.map (fun g => slice split_by g df) (group_keys split_by df)) ds.
(** 2666-2671: rows are drawn if each unit is one row of the preaggregated data *)
Definition sample_preaggregated (split_by : list string) (unit : string) (extra : list string) (df : table) (ds : list (list nat)) : table :=
  match extra with [] => sample_by_row split_by df ds | _ => sample_by_unit split_by unit df ds end.

(** ** PoissonBootstrap.get_samples, operations.py 2788-2882. *)
(** np.repeat *)
Fixpoint repeat_by {A} (l : list A) (ws : list nat) : list A :=
  match l, ws with
  | x :: l', w :: ws' => repeat x w ++ repeat_by l' ws'
  | _, _ => []
  end.
(** 2840-2842: rows repeated *)
Definition poisson_rows (df : table) (ws : list nat) : table := repeat_by df ws.
(** 2856-2862: the rows of each unit repeated *)
Definition poisson_units (split_by : list string) (unit : string) (df : table) (ws : list nat) : table :=
  rows_of_units (split_by ++ [unit]) (repeat_by (group_keys (split_by ++ [unit]) df) ws) df.
(** 2863-2877: the columns named sum_... and count_... multiplied by the weight, the rows of units
    with weight 0 dropped *)
Fixpoint starts_with (p s : chars) : bool :=
  match p, s with
  | [], _ => true
  | a :: p', b :: s' => Ascii.eqb a b && starts_with p' s'
  | _, [] => false
  end.
Definition multiplied (c : string) : bool :=
  starts_with (to_chars "sum_") (to_chars c) || starts_with (to_chars "count_") (to_chars c).
Definition weigh_row (w : nat) (r : drow) : drow :=
  Row (lab r) (fun c => if multiplied c then xmul (val r c) (Fin (INR w)) else val r c).
Fixpoint weigh_units (cols : list string) (ks : list (list string)) (ws : list nat) (df : table) : table :=
  match ks, ws with
  | k :: ks', w :: ws' => (match w with O => [] | _ => List.map (weigh_row w) (slice cols k df) end) ++ weigh_units cols ks' ws' df
  | _, _ => []
  end.
Definition poisson_preaggregated (split_by : list string) (unit : string) (extra : list string) (df : table) (ws : list nat) : table :=
  match extra with
  | [] => poisson_rows df ws
  | _ => weigh_units (split_by ++ [unit]) (group_keys (split_by ++ [unit]) df) ws df
  end.

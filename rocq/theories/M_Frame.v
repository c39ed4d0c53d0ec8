(** Data frames, grouping and leaf metrics. *)
From Coq Require Import Reals List Bool String Ascii NArith Arith.
From Verif Require Import M_Num.
Import ListNotations.
Open Scope list_scope.

(** A row of the user's DataFrame: every column can be read as a group label (None = null
    label) and as a number. *)
Record drow := Row { lab : string -> option string; val : string -> num }.
Definition table := list drow.

(** Group keys: one label per grouping column. *)
Notation key := (list string) (only parsing).
Definition key_eqb (a b : key) : bool := if list_eq_dec string_dec a b then true else false.

(** The order of group keys: lexicographic, labels compared as strings (pandas sorts the keys). *)
Fixpoint lex {A} (cmp : A -> A -> comparison) (a b : list A) : comparison :=
  match a, b with
  | [], [] => Eq
  | [], _ :: _ => Lt
  | _ :: _, [] => Gt
  | x :: a', y :: b' => match cmp x y with Eq => lex cmp a' b' | c => c end
  end.
Definition codes (s : string) : list N := List.map N_of_ascii (list_ascii_of_string s).
Definition str_cmp (a b : string) : comparison := lex N.compare (codes a) (codes b).
Definition key_cmp (a b : key) : comparison := lex str_cmp a b.

Fixpoint insert_uniq (k : key) (l : list key) : list key :=
  match l with
  | [] => [k]
  | x :: l' => match key_cmp k x with Lt => k :: l | Eq => l | Gt => x :: insert_uniq k l' end
  end.
Definition sort_uniq (l : list key) : list key := fold_right insert_uniq [] l.

(** The labels of a row under the columns [cols]; None when one of them is null: such rows are
    dropped by groupby (dropna=True). *)
Fixpoint row_key (cols : list string) (r : drow) : option key :=
  match cols with
  | [] => Some []
  | c :: cols' => match lab r c, row_key cols' r with Some x, Some k => Some (x :: k) | _, _ => None end
  end.
Definition has_key (cols : list string) (k : key) (r : drow) : bool :=
  match row_key cols r with Some k' => key_eqb k' k | None => false end.
(** The rows of one slice. *)
Definition slice (cols : list string) (k : key) (df : table) : table := filter (has_key cols k) df.

Fixpoint keys_of (cols : list string) (df : table) : list key :=
  match df with
  | [] => []
  | r :: df' => match row_key cols r with Some k => k :: keys_of cols df' | None => keys_of cols df' end
  end.
(** Groups of df.groupby(cols): sorted, without duplicates.  Without columns there is one slice,
    the frame itself, even if it is empty (metrics.py 572-579, 901-904). *)
Definition group_keys (cols : list string) (df : table) : list key :=
  match cols with [] => [[]] | _ => sort_uniq (keys_of cols df) end.

(** Result frames: index key -> value, one value column. *)
Definition rframe := list (key * num).

(** metrics.py 493-549 (Metric.compute_slices applying compute to every slice) and the
    vectorized versions 1730-1732, 1758-1759, 1789-1797, 1841-1844, 1879-1880, 1903-1904: the
    aggregation applied to each group.  [agg] is the metric's function of the rows of a slice. *)
Definition compute_leaf (agg : table -> num) (cols : list string) (df : table) : rframe :=
  List.map (fun k => (k, agg (slice cols k df))) (group_keys cols df).

(** pandas' lookup of an index key; NaN (from alignment) if it does not occur *)
Fixpoint lookup (k : key) (fr : rframe) : num :=
  match fr with [] => NaN | (k', v) :: fr' => if key_eqb k' k then v else lookup k fr' end.

(** The rows of a result whose first [n] index levels are [k], without these levels. *)
Definition restrict (n : nat) (k : key) (fr : rframe) : rframe :=
  List.map (fun r => (skipn n (fst r), snd r)) (filter (fun r => key_eqb (firstn n (fst r)) k) fr).

(** children.groupby(level=split_by).agg: one row per group of the first [n] levels *)
Definition level_keys (n : nat) (fr : rframe) : list key :=
  match n with O => [[]] | _ => sort_uniq (List.map (fun r => firstn n (fst r)) fr) end.
Definition groupby_level {A} (n : nat) (agg : list num -> A) (fr : rframe) : list (key * A) :=
  List.map (fun g => (g, agg (List.map snd (filter (fun r => key_eqb (firstn n (fst r)) g) fr)))) (level_keys n fr).

(** Leaf aggregations. *)
Definition column (v : string) (rows : table) : list num := List.map (fun r => val r v) rows.
Definition count_present (l : list num) : nat := List.length (filter (fun x => negb (is_nan x)) l).
(** metrics.py 1758-1759: grouped[var].sum() *)
Definition agg_sum (v : string) (rows : table) : num := xsum (column v rows).
(** metrics.py 1730-1732: grouped[var].count() *)
Definition agg_count (v : string) (rows : table) : num := Fin (INR (count_present (column v rows))).
(** metrics.py 1841-1844: mean, NaN when there is no present value *)
Definition xmean (l : list num) : num := xdiv (xsum l) (Fin (INR (count_present l))).
Definition agg_mean (v : string) (rows : table) : num := xmean (column v rows).
(** metrics.py 1879-1880, 1903-1904: max/min of the present values, NaN if there is none *)
Definition xmax2 (x y : num) : num := if is_nan x then y else if is_nan y then x else if xlt x y then y else x.
Definition xmin2 (x y : num) : num := if is_nan x then y else if is_nan y then x else if xlt y x then y else x.
Definition agg_max (v : string) (rows : table) : num := fold_right xmax2 NaN (column v rows).
Definition agg_min (v : string) (rows : table) : num := fold_right xmin2 NaN (column v rows).

(** Jackknife on data frames: operations.py 1607-1800 (MetricWithCI) and 2267-2470 (Jackknife),
    utils.py 432-512 (adjust_slices_for_loo).  One value column; the cache is left out except for
    the two entries Jackknife precomputes, which are what [loo_leaf] and [bucket_total] return. *)
From Coq Require Import Reals List Bool String Arith.
From Verif Require Import M_Num M_Frame M_Ops M_Slices M_Leaf.
Import ListNotations.
Open Scope list_scope.

(** compute_on with the leaf results taken from [lv]: how a metric is computed when its leaves hit
    the cache. *)
Fixpoint compute_with (lv : (table -> num) -> list string -> table -> rframe)
    (t : mtree) (split_by : list string) (df : table) : option rframe :=
  match t with
  | TLeaf agg => Some (lv agg split_by df)
  | TWhere keep t' => compute_with lv t' split_by (filter keep df)
  | TConst f t' => match compute_with lv t' split_by df with
                   | Some r => Some (List.map (fun q => (fst q, f (snd q))) r) | None => None end
  | TBinary f a b =>
      if list_eq_dec string_dec (levels a) (levels b) then
        match compute_with lv a split_by df, compute_with lv b split_by df with
        | Some x, Some y => Some (align f x y)
        | _, _ => None
        end
      else None
  | TOp extra _ op t' =>
      match compute_with lv t' (split_by ++ extra) df with
      | Some c => op (List.length split_by) c
      | None => None
      end
  end.

(** ** The precomputation.  Index levels are split_by (there are [n]), the unit, the levels of
    operations. *)
Definition drop_at (n : nat) (k : list string) : list string := firstn n k ++ skipn (S n) k.
(** operations.py 2379-2384: each_bucket summed over the unit *)
Definition bucket_total (n : nat) (cols : list string) (bucket : rframe) : rframe :=
  match drop_at n cols with
  | [] => [([], xsum (List.map snd bucket))]
  | _ => List.map (fun g => (g, xsum (List.map snd (filter (fun q => key_eqb (drop_at n (fst q)) g) bucket))))
                  (sort_uniq (List.map (fun q => drop_at n (fst q)) bucket))
  end.
(** utils.py 487-511: the slices of the leave-one-out results.  [slices] is the frame given as df
    (operations.py 2333-2338).  The rows are put in key order; keys with a null label, which the
    outer join makes when a filter empties a whole split, are left out (their value is NaN). *)
Definition loo_keys (n : nat) (cols : list string) (slices : table) (bucket : rframe) : list (list string) :=
  let expected_units := group_keys (firstn (S n) cols) slices in
  match skipn (S n) cols with
  | [] => expected_units
  | _ => sort_uniq (flat_map (fun su =>
           List.map (fun q => su ++ skipn (S n) (fst q))
             (filter (fun q => key_eqb (firstn n (fst q)) (firstn n su) &&
                               negb (key_eqb (firstn 1 (skipn n (fst q))) (skipn n su))) bucket)) expected_units)
  end.
(** Series.reindex(fill_value=0) *)
Fixpoint lookup0 (k : list string) (fr : rframe) : num :=
  match fr with [] => Fin 0 | (k', v) :: fr' => if key_eqb k' k then v else lookup0 k fr' end.
(** operations.py 2386-2394: total - each_bucket, on the index of each_bucket (rows of [total]
    without a bucket, to which pandas gives a null unit, are left out) *)
Definition loo_leaf (n : nat) (slices : table) (agg : table -> num) (cols : list string) (df : table) : rframe :=
  let bucket := compute_leaf agg cols df in
  let total := bucket_total n cols bucket in
  List.map (fun k => (k, xsub (lookup (drop_at n k) total) (lookup0 k bucket))) (loo_keys n cols slices bucket).
(** get_extra_split_by with return_superset: all levels added by operations *)
Fixpoint op_columns (t : mtree) : list string :=
  match t with
  | TLeaf _ => [] | TWhere _ t' => op_columns t' | TConst _ t' => op_columns t'
  | TBinary _ a b => op_columns a ++ op_columns b
  | TOp extra _ _ t' => extra ++ op_columns t'
  end.
(** operations.py 2333-2338: rows with labels in split_by, the unit and all operation columns *)
Definition labelled (cols : list string) (r : drow) : bool := match row_key cols r with Some _ => true | None => false end.
Definition df_slices (t : mtree) (split_by : list string) (unit : string) (df : table) : table :=
  filter (labelled (split_by ++ [unit] ++ op_columns t)) df.
(** operations.py 2396-2416: compute_children when everything is precomputed; index split_by, unit,
    the metric's levels *)
Definition fast_replicates (t : mtree) (split_by : list string) (unit : string) (df : table) : option rframe :=
  compute_with (loo_leaf (List.length split_by) (df_slices t split_by unit df)) t (split_by ++ [unit]) df.
(** The point estimate after the precomputation: leaf totals are those cached in 2384. *)
Definition total_leaf (n : nat) (unit : string) (agg : table -> num) (cols : list string) (df : table) : rframe :=
  let with_unit := firstn n cols ++ [unit] ++ skipn n cols in
  bucket_total n with_unit (compute_leaf agg with_unit df).
Definition fast_point_estimate (t : mtree) (split_by : list string) (unit : string) (df : table) : option rframe :=
  compute_with (total_leaf (List.length split_by) unit) t split_by df.

(** ** Without the precomputation. *)
(** operations.py 2418-2450, get_samples.  Levels in order of appearance when there is no split_by
    (Series.unique, which includes a null level), sorted otherwise. *)
Definition is_unit (unit : string) (x : option string) (r : drow) : bool :=
  match lab r unit, x with
  | Some y, Some x => if string_dec y x then true else false
  | _, _ => false            (* a null label is unequal to everything *)
  end.
Fixpoint units_from (unit : string) (seen : list (option string)) (df : table) : list (option string) :=
  match df with
  | [] => []
  | r :: df' => if in_dec (fun a b : option string => ltac:(decide equality; apply string_dec)) (lab r unit) seen then units_from unit seen df'
                else lab r unit :: units_from unit (lab r unit :: seen) df'
  end.
Definition units_of (unit : string) (df : table) : list (option string) := units_from unit [] df.
Definition unique_slices (cols : list string) (df : table) : list (list string) := sort_uniq (keys_of cols df).
Definition loo_sample (split_by : list string) (unit : string) (df : table) (x : option string) : table :=
  let rest := filter (fun r => negb (is_unit unit x r)) df in
  match split_by with
  | [] => rest
  | _ => let here := unique_slices split_by (filter (is_unit unit x) df) in
         if Nat.eqb (List.length here) (List.length (unique_slices split_by df)) then rest
         else filter (fun r => match row_key split_by r with Some k => existsb (key_eqb k) here | None => false end) rest
  end.
Definition loo_units (split_by : list string) (unit : string) (df : table) : list (option string) :=
  match split_by with
  | [] => units_of unit df
  | _ => List.map (fun k => hd_error k) (sort_uniq (keys_of [unit] df))
  end.
(** compute_on_samples 1731-1767: samples that raise are skipped; 2432: fewer than two levels raise *)
Definition direct_replicates (t : mtree) (split_by : list string) (unit : string) (df : table) : option (list rframe) :=
  if Nat.ltb (List.length (units_of unit df)) 2 then None
  else Some (flat_map (fun x => match compute_on t split_by (loo_sample split_by unit df x) with Some r => [r] | None => [] end)
                      (loo_units split_by unit df)).

(** ** Standard errors and confidence intervals. *)
(** The replicates of one row of the result: columns of pd.concat (1770) or of unstack (2416).
    A row whose index has [n] levels of split_by. *)
Definition direct_row (reps : list rframe) (q : list string) : list num := List.map (lookup q) reps.
Definition unit_labels (n : nat) (reps : rframe) : list (list string) := sort_uniq (List.map (fun q => firstn 1 (skipn n (fst q))) reps).
Definition fast_row (n : nat) (reps : rframe) (q : list string) : list num :=
  List.map (fun x => lookup (firstn n q ++ x ++ skipn n q) reps) (unit_labels n reps).
(** MetricWithCI.get_stderrs 1787-1789 *)
Definition dof_of (reps : list num) : Z := Z.of_nat (count_present reps) - 1.
Definition std_of (reps : list num) : num := xsqrt (xvar reps 1).
(** Jackknife.get_stderrs 2452-2455 *)
Definition jk_stderr (reps : list num) : num :=
  xdiv (xmul (std_of reps) (Fin (IZR (dof_of reps)))) (xsqrt (Fin (IZR (dof_of reps + 1)))).
(** get_ci_width 1791-1795: [ppf] is scipy.stats.t.ppf (NaN unless dof > 0); compute_ci 1672-1697 *)
Definition half_width (ppf : R -> Z -> num) (confidence : R) (stderr : num) (dof : Z) : num :=
  xmul stderr (ppf ((1 + confidence) / 2)%R dof).
Definition ci (ppf : R -> Z -> num) (confidence : R) (point stderr : num) (dof : Z) : num * num :=
  let h := half_width ppf confidence stderr dof in (xsub point h, xadd h point).
(** compute_slices 1664-1667: the point estimates joined with the standard errors *)
Definition jackknife_fast (t : mtree) (split_by : list string) (unit : string) (df : table) : option (list (list string * num * num)) :=
  match fast_point_estimate t split_by unit df, fast_replicates t split_by unit df with
  | Some p, Some reps => Some (List.map (fun q => (fst q, snd q, jk_stderr (fast_row (List.length split_by) reps (fst q)))) p)
  | _, _ => None
  end.
Definition jackknife_direct (t : mtree) (split_by : list string) (unit : string) (df : table) : option (list (list string * num * num)) :=
  match compute_on t split_by df, direct_replicates t split_by unit df with
  | Some p, Some (r0 :: reps) => Some (List.map (fun q => (fst q, snd q, jk_stderr (direct_row (r0 :: reps) (fst q)))) p)
  | _, _ => None
  end.

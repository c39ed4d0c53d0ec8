(** SQL of Bootstrap: operations.py 2052-2066 (to_sql), 2102-2220 (get_sql_and_with_clause), 2742-2757, 3550-3711
    (the resampled data, M_BootSql), 3205-3243 (get_se_sql), and the same Bootstrap computed by pandas: 1731-1789, 2662-2693.

    Without preaggregation (no unit, enable_optimization=False, or leaf metrics other than those of is_metric_precomputable).  As for
    Jackknife (M_SqlJackknife) the table of resamples is given as the rows it has; it is computed once although it may be used several
    times in the query.  One value column. *)
From Coq Require Import Reals List Bool String Arith ZArith DecimalString.
From Verif Require Import M_Num M_Frame M_Ops M_Slices M_Leaf M_Jackknife M_Bootstrap M_BootSql M_SqlGlobal M_SqlLeaf M_SqlOps M_SqlJackknife.
Import ListNotations.
Open Scope string_scope.
Open Scope list_scope.

(** The label of the i-th resample: UNNEST(GENERATE_ARRAY(1, n_replicates)) AS meterstick_resample_idx, 3613-3616 *)
Definition tag (i : nat) : string := NilEmpty.string_of_uint (Nat.to_uint i).
(** labels in split_by, None if one of them is NULL *)
Definition spart (split_by : list string) (r : srow) : option (list string) := row_key split_by (pandas_row r).
(** get_resampled_data_sql, 2742-2757, for one value of meterstick_resample_idx.  The filter of the Bootstrap has been applied to the table. *)
Definition boot_sample (split_by : list string) (unit : option string) (rand : nat -> nat -> R) (i : nat) (t : stable) : stable :=
  match unit with
  | None => bootstrap_by_row (spart split_by) (fun _ => Some true) rand i t
  | Some u => bootstrap_by_unit (spart split_by) (fun r => slab r u) (fun _ => Some true) rand i t
  end.
(** [order i]: the order in which ROW_NUMBER() counts the rows of the i-th copy of the table *)
Definition boot_table (split_by : list string) (unit : option string) (rand : nat -> nat -> R) (order : nat -> stable -> stable) (n : nat) (t : stable) : stable :=
  flat_map (fun i => List.map (relabel (Some (tag i))) (boot_sample split_by unit rand i (order i t))) (seq 1 n).

Section Run.
  Variable parse : string -> cond.
  Variable srt : list okey -> list env -> list env.
  Definition bootstrap_sql (rand : nat -> nat -> R) (order : nat -> stable -> stable) (where_ : list string) (unit : option string) (n : nat) (m : otree) (split_by : list string) (t : stable) : list row :=
    let t := filter (spass parse where_) t in
    with_se_of false (split_by ++ extra_idx m) (samples_sql m split_by) (run_sql parse srt (samples_sql m split_by) (boot_table split_by unit rand order n t))
               (point_sql m split_by) (run_sql parse srt (point_sql m split_by) t).

  (** ** pandas *)
  Variable psort : cum_how -> bool -> nat -> rframe -> rframe.
  (** get_samples 2662-2693, M_Bootstrap; [d]: the positions drawn in each slice *)
  Definition boot_psample (split_by : list string) (unit : option string) (df : table) (d : list (list nat)) : table :=
    match unit with None => sample_by_row split_by df d | Some u => sample_by_unit split_by u df d end.
  (** compute_on_samples 1731-1767: samples that raise are skipped; compute_slices 1664-1667; get_stderrs 1787-1789 *)
  Definition boot_replicates (m : otree) (split_by : list string) (samples : list table) : list rframe :=
    flat_map (fun df => match op_compute parse psort m split_by df with Some r => [r] | None => [] end) samples.
  Definition bootstrap_pandas (draws : nat -> list (list nat)) (where_ : list string) (unit : option string) (n : nat) (m : otree) (split_by : list string) (df : table) : option (list (list string * num * num * Z)) :=
    let df := filter (pfilters parse where_) df in
    match op_compute parse psort m split_by df, boot_replicates m split_by (List.map (fun i => boot_psample split_by unit df (draws i)) (seq 1 n)) with
    | Some p, r0 :: reps => Some (List.map (fun q => let l := direct_row (r0 :: reps) (fst q) in (fst q, snd q, std_of l, dof_of l)) p)
    | _, _ => None
    end.
End Run.

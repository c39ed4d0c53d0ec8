(** SQL of PoissonBootstrap: operations.py 2884-3110 (get_resampled_data_sql), with the rest of the query as for Bootstrap (M_SqlBoot), and the
    same PoissonBootstrap computed by pandas: 2788-2882, 1731-1789.

    Without preaggregation (no unit, enable_optimization=False, or leaf metrics other than those of is_metric_precomputable).  One value column. *)
From Coq Require Import Reals List Bool String Arith ZArith.
From Verif Require Import M_Num M_Frame M_Ops M_Slices M_Leaf M_Jackknife M_Bootstrap M_BootSql M_BootCache M_SqlGlobal M_SqlLeaf M_SqlOps M_SqlJackknife M_SqlBoot.
Import ListNotations.
Open Scope string_scope.
Open Scope list_scope.

(** PoissonBootstrapDataWithUniformVar 3005-3042: RAND() for each row of the i-th copy of the table (the j-th row gets [rand i j], the rows are in
    any order), or the FARM_FINGERPRINT of the labels in split_by, the unit and the number of the resample, scaled to [0, 1] ([fp]; NULL if a label is).
    PoissonBootstrapDataWithPoissonWeight 3043-3088: the weight, rows of weight 0 (and of a NULL variable) are dropped by WHERE.
    PoissonBootstrapResampledData 3103-3120: JOIN UNNEST(GENERATE_ARRAY(1, weight)) repeats each row.
    The filter of the PoissonBootstrap has been applied to the table. *)
Definition poisson_sample (split_by : list string) (unit : option string) (rand : nat -> nat -> R) (fp : string -> R) (i : nat) (t : stable) : stable :=
  match unit with
  | None => repeat_by t (List.map (fun j => poisson_weight (rand i j)) (seq 0 (List.length t)))
  | Some u => flat_map (fun r => match spart (split_by ++ [u]) r with
                                 | Some k => repeat r (poisson_weight (hashed_uniform fp k i))
                                 | None => []
                                 end) t
  end.
Definition poisson_table (split_by : list string) (unit : option string) (rand : nat -> nat -> R) (fp : string -> R) (n : nat) (t : stable) : stable :=
  flat_map (fun i => List.map (relabel (Some (tag i))) (poisson_sample split_by unit rand fp i t)) (seq 1 n).

Section Run.
  Variable parse : string -> cond.
  Variable srt : list okey -> list env -> list env.
  Definition poisson_sql (rand : nat -> nat -> R) (fp : string -> R) (where_ : list string) (unit : option string) (n : nat) (m : otree) (split_by : list string) (t : stable) : list row :=
    let t := filter (spass parse where_) t in
    with_se_of false (split_by ++ extra_idx m) (samples_sql m split_by) (run_sql parse srt (samples_sql m split_by) (poisson_table split_by unit rand fp n t))
               (point_sql m split_by) (run_sql parse srt (point_sql m split_by) t).

  (** ** pandas *)
  Variable psort : cum_how -> bool -> nat -> rframe -> rframe.
  (** get_samples 2827-2862, M_Bootstrap; [ws]: the weights drawn for the rows, or for the units of all slices *)
  Definition poisson_psample (split_by : list string) (unit : option string) (df : table) (ws : list nat) : table :=
    match unit with None => poisson_rows df ws | Some u => poisson_units split_by u df ws end.
  Definition poisson_pandas (weights : nat -> list nat) (where_ : list string) (unit : option string) (n : nat) (m : otree) (split_by : list string) (df : table) : option (list (list string * num * num * Z)) :=
    let df := filter (pfilters parse where_) df in
    match op_compute parse psort m split_by df, boot_replicates parse psort m split_by (List.map (fun i => poisson_psample split_by unit df (weights i)) (seq 1 n)) with
    | Some p, r0 :: reps => Some (List.map (fun q => let l := direct_row (r0 :: reps) (fst q) in (fst q, snd q, std_of l, dof_of l)) p)
    | _, _ => None
    end.
End Run.

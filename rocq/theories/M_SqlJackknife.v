(** SQL of Jackknife: operations.py 2052-2101 (to_sql), 2102-2215 (get_sql_and_with_clause), 3205-3243
    (get_se_sql), 3268-3352 (get_jackknife_data_general), and the same Jackknife computed by pandas.

    The queries of the child are those of M_SqlOps; they are run on the resampled table, which is given as the
    rows it has.  One value column.  Not modelled: the additional column with the baseline of a comparison
    (2176-2199, only used for the display). *)
From Coq Require Import Reals List Bool String Arith ZArith.
From Verif Require Import M_Num M_Frame M_Ops M_Slices M_Leaf M_Jackknife M_SqlGlobal M_SqlLeaf M_SqlOps.
Import ListNotations.
Open Scope string_scope.
Open Scope list_scope.

Definition resample_idx := "meterstick_resample_idx".

(** ** The resampled table *)
(** SELECT DISTINCT split_by AS jk_split_by, unit AS meterstick_resample_idx (3315-3324, 3338) *)
Definition bucket := (skey * option string)%type.
Definition bucket_dec : forall a b : bucket, {a = b} + {a <> b}.
Proof. decide equality; [apply label_dec|apply skey_dec]. Defined.
Definition buckets (split_by : list string) (unit : string) (t : stable) : list bucket :=
  nodup bucket_dec (List.map (fun r => (srow_key split_by r, slab r unit)) t).
(** a = b; NULL if one of them is *)
Definition sql_eq (a b : option string) : option bool := lift2 String.eqb a b.
(** ON jk_split_by = split_by AND meterstick_resample_idx != unit (3325-3328); without split_by the tables are
    CROSS JOINed and the second condition is in WHERE (3339-3346), which is the same. *)
Definition on_bucket (split_by : list string) (unit : string) (b : bucket) (r : srow) : bool :=
  match fold_right and3 (option_map negb (sql_eq (snd b) (slab r unit)))
          (List.map (fun p => sql_eq (fst p) (snd p)) (combine (fst b) (srow_key split_by r))) with
  | Some true => true
  | _ => false
  end.
(** SELECT all columns: the columns of the table and meterstick_resample_idx *)
Definition relabel (x : option string) (r : srow) : srow :=
  SRow (fun c => if String.eqb c resample_idx then x else slab r c) (snum r).
Definition jk_general (split_by : list string) (unit : string) (t : stable) : stable :=
  flat_map (fun r => List.map (fun b => relabel (snd b) r) (filter (fun b => on_bucket split_by unit b r) (buckets split_by unit t))) t.

(** ** Standard errors *)
(** STDDEV_SAMP(c) * SAFE_DIVIDE(COUNT(c) - 1, SQRT(COUNT(c))), 3226-3239; [l]: the values of c in the group *)
Definition stddev_samp (l : list (option R)) : option R :=
  unless_fewer 2 (nonnull l) (sqrt (dev (nonnull l) / (INR (List.length (nonnull l)) - 1))).
Definition se_of (l : list (option R)) : option R :=
  let count := INR (List.length (nonnull l)) in
  lift2 Rmult (stddev_samp l) (vdiv (Some (count - 1)%R) (Some (sqrt count))).
(** COUNT(c) - 1, 3240-3241 *)
Definition sql_dof (l : list (option R)) : Z := Z.of_nat (List.length (nonnull l)) - 1.
Definition se_name (c : string) := String.append c " Jackknife SE".
(** 3229-3239: the adjustment is made for a Jackknife only *)
Definition stderr_sql (jackknife : bool) (l : list (option R)) : option R := if jackknife then se_of l else stddev_samp l.
Definition stderr_name (jackknife : bool) (c : string) : string := if jackknife then se_name c else String.append c " Bootstrap SE".
Definition dof_name (c : string) := String.append c " dof".

Section Run.
  Variable parse : string -> cond.
  Variable srt : list okey -> list env -> list env.

  (** get_se_sql 3205-3243.  The columns of [samples] that are index columns, except meterstick_resample_idx, are
      those of GROUP BY (3219-3226); one row per group, one row in total if there is no GROUP BY. *)
  Definition se_groupby (indexes : list string) (samples : sqlq) : list string :=
    add_cols (filter (fun c => negb (String.eqb c resample_idx)) (groupby_of samples))
             (filter (fun c => negb (String.eqb c resample_idx) && mem c indexes) (columns_of samples)).
  Definition se_values (indexes : list string) (samples : sqlq) : list string :=
    filter (fun c => negb (String.eqb c resample_idx) && negb (mem c indexes)) (columns_of samples).
  Definition row_key_of (cols : list string) (r : row) : skey := List.map (fun c => label (r c)) cols.
  Definition se_rows_of (jackknife : bool) (indexes : list string) (samples : sqlq) (rows : list row) : list row :=
    let by_ := se_groupby indexes samples in
    List.map (fun k =>
      let grp := filter (fun r => if skey_dec (row_key_of by_ r) k then true else false) rows in
      fun c => match assoc c (combine by_ k) with
               | Some l => of_label l
               | None =>
                   match filter (fun v => String.eqb c (stderr_name jackknife v)) (se_values indexes samples) with
                   | v :: _ => of_number (stderr_sql jackknife (List.map (fun r => number (r v)) grp))
                   | [] => match filter (fun v => String.eqb c (dof_name v)) (se_values indexes samples) with
                           | v :: _ => Num (IZR (sql_dof (List.map (fun r => number (r v)) grp)))
                           | [] => Null
                           end
                   end
               end)
      (match by_ with [] => [[]] | _ => nodup skey_dec (List.map (row_key_of by_) rows) end).
  Definition se_rows := se_rows_of true.

  (** get_se_sql 3208-3215: the child with meterstick_resample_idx added to split_by and to the index columns
      (which come last in the code: the order of the columns is the only difference). *)
  Definition samples_sql (m : otree) (split_by : list string) : sqlq :=
    tree_sql [] [] (split_by ++ resample_idx :: extra_idx m) (split_by ++ [resample_idx]) m.
  (** 2147-2152; the filters of the Jackknife have been applied to the table (2060-2066), those of its descendants
      are not global (utils.get_global_filter stops at a Jackknife). *)
  Definition point_sql (m : otree) (split_by : list string) : sqlq := tree_sql [] [] (split_by ++ extra_idx m) split_by m.
  (** 2154-2171, 2216-2220: point estimates LEFT JOIN (CROSS JOIN without index columns) standard errors *)
  Definition left_join (using_ : list string) (pts ses : list row) : list (row * row) :=
    flat_map (fun p => match filter (match_using using_ p) ses with [] => [(p, no_row)] | l => List.map (fun s => (p, s)) l end) pts.
  Definition with_se_of (jackknife : bool) (indexes : list string) (samples : sqlq) (sample_rows : list row) (point : sqlq) (pts : list row) : list row :=
    let ses := se_rows_of jackknife indexes samples sample_rows in
    let using_ := add_cols (se_groupby indexes samples) (filter (fun c => mem c indexes) (columns_of point)) in
    let vals := filter (fun c => negb (mem c indexes)) (columns_of point) in
    List.map (fun ps => fun c =>
      if mem c using_ then fst ps c else if mem c vals then fst ps c else snd ps c) (left_join using_ pts ses).
  Definition with_se := with_se_of true.
  Definition jackknife_sql (where_ : list string) (unit : string) (m : otree) (split_by : list string) (t : stable) : list row :=
    let t := filter (spass parse where_) t in
    with_se (split_by ++ extra_idx m) (samples_sql m split_by) (run_sql parse srt (samples_sql m split_by) (jk_general split_by unit t))
            (point_sql m split_by) (run_sql parse srt (point_sql m split_by) t).

  (** ** pandas *)
  Variable psort : cum_how -> bool -> nat -> rframe -> rframe.
  (** compute_on_samples, operations.py 1731-1767; get_samples 2418-2450 (M_Jackknife); compute_slices 1664-1667 *)
  Definition op_replicates (m : otree) (split_by : list string) (unit : string) (df : table) : option (list rframe) :=
    if Nat.ltb (List.length (units_of unit df)) 2 then None
    else Some (flat_map (fun x => match op_compute parse psort m split_by (loo_sample split_by unit df x) with Some r => [r] | None => [] end)
                        (loo_units split_by unit df)).
  Definition jackknife_pandas (where_ : list string) (unit : string) (m : otree) (split_by : list string) (df : table) : option (list (list string * num * num * Z)) :=
    let df := filter (pfilters parse where_) df in
    match op_compute parse psort m split_by df, op_replicates m split_by unit df with
    | Some p, Some (r0 :: reps) =>
        Some (List.map (fun q => let l := direct_row (r0 :: reps) (fst q) in (fst q, snd q, jk_stderr l, dof_of l)) p)
    | _, _ => None
    end.
End Run.

(** ** Confidence intervals from the result of the query (compute_on_sql_sql_mode, operations.py 1996-2032;
    get_ci_width 1791-1795): [dof] is NULL if the group has no row of standard errors. *)
Definition sql_ci (ppf : R -> Z -> num) (confidence : R) (point se : num) (dof : option Z) : num * num :=
  let h := match dof with Some d => half_width ppf confidence se d | None => xmul se NaN end in
  (xsub point h, xadd point h).

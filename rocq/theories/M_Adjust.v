(** PrePostChange and CUPED with one covariate: operations.py 730-808, 973-1037, and the queries
    816-905, 1048-1150.  [t] is the aligned frame of 756-758 / 1000-1002: one row per index key of the
    child (split_by, stratified_by, condition), with the value [y] of the child and [x] of the covariate
    (NaN where pd.concat found none).  One column [y] of the child; the code loops over them. *)
From Coq Require Import Reals List Bool String Arith.
From Verif Require Import M_Num M_Frame M_Ops M_Leaf.
Import ListNotations.
Open Scope list_scope.

Section Adjust.
  Variables (s conds : list string).   (* split_by, condition_column *)
  Variables (y x : string).
  (** covariates.groupby(split_by).mean(), for the split of the row *)
  Definition split_mean (t : table) (r : drow) : num :=
    match row_key s r with Some k => agg_mean x (slice s k t) | None => NaN end.
  (** 747-752, 991-996: covariates - mean.  (The code centers before it aligns; the means skip what is
      missing, so the order does not matter.) *)
  Definition set_val (v : string) (n : num) (r : drow) : drow := Row (lab r) (fun v' => if String.eqb v' v then n else val r v').
  Definition centered (t : table) : table := List.map (fun r => set_val x (xsub (val r x) (split_mean t r)) r) t.
  (** 783-785, 1026-1028: Cov(c, covariate) / Variance(covariate), on one slice *)
  Definition theta_metric : etree := EDiv (ELeaf (LCov (Col y) (Col x) 1 None None)) (ELeaf (LVar (Col x) 1 None)).
  Definition theta (rows : table) : num := evalt leaf_value theta_metric rows.
  (** 774-787: per split and condition *)
  Definition prepost_adjusted (t : table) : rframe :=
    compute_leaf (fun rows => xsub (agg_mean y rows) (xmul (agg_mean x rows) (theta rows))) (s ++ conds) (centered t).
  (** 1017-1030: means per split and condition, theta per split *)
  Definition cuped_adjusted (t : table) : rframe :=
    let t := centered t in
    List.map (fun k => let rows := slice (s ++ conds) k t in
                       (k, xsub (agg_mean y rows) (xmul (agg_mean x rows) (theta (slice s (firstn (List.length s) k) t)))))
             (group_keys (s ++ conds) t).
  (** compute_on_children of PercentChange and AbsoluteChange *)
  Definition prepost (base : key) (include_base : bool) (t : table) : option rframe :=
    percent_change (List.length s) (List.length conds) base include_base (prepost_adjusted t).
  Definition cuped (base : key) (include_base : bool) (t : table) : option rframe :=
    absolute_change (List.length s) (List.length conds) base include_base (cuped_adjusted t).

  (** The queries.  COVAR_SAMP and VAR_SAMP use the rows where both (the) values are present and are NULL
      for fewer than two of them; SAFE_DIVIDE is NULL when the denominator is 0; NULL is NaN here. *)
  Definition sql_covar (a b : colx) (rows : table) : num :=
    let rows := both_present a b rows in
    let ma := xmean (col_of a rows) in let mb := xmean (col_of b rows) in
    if Nat.leb (List.length rows) 1 then NaN else
    xdiv (xsum (List.map (fun r => xmul (xsub (cellx a r) ma) (xsub (cellx b r) mb)) rows)) (Fin (INR (List.length rows - 1))).
  Definition safe_divide (a b : num) : num :=
    match b with Fin d => if Req_EM_T d 0 then NaN else xdiv a b | _ => xdiv a b end.
  (** 889-894: AVG(y) - SAFE_DIVIDE(AVG(x) * COVAR_SAMP(y, x), VAR_SAMP(x)) on the centered table *)
  Definition prepost_sql_adjusted (t : table) : rframe :=
    compute_leaf (fun rows => xsub (agg_mean y rows)
        (safe_divide (xmul (agg_mean x rows) (sql_covar (Col y) (Col x) rows)) (sql_covar (Col x) (Col x) rows)))
      (s ++ conds) (centered t).
  (** 1108-1150: theta per split; AVG(y) - AVG(theta * x), not centered *)
  Definition sql_theta (rows : table) : num := safe_divide (sql_covar (Col y) (Col x) rows) (sql_covar (Col x) (Col x) rows).
  Definition cuped_sql_adjusted (t : table) : rframe :=
    List.map (fun k => let rows := slice (s ++ conds) k t in
                       let th := sql_theta (slice s (firstn (List.length s) k) t) in
                       (k, xsub (agg_mean y rows) (xmean (List.map (fun r => xmul th (val r x)) rows))))
             (group_keys (s ++ conds) t).
End Adjust.

(** PrePostChange and CUPED with several covariates: operations.py 730-808, 973-1037, the branches taken
    when `len(covariate.columns) > 1`.  [t] is the aligned frame, as in M_Adjust.  One column [y] of the
    child; the code loops over them. *)
From Coq Require Import Reals List Bool String Arith.
From Verif Require Import M_Num M_Frame M_Ops M_Adjust L_Fsum.
Import ListNotations.
Open Scope list_scope.

(** sklearn's LinearRegression().fit(X, y): [lm p data] is (intercept_, coef_) for data with p columns;
    one element of [data] is a row of X and its y.  It is an oracle: what the theorems need of it is that
    it is some least squares solution (S_AdjustMany.solves). *)
Definition regression := nat -> list ((nat -> R) * R) -> R * (nat -> R).

Section AdjustMany.
  Variable lm : regression.
  Variables (s conds : list string).   (* split_by, condition_column *)
  Variables (y : string) (xs : list string).
  (** 747-752, 991-996: covariates - covariates.groupby(split_by).mean(), every column by itself *)
  Definition centered_all (t : table) : table :=
    List.map (fun r => Row (lab r) (fun v => if in_dec string_dec v xs then xsub (val r v) (split_mean s v t r) else val r v)) t.
  (** lm.fit(covariate, child): sklearn raises ValueError (None) for NaN, infinities, or no rows at all *)
  Definition finite_cell (n : num) : bool := match n with Fin _ => true | _ => false end.
  Definition cell_number (n : num) : R := match n with Fin a => a | _ => 0%R end.
  Definition fit (rows : table) : option (R * (nat -> R)) :=
    match rows with
    | [] => None
    | _ => if forallb (fun r => finite_cell (val r y) && forallb (fun x => finite_cell (val r x)) xs) rows
           then Some (lm (List.length xs) (List.map (fun r => (fun i => cell_number (val r (nth i xs EmptyString)), cell_number (val r y))) rows))
           else None
    end.
  (** metrics.py 503-521: compute() on one slice after the other; an error in one of them is raised *)
  Fixpoint each {A B} (f : A -> option B) (l : list A) : option (list B) :=
    match l with
    | [] => Some []
    | a :: l' => match f a, each f l' with Some b, Some bs => Some (b :: bs) | _, _ => None end
    end.
  (** 789-796: the intercept, per split and condition *)
  Definition prepost_many_adjusted (t : table) : option rframe :=
    let t := centered_all t in
    each (fun k => match fit (slice (s ++ conds) k t) with Some ab => Some (k, Fin (fst ab)) | None => None end)
         (group_keys (s ++ conds) t).
  (** 1032-1039: per split, the means per condition; coef_ of the fit over the split *)
  Definition cuped_slice (t : table) (g : key) : option rframe :=
    let rows := slice s g t in
    match fit rows with
    | None => None
    | Some ab => Some (List.map (fun c => let arm := slice conds c rows in
        (g ++ c, xsub (agg_mean y arm)
                   (fold_right xadd (Fin 0) (List.map (fun i => xmul (agg_mean (nth i xs EmptyString) arm) (Fin (snd ab i))) (seq 0 (List.length xs))))))
        (group_keys conds rows))
    end.
  Definition cuped_many_adjusted (t : table) : option rframe :=
    let t := centered_all t in
    match each (cuped_slice t) (group_keys s t) with Some frs => Some (List.concat frs) | None => None end.
  (** compute_on_children of PercentChange and AbsoluteChange *)
  Definition prepost_many (base : key) (include_base : bool) (t : table) : option rframe :=
    match prepost_many_adjusted t with
    | Some fr => percent_change (List.length s) (List.length conds) base include_base fr | None => None end.
  Definition cuped_many (base : key) (include_base : bool) (t : table) : option rframe :=
    match cuped_many_adjusted t with
    | Some fr => absolute_change (List.length s) (List.length conds) base include_base fr | None => None end.
End AdjustMany.

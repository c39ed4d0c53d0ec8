(** Correlation(method='spearman') and Correlation(method='kendall'): metrics.py 2458-2545.  pandas' Series.corr keeps the rows where both columns are
    present; Spearman's is scipy's spearmanr (np.corrcoef of the average ranks), Kendall's is scipy's kendalltau (tau-b).  scipy's last step, which
    clips tau to [-1, 1] against rounding, is left out: reals do not round, and C85_bounds shows that it would change nothing. *)
From Coq Require Import Reals List Bool String.
From Verif Require Import M_Num M_Frame M_Leaf.
Import ListNotations.
Open Scope string_scope.
Open Scope R_scope.

Inductive corr_method := Pearson | Spearman | Kendall.

Definition count {A} (p : A -> bool) (l : list A) : R := INR (List.length (filter p l)).
Definition tied (x y : num) : bool := negb (xlt x y) && negb (xlt y x).
(** scipy.stats.rankdata, method 'average' *)
Definition rank (x : num) (l : list num) : R := count (fun y => xlt y x) l + (count (tied x) l + 1) / 2.
(** The two columns of ranks. *)
Definition ranked (a b : colx) (rows : table) : table :=
  List.map (fun r => Row (lab r) (fun c => Fin (if String.eqb c "rank a" then rank (cellx a r) (col_of a rows) else rank (cellx b r) (col_of b rows)))) rows.
Definition spearman (a b : colx) (rows : table) : num := xcorr (Col "rank a") (Col "rank b") (ranked a b (both_present a b rows)).

(** All pairs of rows. *)
Fixpoint pairs {A} (l : list A) : list (A * A) :=
  match l with [] => [] | r :: l' => List.map (fun q => (r, q)) l' ++ pairs l' end.
(** kendalltau, variant 'b': the numbers of discordant pairs and of ties *)
Definition kendall (a b : colx) (rows : table) : num :=
  let ps := pairs (both_present a b rows) in
  let x p := (cellx a (fst p), cellx a (snd p)) in
  let y p := (cellx b (fst p), cellx b (snd p)) in
  let dis := count (fun p => (xlt (fst (x p)) (snd (x p)) && xlt (snd (y p)) (fst (y p))) || (xlt (snd (x p)) (fst (x p)) && xlt (fst (y p)) (snd (y p)))) ps in
  let xtie := count (fun p => tied (fst (x p)) (snd (x p))) ps in
  let ytie := count (fun p => tied (fst (y p)) (snd (y p))) ps in
  let ntie := count (fun p => tied (fst (x p)) (snd (x p)) && tied (fst (y p)) (snd (y p))) ps in
  let tot := INR (List.length ps) in
  if (if Req_EM_T xtie tot then true else false) || (if Req_EM_T ytie tot then true else false) then NaN
  else xdiv (xdiv (Fin (tot - xtie - ytie + ntie - 2 * dis)) (Fin (sqrt (tot - xtie)))) (Fin (sqrt (tot - ytie))).

(** compute_slices on the rows of a slice, 2491-2509.  None: NotImplementedError. *)
Definition correlation (m : corr_method) (a b : colx) (weight : option colx) (rows : table) : option num :=
  match m, weight with
  | Pearson, w => Some (leaf_value (LCorr a b w) rows)
  | _, Some _ => None
  | Spearman, None => Some (spearman a b rows)
  | Kendall, None => Some (kendall a b rows)
  end.

(** self.group(df, split_by)[var].corr(df[var2]), 2508-2509: pandas joins the slice of [var] with all of [var2] by the index of the data frame.  A row of
    the data comes with its index label (a number). *)
Definition indexed := list (nat * drow).
(** df.reset_index(drop=True), 2507 *)
Definition reset_index (df : indexed) : indexed := combine (seq 0 (List.length df)) (List.map snd df).
(** Series.align(join='inner'): every pair of entries with the same label *)
Definition joined (a b : colx) (this other : indexed) : table :=
  flat_map (fun r => List.map (fun q => Row (lab (snd r)) (fun c => if String.eqb c "this" then cellx a (snd r) else cellx b (snd q))) (filter (fun q => Nat.eqb (fst q) (fst r)) other)) this.
Definition joined_corr (m : corr_method) (a b : colx) (split_by k : list string) (df : indexed) : option num :=
  correlation m (Col "this") (Col "other") None (joined a b (filter (fun r => has_key split_by k (snd r)) df) df).
Definition slice_corr (m : corr_method) (a b : colx) (split_by k : list string) (df : indexed) : option num := joined_corr m a b split_by k (reset_index df).

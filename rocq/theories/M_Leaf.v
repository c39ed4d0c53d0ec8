(** Leaf metrics with an equivalent in terms of Sum and Count: metrics.py Dot, Mean, Variance,
    StandardDeviation, CV, Correlation (Pearson), Cov; utils.py
    get_fully_expanded_equivalent_metric_tree.  One slice of the data; filters are left out
    (get_equivalent, metrics.py 881-887, copies the filter to the equivalent). *)
From Coq Require Import Reals List Bool String ZArith.
From Verif Require Import M_Num M_Frame.
Import ListNotations.
Open Scope list_scope.

(** Columns of the frame and auxiliary columns (utils.py 580-680: products and squares); the
    name of an auxiliary column stands for its content here, see C45. *)
Inductive colx := Col (name : string) | Times (a b : colx) | Squared (a : colx).
(** numpy power with exponents 0.5 and 2 *)
Definition xsqrt (x : num) : num :=
  match x with
  | Fin a => if Rle_dec 0 a then Fin (sqrt a) else NaN
  | PInf | NInf => PInf
  | NaN => NaN
  end.
Definition xsq (x : num) : num := xmul x x.
Fixpoint cellx (c : colx) (r : drow) : num :=
  match c with
  | Col v => val r v
  | Times a b => xmul (cellx a r) (cellx b r)
  | Squared a => xsq (cellx a r)
  end.

Inductive leafm :=
  | LSum (c : colx) | LCount (c : colx)
  | LDot (a b : colx) (normalize : bool)
  | LMean (c : colx) (weight : option colx)
  | LVar (c : colx) (ddof : Z) (weight : option colx)
  | LSD (c : colx) (ddof : Z) (weight : option colx)
  | LCV (c : colx) (ddof : Z)
  | LCov (a b : colx) (ddof : Z) (weight fweight : option colx)   (* ddof as resolved in 2587 *)
  | LCorr (a b : colx) (weight : option colx)
  | LOther (agg : table -> num).                                  (* no equivalent: Max, Min, Nth, Quantile *)
(** Metrics composed with arithmetic: CompositeMetric. *)
Inductive etree :=
  | ELeaf (l : leafm) | ENum (r : R)
  | EAdd (a b : etree) | ESub (a b : etree) | EMul (a b : etree) | EDiv (a b : etree)
  | ESqrt (a : etree)     (* ** 0.5 *)
  | ESq (a : etree).      (* ** 2 *)

(** Cov.get_equivalent_without_filter, metrics.py 2584-2617 *)
Definition cov_equivalent (a b : colx) (ddof : Z) (weight fweight : option colx) : etree :=
  let mean c w := ELeaf (LMean c w) in
  let '(v1, v2, res) :=
    match weight, fweight with
    | None, None => (ELeaf (LCount a), None, ESub (ELeaf (LDot a b true)) (EMul (mean a None) (mean b None)))
    | None, Some f => (ELeaf (LSum f), None, ESub (mean (Times a b) (Some f)) (EMul (mean a (Some f)) (mean b (Some f))))
    | Some w, None => (ELeaf (LSum w), Some (ELeaf (LDot w w false)),
                       ESub (mean (Times a b) (Some w)) (EMul (mean a (Some w)) (mean b (Some w))))
    | Some w, Some f => let wf := Times f w in
                        (ELeaf (LDot w f false), Some (ELeaf (LDot wf w false)),
                         ESub (mean (Times a b) (Some wf)) (EMul (mean a (Some wf)) (mean b (Some wf))))
    end in
  if Z.eqb ddof 0 then res else
  match v2 with
  | Some v2 => EDiv res (ESq (ESqrt (ESub (ENum 1) (EDiv (EMul (ENum (IZR ddof)) v2) (ESq v1)))))
  | None => EDiv res (ESq (ESqrt (ESub (ENum 1) (EDiv (ENum (IZR ddof)) v1))))
  end.
(** get_equivalent_without_filter of the other leaves: Dot 1799-1802, Mean 1855-1859,
    Variance 2350-2357, StandardDeviation 2404-2406, CV 2442-2444, Correlation 2511-2518. *)
Definition equivalent (l : leafm) : option etree :=
  match l with
  | LSum _ | LCount _ | LOther _ => None
  | LDot a b true => Some (EDiv (ELeaf (LSum (Times a b))) (ELeaf (LCount (Times a b))))
  | LDot a b false => Some (ELeaf (LSum (Times a b)))
  | LMean c None => Some (EDiv (ELeaf (LSum c)) (ELeaf (LCount c)))
  | LMean c (Some w) => Some (EDiv (ELeaf (LDot c w false)) (ELeaf (LSum w)))
  | LVar c ddof None => Some (ELeaf (LCov c c ddof None None))
  | LVar c ddof (Some w) =>
      let numer := ESub (ELeaf (LDot (Squared c) w false)) (EDiv (ESq (ELeaf (LDot c w false))) (ELeaf (LSum w))) in
      let denom := if Z.eqb ddof 0 then ELeaf (LSum w) else ESub (ELeaf (LSum w)) (ENum (IZR ddof)) in
      Some (EDiv numer (ESq (ESqrt denom)))
  | LSD c ddof w => Some (ESqrt (ELeaf (LVar c ddof w)))
  | LCV c ddof => Some (EDiv (ELeaf (LSD c ddof None)) (ELeaf (LMean c None)))
  | LCov a b ddof w f => Some (cov_equivalent a b ddof w f)
  | LCorr a b w => Some (EDiv (EDiv (ELeaf (LCov a b 0 w None)) (ELeaf (LSD a 0 w))) (ELeaf (LSD b 0 w)))
  end.
(** get_equivalent_metric_tree, utils.py 548-561 *)
Fixpoint expand (t : etree) : etree :=
  match t with
  | ELeaf l => match equivalent l with Some e => e | None => t end
  | ENum r => t
  | EAdd a b => EAdd (expand a) (expand b)
  | ESub a b => ESub (expand a) (expand b)
  | EMul a b => EMul (expand a) (expand b)
  | EDiv a b => EDiv (expand a) (expand b)
  | ESqrt a => ESqrt (expand a)
  | ESq a => ESq (expand a)
  end.
(** get_fully_expanded_equivalent_metric_tree, utils.py 515-546: expand until nothing changes. *)
Definition expands_to (t e : etree) : Prop := exists n, e = Nat.iter n expand t /\ expand e = e.

(** Evaluation on the rows of a slice, given the value of leaves. *)
Fixpoint evalt (lv : leafm -> table -> num) (t : etree) (rows : table) : num :=
  match t with
  | ELeaf l => lv l rows
  | ENum r => Fin r
  | EAdd a b => xadd (evalt lv a rows) (evalt lv b rows)
  | ESub a b => xsub (evalt lv a rows) (evalt lv b rows)
  | EMul a b => xmul (evalt lv a rows) (evalt lv b rows)
  | EDiv a b => xdiv (evalt lv a rows) (evalt lv b rows)
  | ESqrt a => xsqrt (evalt lv a rows)
  | ESq a => xsq (evalt lv a rows)
  end.

(** pandas Series.var(ddof) (missing values skipped; NaN unless more than ddof values) *)
Definition col_of (c : colx) (rows : table) : list num := List.map (cellx c) rows.
Definition xvar (l : list num) (ddof : Z) : num :=
  let n := count_present l in let m := xmean l in
  if Z.leb (Z.of_nat n) ddof then NaN
  else xdiv (xsum (List.map (fun x => xsq (xsub x m)) l)) (Fin (INR n - IZR ddof)).
(** pandas Series.corr(method='pearson'): rows where both are present; np.corrcoef *)
Definition both_present (a b : colx) (rows : table) : table :=
  filter (fun r => negb (is_nan (cellx a r)) && negb (is_nan (cellx b r))) rows.
Definition xcorr (a b : colx) (rows : table) : num :=
  let rows := both_present a b rows in
  let ma := xmean (col_of a rows) in let mb := xmean (col_of b rows) in
  let s f := xsum (List.map f rows) in
  xdiv (s (fun r => xmul (xsub (cellx a r) ma) (xsub (cellx b r) mb)))
       (xmul (xsqrt (s (fun r => xsq (xsub (cellx a r) ma)))) (xsqrt (s (fun r => xsq (xsub (cellx b r) mb))))).
(** The compute_slices of each leaf, for one slice (metrics.py 1728-1732, 1758, 1788-1797, 1841-1844,
    2345-2348, 2399-2402, 2438-2440, 2491-2509, 2581): native pandas code, or None if it computes
    the expanded equivalent. *)
Definition native (l : leafm) (rows : table) : option num :=
  match l with
  | LSum c => Some (xsum (col_of c rows))
  | LCount c => Some (Fin (INR (count_present (col_of c rows))))
  | LDot a b norm => let p := col_of (Times a b) rows in Some (if norm then xmean p else xsum p)
  | LMean c None => Some (xmean (col_of c rows))
  | LVar c ddof None => Some (xvar (col_of c rows) ddof)
  | LSD c ddof None => Some (xsqrt (xvar (col_of c rows) ddof))
  | LCV c ddof => Some (xdiv (xsqrt (xvar (col_of c rows) ddof)) (xmean (col_of c rows)))
  | LCorr a b None => Some (xcorr a b rows)
  | LOther agg => Some (agg rows)
  | LMean _ (Some _) | LVar _ _ (Some _) | LSD _ _ (Some _) | LCov _ _ _ _ _ | LCorr _ _ (Some _) => None
  end.
Definition native_value (l : leafm) (rows : table) : num := match native l rows with Some x => x | None => NaN end.
(** The value of a fully expanded tree, and of a leaf as the user computes it (six expansions are
    enough, C19_expansion_ends). *)
Definition full (t : etree) : etree := Nat.iter 6 expand t.
Definition expanded_value (l : leafm) (rows : table) : num := evalt native_value (full (ELeaf l)) rows.
Definition leaf_value (l : leafm) (rows : table) : num :=
  match native l rows with Some x => x | None => expanded_value l rows end.

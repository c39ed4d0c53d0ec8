(** An operation over a MetricList: the frame of the children has one value column per metric.  A wide row is a key and
    the values of the columns in the order of the metrics. *)
From Coq Require Import Reals List Bool String Arith.
From Verif Require Import M_Num M_Frame M_Ops M_SqlGlobal M_SqlLeaf M_SqlOps M_SqlList.
Import ListNotations.
Open Scope list_scope.

Definition wrow := (list string * list num)%type.
Definition wframe := list wrow.
Definition cell_at (j : nat) (r : wrow) : num := nth j (snd r) NaN.
(** df[col] *)
Definition wcol (j : nat) (w : wframe) : rframe := List.map (fun r => (fst r, cell_at j r)) w.
(** The value of a key in a column of another frame with the same columns, aligned by key. *)
Definition wlookup (j : nat) (k : list string) (w : wframe) : num := lookup k (wcol j w).
(** Arithmetic of two frames with the same columns: column by column. *)
Definition per_cell (c : nat) (f : nat -> list string -> num -> num) (w : wframe) : wframe :=
  List.map (fun r => (fst r, List.map (fun j => f j (fst r) (cell_at j r)) (seq 0 c))) w.
(** group(...).agg of every column: one row per group *)
Definition wgroups (n : nat) (w : wframe) : list (list string) := match n with O => [[]] | _ => sort_uniq (List.map (fun r => firstn n (fst r)) w) end.
Definition wgroupby (c n : nat) (agg : list num -> num) (w : wframe) : wframe :=
  List.map (fun g => (g, List.map (fun j => agg (List.map (cell_at j) (filter (fun r => key_eqb (firstn n (fst r)) g) w))) (seq 0 c))) (wgroups n w).

(** operations.py 215-225: total is the frame of sums per group, or the Series of sums *)
Definition wdistribution (c n : nat) (w : wframe) : wframe :=
  let total := wgroupby c n xsum w in
  per_cell c (fun j k v => xdiv v (wlookup j (firstn n k) total)) w.

(** groupby(split_by).cumsum() of all columns *)
Fixpoint wcumsum_from (c n : nat) (seen l : wframe) : wframe :=
  match l with
  | [] => []
  | r :: l' =>
      let before j := List.map (cell_at j) (filter (fun q => key_eqb (firstn n (fst q)) (firstn n (fst r))) seen) in
      (fst r, List.map (fun j => if is_nan (cell_at j r) then NaN else xsum (before j ++ [cell_at j r])) (seq 0 c)) :: wcumsum_from c n (seen ++ [r]) l'
  end.
Definition wsort_by_level (n : nat) (l : wframe) : wframe :=
  flat_map (fun g => filter (fun r => key_eqb (firstn n (fst r)) g) l) (wgroups n l).
(** dropna(): drops a row with a missing value in any column *)
Definition wdropna (c : nat) (w : wframe) : wframe := filter (fun r => forallb (fun j => negb (is_nan (cell_at j r))) (seq 0 c)) w.
Definition wreindex (n : nat) (order : list string) (w : wframe) : wframe :=
  flat_map (fun o => filter (fun r => key_eqb (firstn 1 (skipn n (fst r))) [o]) w) order.
(** operations.py 320-343.  [lsort] is sort_values(extra_index) of a frame with several columns; [vsort] is
    sort_values of one column (dist[col] is a Series), whose running sums are put side by side by pd.concat. *)
Definition wcumulative (lsort : bool -> nat -> wframe -> wframe) (vsort : bool -> nat -> rframe -> rframe)
    (c n : nat) (how : cum_how) (asc : bool) (w : wframe) : wframe :=
  let dist := wdistribution c n w in
  wsort_by_level n
    match how with
    | CumOrder o => wcumsum_from c n [] (wdropna c (wreindex n (if asc then o else rev o) dist))
    | CumOver => wcumsum_from c n [] (lsort asc n dist)
    | CumValues => concat_frames (List.map (fun j => group_cumsum n (vsort asc n (wcol j dist))) (seq 0 c))
    end.

(** operations.py 587-601, 638-653: xs and the arithmetic are on the whole frame *)
Definition wchange (f : num -> num -> num) (c n nc : nat) (base : list string) (include_base : bool) (w : wframe) : option wframe :=
  match xs n nc base w with
  | None => None
  | Some b =>
      let res := per_cell c (fun j k v => f v (wlookup j (drop_cond n nc k) b)) w in
      Some (if include_base then res else filter (fun r => negb (key_eqb (cond_of n nc (fst r)) base)) res)
  end.

(** diversity.py 65-68, 106-109: of all columns; 155-165: column by column, put side by side by pd.concat with
    split_by, else one row; 245-255: column by column and pd.concat. *)
Definition wdiversity (c n : nat) (d : divm) (w : wframe) : wframe :=
  let dist := wdistribution c n w in
  match d with
  | HHI => wgroupby c n (fun l => xsum (List.map (fun x => xmul x x) l)) dist
  | Entropy => wgroupby c n (fun l => xsum (List.map (fun x => xmul (xopp x) (xlog x)) l)) dist
  | TopK k =>
      match n with
      | O => [([], List.map (fun j => xsum (nlargest k (List.map (cell_at j) dist))) (seq 0 c))]
      | _ => concat_frames (List.map (fun j =>
               List.map (fun g => (fst g, xsum (snd g)))
                 (filter (fun g => match snd g with [] => false | _ => true end) (groupby_level n (nlargest k) (wcol j dist)))) (seq 0 c))
      end
  | Nxx s => concat_frames (List.map (fun j => groupby_level n (nxx_col s) (wcol j dist)) (seq 0 c))
  end.

(** An operation without its child. *)
Inductive lop :=
  | LDist (over : list string)
  | LCum (over : list string) (how : cum_how) (asc : bool)
  | LChange (percent : bool) (cond base : list string) (include_base : bool)
  | LDiv (d : divm) (over : list string).
Definition lop_over (o : lop) : list string :=
  match o with LDist over | LCum over _ _ | LDiv _ over => over | LChange _ cond _ _ => cond end.
(** compute_on_children *)
Definition wapply lsort vsort (o : lop) (c n : nat) (w : wframe) : option wframe :=
  match o with
  | LDist _ => Some (wdistribution c n w)
  | LCum _ how asc => Some (wcumulative lsort vsort c n how asc w)
  | LChange true cond base incl => wchange (fun v b => xmul (xsub (xdiv v b) (Fin 1)) (Fin 100)) c n (List.length cond) base incl w
  | LChange false cond base incl => wchange xsub c n (List.length cond) base incl w
  | LDiv d _ => Some (wdiversity c n d w)
  end.

Section Compute.
  Variable parse : string -> cond.
  Variable psort : cum_how -> bool -> nat -> rframe -> rframe.
  Variable lsort : bool -> nat -> wframe -> wframe.
  (** The metrics of the list that do not raise (metrics.py 1124-1151), with their results. *)
  Definition list_results (ms : list otree) (split_by : list string) (df : table) : list (otree * rframe) :=
    flat_map (fun m => match op_compute parse psort m split_by df with Some fr => [(m, fr)] | None => [] end) ms.
  (** compute_on, metrics.py 440-500: filter with [w], the where of the operation, compute the MetricList on split_by + extra_split_by
      (it filters with [lw], its own where), then compute_on_children.  The metrics of the columns and the rows.  A list in
      which every metric raises has no frame to concatenate (metrics.py 1183-1189): an exception. *)
  Definition olist_compute (o : lop) (w : list string) (ms : list otree) (lw split_by : list string) (df : table) : option (list otree * wframe) :=
    let res := list_results ms (split_by ++ lop_over o) (filter (pfilters parse lw) (filter (pfilters parse w) df)) in
    match res with
    | [] => None
    | _ => option_map (fun rows => (List.map fst res, rows))
             (wapply lsort (psort CumValues) o (List.length res) (List.length split_by) (concat_frames (List.map snd res)))
    end.
End Compute.

(** The operation over one metric of the list. *)
Definition alone (o : lop) (w lw : list string) (m : otree) : otree :=
  match o with
  | LDist over => ODist over m (w ++ lw)
  | LCum over how asc => OCum over how asc m (w ++ lw)
  | LChange p cond base incl => OChange p cond base incl m (w ++ lw)
  | LDiv d over => ODiv d over m (w ++ lw)
  end.

(** Metric trees over data frames: what compute_on returns, with the caching left out (C01 is
    about the cache), one value column. *)
From Coq Require Import Reals List Bool String Arith.
From Verif Require Import M_Num M_Frame M_Ops.
Import ListNotations.
Open Scope list_scope.

Inductive mtree :=
  | TLeaf (agg : table -> num)                       (* a metric that aggregates the rows of each slice *)
  | TWhere (keep : drow -> bool) (t : mtree)         (* where=...: df.query first, metrics.py 472-477 *)
  | TConst (f : num -> num) (t : mtree)              (* arithmetic with a number *)
  | TBinary (f : num -> num -> num) (a b : mtree)    (* CompositeMetric of two metrics, metrics.py 1447-1509 *)
  | TOp (extra extra_index : list string) (op : nat -> rframe -> option rframe) (t : mtree). (* Operation *)

(** The index levels the tree adds after split_by. *)
Fixpoint levels (t : mtree) : list string :=
  match t with
  | TLeaf _ => []
  | TWhere _ t' => levels t'
  | TConst _ t' => levels t'
  | TBinary _ a _ => levels a
  | TOp _ idx _ t' => idx ++ levels t'
  end.

(** Two results are aligned on the union of their keys, NaN where a key is missing (pandas' outer
    join; rows in key order). *)
Definition align (f : num -> num -> num) (a b : rframe) : rframe :=
  List.map (fun k => (k, f (lookup k a) (lookup k b))) (sort_uniq (List.map fst a ++ List.map fst b)).

(** compute_on(df, split_by); None = an exception, or two operands with different index levels
    (broadcasting between them is not modelled).
    Operation.compute_slices (operations.py 128-136): the child is computed with
    split_by + extra_split_by, the operation knows split_by. *)
Fixpoint compute_on (t : mtree) (split_by : list string) (df : table) : option rframe :=
  match t with
  | TLeaf agg => Some (compute_leaf agg split_by df)
  | TWhere keep t' => compute_on t' split_by (filter keep df)
  | TConst f t' => match compute_on t' split_by df with
                   | Some r => Some (List.map (fun q => (fst q, f (snd q))) r) | None => None end
  | TBinary f a b =>
      if list_eq_dec string_dec (levels a) (levels b) then
        match compute_on a split_by df, compute_on b split_by df with
        | Some x, Some y => Some (align f x y)
        | _, _ => None
        end
      else None
  | TOp extra _ op t' =>
      match compute_on t' (split_by ++ extra) df with
      | Some c => op (List.length split_by) c
      | None => None
      end
  end.

(** sort_values (a stable sort) of CumulativeDistribution by the over levels or by the values:
    [leb] compares rows without their split_by levels (operations.py 331-337). *)
Fixpoint insert_row (leb : key * num -> key * num -> bool) (n : nat) (r : key * num) (l : rframe) : rframe :=
  match l with
  | [] => [r]
  | q :: l' => if leb (skipn n (fst r), snd r) (skipn n (fst q), snd q) then r :: l else q :: insert_row leb n r l'
  end.
Definition sort_rows (leb : key * num -> key * num -> bool) (n : nat) (l : rframe) : rframe :=
  fold_right (insert_row leb n) [] l.

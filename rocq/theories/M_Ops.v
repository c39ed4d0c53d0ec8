(** Operations on the result of the child metric: operations.py Distribution,
    CumulativeDistribution, PercentChange, AbsoluteChange, MH; diversity.py HHI, Entropy, TopK,
    Nxx.  [n] is the number of split_by levels; the child's index is split_by, then the
    operation's own levels, then levels the child adds.  One value column (the code works
    column by column).  None = an exception. *)
From Coq Require Import Reals List Bool String Arith.
From Verif Require Import M_Num M_Frame.
Import ListNotations.
Open Scope list_scope.

(** operations.py 215-225 *)
Definition distribution (n : nat) (children : rframe) : rframe :=
  let total := groupby_level n xsum children in
  List.map (fun r => (fst r, xdiv (snd r) (lookup (firstn n (fst r)) total))) children.

(** groupby(split_by).cumsum(): NaN stays NaN and is skipped in the running sum *)
Fixpoint cumsum_from (n : nat) (seen l : rframe) : rframe :=
  match l with
  | [] => []
  | r :: l' =>
      let before := List.map snd (filter (fun q => key_eqb (firstn n (fst q)) (firstn n (fst r))) seen) in
      (fst r, if is_nan (snd r) then NaN else xsum (before ++ [snd r])) :: cumsum_from n (seen ++ [r]) l'
  end.
Definition group_cumsum (n : nat) (l : rframe) : rframe := cumsum_from n [] l.
(** res.sort_index(level=split_by, sort_remaining=False): groups in order, rows of a group as they were *)
Definition sort_by_level (n : nat) (l : rframe) : rframe :=
  flat_map (fun g => filter (fun r => key_eqb (firstn n (fst r)) g) l) (level_keys n l).
(** operations.py 320-343.  [order] (already reversed if not ascending): reindex keeps the rows
    whose label of the one over level is in the list, in that order, and dropna removes missing values;
    otherwise the rows are sorted by the over levels or by the values, [srt] is what sort_values does. *)
Definition reindex_order (n : nat) (order : list string) (fr : rframe) : rframe :=
  filter (fun r => negb (is_nan (snd r)))
    (flat_map (fun o => filter (fun r => key_eqb (firstn 1 (skipn n (fst r))) [o]) fr) order).
Inductive cum_sort := ByOrder (order : list string) | BySort (srt : rframe -> rframe).
Definition cumulative_distribution (n : nat) (s : cum_sort) (children : rframe) : rframe :=
  let dist := distribution n children in
  let sorted := match s with ByOrder o => reindex_order n o dist | BySort f => f dist end in
  sort_by_level n (group_cumsum n sorted).

(** Key parts for comparisons: [n] split_by levels, [nc] condition levels, the rest. *)
Definition cond_of (n nc : nat) (k : key) : key := firstn nc (skipn n k).
Definition drop_cond (n nc : nat) (k : key) : key := firstn n k ++ skipn (n + nc) k.
(** children.xs(baseline_key, level=condition): KeyError if the key does not occur *)
Definition xs {A} (n nc : nat) (base : key) (fr : list (key * A)) : option (list (key * A)) :=
  match filter (fun r => key_eqb (cond_of n nc (fst r)) base) fr with
  | [] => None
  | rows => Some (List.map (fun r => (drop_cond n nc (fst r), snd r)) rows)
  end.
Definition compare_with_base (f : num -> num -> num) (n nc : nat) (base : key) (include_base : bool)
    (children : rframe) : option rframe :=
  match xs n nc base children with
  | None => None
  | Some b =>
      let res := List.map (fun r => (fst r, f (snd r) (lookup (drop_cond n nc (fst r)) b))) children in
      Some (if include_base then res else filter (fun r => negb (key_eqb (cond_of n nc (fst r)) base)) res)
  end.
(** operations.py 587-601: (children / base - 1) * 100 *)
Definition percent_change := compare_with_base (fun v b => xmul (xsub (xdiv v b) (Fin 1)) (Fin 100)).
(** operations.py 638-653: children - base *)
Definition absolute_change := compare_with_base xsub.

(** operations.py 1248-1274 (MH.compute_mh).  The child is (numerator, denominator); the index is
    split_by, condition ([nc] levels), strata ([ns] levels), rest.  A stratum missing in the
    baseline gets NaN from the left join. *)
Definition frame2 := list (key * (num * num)).
Fixpoint lookup2 (k : key) (fr : frame2) : num * num :=
  match fr with [] => (NaN, NaN) | (k', v) :: fr' => if key_eqb k' k then v else lookup2 k fr' end.
Definition drop_strata (n nc ns : nat) (k : key) : key := firstn (n + nc) k ++ skipn (n + nc + ns) k.
Definition mh (n nc ns : nat) (base : key) (include_base : bool) (df_all : frame2) : option rframe :=
  match xs n nc base df_all with
  | None => None
  | Some df_baseline =>
      let joined := List.map (fun r => (fst r, (snd r, lookup2 (drop_cond n nc (fst r)) df_baseline))) df_all in
      let weight (q : (num * num) * (num * num)) := xdiv (Fin 1) (xadd (snd (fst q)) (snd (snd q))) in
      let numer := List.map (fun r => let '((ka, na), (kb, nb)) := snd r in
                                      (drop_strata n nc ns (fst r), xmul (xmul ka nb) (weight (snd r)))) joined in
      let denom := List.map (fun r => let '((ka, na), (kb, nb)) := snd r in
                                      (drop_strata n nc ns (fst r), xmul (xmul kb na) (weight (snd r)))) joined in
      let gkeys := sort_uniq (List.map fst numer) in
      let at_ g fr := xsum (List.map snd (filter (fun r => key_eqb (fst r) g) fr)) in
      let res := List.map (fun g => (g, xmul (xsub (xdiv (at_ g numer) (at_ g denom)) (Fin 1)) (Fin 100))) gkeys in
      Some (if include_base then res else filter (fun r => negb (key_eqb (cond_of n nc (fst r)) base)) res)
  end.

(** diversity.py 65-68: the sum of the squared distribution, per group *)
Definition hhi (n : nat) (child : rframe) : rframe :=
  groupby_level n (fun l => xsum (List.map (fun x => xmul x x) l)) (distribution n child).
(** diversity.py 106-109: the sum of -dist * log(dist); 0 * log 0 is NaN and skipped *)
Definition entropy (n : nat) (child : rframe) : rframe :=
  groupby_level n (fun l => xsum (List.map (fun x => xmul (xopp x) (xlog x)) l)) (distribution n child).

(** sort_values(ascending=False): NaN last *)
Fixpoint insert_desc (x : num) (l : list num) : list num :=
  match l with
  | [] => [x]
  | y :: l' => if is_nan y then x :: l else if is_nan x then y :: insert_desc x l' else
               if xlt y x then x :: l else y :: insert_desc x l'
  end.
Definition sort_desc (l : list num) : list num := fold_right insert_desc [] l.
(** Series.nlargest(k): the k largest, NaN dropped *)
Definition nlargest (k : nat) (l : list num) : list num := firstn k (filter (fun x => negb (is_nan x)) (sort_desc l)).
(** diversity.py 155-165.  With split_by the groups of the result are those of what nlargest keeps. *)
Definition top_k (k n : nat) (child : rframe) : rframe :=
  let tops := groupby_level n (nlargest k) (distribution n child) in
  List.map (fun g => (fst g, xsum (snd g)))
    (match n with O => tops | _ => filter (fun g => match snd g with [] => false | _ => true end) tops end).

(** diversity.py 245-255: the number of cumulative sums (values sorted descending) below the
    share, plus 1 *)
Fixpoint cumsum_list (acc : num) (l : list num) : list num :=
  match l with
  | [] => []
  | x :: l' => if is_nan x then NaN :: cumsum_list acc l' else xadd acc x :: cumsum_list (xadd acc x) l'
  end.
Definition nxx_col (share : R) (l : list num) : num :=
  Fin (INR (List.length (filter (fun c => xlt c (Fin share)) (cumsum_list (Fin 0) (sort_desc l))) + 1)).
Definition nxx (share : R) (n : nat) (child : rframe) : rframe :=
  groupby_level n (nxx_col share) (distribution n child).

(** What C62-C64 compare, and on which data. *)
From Coq Require Import Reals List Bool String Permutation Sorted.
From Verif Require Import M_Num M_Frame S_Ops M_SqlGlobal M_SqlLeaf S_SqlLeaf M_SqlOps.
Import ListNotations.
Open Scope list_scope.

(** The rows of the query as the caller gets them: labels of the index columns and the value. *)
Definition shown (index : list string) (value : string) (rows : list row) : list (list (option string) * num) :=
  List.map (fun r => (List.map (fun c => label (r c)) index, fetch (number (r value)))) rows.
(** The same rows as a pandas result, in some order. *)
Definition same_rows (s : list (list (option string) * num)) (fr : rframe) : Prop :=
  Permutation s (List.map (fun kv => (List.map Some (fst kv), snd kv)) fr).

(** ORDER BY: any order of the rows in which no row comes before a smaller one. *)
Definition db_sorts (srt : list okey -> list env -> list env) : Prop :=
  forall o l, Permutation (srt o l) l /\ StronglySorted (fun a b => order_cmp o a b <> Gt) (srt o l).
(** sort_values of pandas: by the labels after the first n, or by the value. *)
Definition frame_cmp (how : cum_how) (n : nat) (a b : list string * num) : comparison :=
  match how with
  | CumValues => match snd a, snd b with Fin x, Fin y => Rcmp x y | _, _ => Eq end      (* used for numbers only *)
  | _ => key_cmp (skipn n (fst a)) (skipn n (fst b))
  end.
Definition pandas_sorts (psort : cum_how -> bool -> nat -> rframe -> rframe) : Prop :=
  forall how asc n l, (how = CumValues -> forall r, In r l -> exists x, snd r = Fin x) ->
    Permutation (psort how asc n l) l /\
    StronglySorted (fun a b => (if asc then frame_cmp how n a b else frame_cmp how n b a) <> Gt) (psort how asc n l).

(** The query does not depend on the index columns of the rest of the tree. *)
Fixpoint plain_index (m : otree) : Prop :=
  match m with OLeaf _ _ => True | ODist _ c _ => plain_index c | _ => False end.
(** The value is a running sum. *)
Fixpoint running (m : otree) : bool :=
  match m with OCum _ _ _ _ _ => true | OBin _ a b _ _ => running a || running b | OConstL _ _ c _ _ | OConstR _ c _ _ _ => running c | _ => false end.
(** Supported trees: distinct index columns, none of them named like a value column; a distribution is of a metric
    without index columns of its own; the baseline names one label per condition column; two metrics that are added, subtracted, ... have the same
    index columns, or the index columns of a leaf metric or a distribution are among those of the other; at most one of them is a
    cumulative distribution. *)
Fixpoint supported_tree (by_ : list string) (m : otree) : Prop :=
  ~ In (value_name m) (by_ ++ extra_idx m) /\
  match m with
  | OLeaf _ _ => NoDup by_
  | ODist over c _ => over <> [] /\ extra_idx c = [] /\ supported_tree (by_ ++ over) c
  | OCum over how _ c _ => over <> [] /\ extra_idx c = [] /\ ~ In (String.append "Distribution of " (value_name c)) (by_ ++ over) /\
                           (match how with CumOrder _ => List.length over = 1%nat | _ => True end) /\ supported_tree (by_ ++ over) c
  | OChange _ cond base _ c _ => cond <> [] /\ List.length base = List.length cond /\ supported_tree (by_ ++ cond) c
  | ODiv _ over c _ => over <> [] /\ (exists m name, c = OLeaf m name) /\ ~ In (String.append "Cumulative " (value_name c)) by_ /\ supported_tree (by_ ++ over) c
  | OBin _ a b _ _ => supported_tree by_ a /\ supported_tree by_ b /\ running a && running b = false /\
      ~ In (value_name a) (by_ ++ extra_idx b) /\ ~ In (value_name b) (by_ ++ extra_idx a) /\
      (extra_idx a = extra_idx b \/
       (incl (extra_idx a) (extra_idx b) /\ (List.length (extra_idx a) < List.length (extra_idx b))%nat /\ plain_index a) \/
       (incl (extra_idx b) (extra_idx a) /\ (List.length (extra_idx b) < List.length (extra_idx a))%nat /\ plain_index b))
  | OConstL _ _ c _ _ | OConstR _ c _ _ _ => supported_tree by_ c
  end.

(** Conditions on the result of the child, [n] split_by labels first. *)
(** No division of a nonzero number by zero. *)
Definition dist_fits (n : nat) (fr : rframe) : Prop :=
  forall k v, In (k, v) fr -> total n (firstn n k) fr = 0%R -> v = Fin 0 \/ v = NaN.
(** No missing value, no zero total, no tie, every label in the order. *)
Definition cum_fits (n : nat) (how : cum_how) (fr : rframe) : Prop :=
  (forall k v, In (k, v) fr -> v <> NaN /\ total n (firstn n k) fr <> 0%R) /\
  match how with
  | CumOver => True
  | CumOrder o => NoDup o /\ forall k v, In (k, v) fr -> exists l, In l o /\ skipn n k = [l]
  | CumValues => forall k k' v, In (k, v) fr -> In (k', v) fr -> firstn n k = firstn n k' -> k = k'
  end.
(** Every slice has the baseline; a zero baseline only under zeros, for percent changes. *)
Definition change_fits (percent : bool) (n : nat) (base : list string) (fr : rframe) : Prop :=
  fr <> [] /\
  forall s c r v, List.length s = n -> List.length c = List.length base -> In (s ++ c ++ r, v) fr ->
    exists b, In (s ++ base ++ r, b) fr /\ (percent = true -> b = Fin 0 -> v = Fin 0 \/ v = NaN).
Definition div_fits (d : divm) (n : nat) (fr : rframe) : Prop :=
  fr <> [] /\
  (forall k v, In (k, v) fr -> v <> NaN /\ total n (firstn n k) fr <> 0%R) /\
  match d with
  | Entropy => forall k v, In (k, Fin v) fr -> (0 < v / total n (firstn n k) fr)%R
  | TopK k => k <> 0%nat
  | _ => True
  end.

(** Two results with index columns ia and ib: every key of the shorter one is part of a key of the other; no division of a
    nonzero number by zero. *)
Definition bin_fits (op : op2) (ia ib : list string) (fa fb : rframe) : Prop :=
  let idx := if Nat.ltb (List.length ia) (List.length ib) then ib else ia in
  ((List.length ia < List.length ib)%nat -> forall k, In k (List.map fst fa) -> exists k', In k' (List.map fst fb) /\ project ib ia k' = k) /\
  ((List.length ib < List.length ia)%nat -> forall k, In k (List.map fst fb) -> exists k', In k' (List.map fst fa) /\ project ia ib k' = k) /\
  (op = OpDiv -> forall k, List.length k = List.length idx -> lookup (project idx ib k) fb = Fin 0 ->
     lookup (project idx ia k) fa = Fin 0 \/ lookup (project idx ia k) fa = NaN).

Section Fits.
  Variable parse : string -> cond.
  Variable psort : cum_how -> bool -> nat -> rframe -> rframe.

  Fixpoint tree_fits (m : otree) (by_ : list string) (df : table) : Prop :=
    match m with
    | OLeaf _ _ => True
    | ODist over c w => let df := filter (pfilters parse w) df in
        tree_fits c (by_ ++ over) df /\ forall fr, op_compute parse psort c (by_ ++ over) df = Some fr -> dist_fits (List.length by_) fr
    | OCum over how _ c w => let df := filter (pfilters parse w) df in
        tree_fits c (by_ ++ over) df /\ forall fr, op_compute parse psort c (by_ ++ over) df = Some fr -> cum_fits (List.length by_) how fr
    | OChange p cond base _ c w => let df := filter (pfilters parse w) df in
        tree_fits c (by_ ++ cond) df /\ forall fr, op_compute parse psort c (by_ ++ cond) df = Some fr -> change_fits p (List.length by_) base fr
    | ODiv d over c w => let df := filter (pfilters parse w) df in
        tree_fits c (by_ ++ over) df /\ forall fr, op_compute parse psort c (by_ ++ over) df = Some fr -> div_fits d (List.length by_) fr
    | OBin op a b _ w => let df := filter (pfilters parse w) df in
        tree_fits a by_ df /\ tree_fits b by_ df /\
        forall fa fb, op_compute parse psort a by_ df = Some fa -> op_compute parse psort b by_ df = Some fb -> bin_fits op (by_ ++ extra_idx a) (by_ ++ extra_idx b) fa fb
    | OConstL op r c _ w => let df := filter (pfilters parse w) df in
        tree_fits c by_ df /\ forall fr, op_compute parse psort c by_ df = Some fr -> op = OpDiv -> forall k, In (k, Fin 0) fr -> r = 0%R
    | OConstR op c r _ w => let df := filter (pfilters parse w) df in
        tree_fits c by_ df /\ forall fr, op_compute parse psort c by_ df = Some fr -> op = OpDiv -> r = 0%R -> forall k v, In (k, v) fr -> v = Fin 0 \/ v = NaN
    end.

  (** The metrics at the bottom of the tree; for each all filters from the root to it, those of them that are not in
      the WHERE clause [wh], and the columns it is split by. *)
  Fixpoint bottoms (wh : list string) (m : otree) (by_ above loc : list string) : list (metric * list string * list string * list string) :=
    match m with
    | OLeaf m _ => [(m, above, loc, by_)]
    | ODist over c w | OCum over _ _ c w | ODiv _ over c w | OChange _ over _ _ c w => bottoms wh c (by_ ++ over) (above ++ w) (remove (add (add [] w) loc) wh)
    | OBin _ a b _ w => bottoms wh a by_ (above ++ w) (remove (add (add [] w) loc) wh) ++ bottoms wh b by_ (above ++ w) (remove (add (add [] w) loc) wh)
    | OConstL _ _ c _ w | OConstR _ c _ _ w => bottoms wh c by_ (above ++ w) (remove (add (add [] w) loc) wh)
    end.
End Fits.

(** What C16 asks for, for a metric under the filters [above], split by [by_], when the WHERE clause is [wh] and
    [loc] are the other filters:
    supported leaves and filters; every row that passes WHERE has labels; every leaf has rows in every group;
    no sum of nothing, no division by zero. *)
Definition leaf_fits (parse : string -> cond) (wh : list string) (m : metric) (above loc by_ : list string) (t : stable) : Prop :=
  (forall l fs, In (l, fs) (leaves_with_filters above m) ->
     supported l /\ ~ In EmptyString fs /\ forall f r, In f fs -> In r t -> same_verdict (parse f) r) /\
  (forall r c, In r t -> spass parse wh r = true -> In c by_ -> slab r c <> None) /\
  (forall k, (by_ = [] /\ k = []) \/ (exists r, In r t /\ spass parse wh r = true /\ srow_key by_ r = List.map Some k) ->
     (forall l fs, In (l, fs) (leaves_with_filters above m) ->
        ((by_ = [] /\ k = []) \/ used_rows parse by_ k fs t <> []) /\ cov_same_nulls l (used_rows parse by_ k fs t)) /\
     fits parse (sql_column wh loc m) (M_SqlLeaf.group by_ (List.map Some k) (filter (spass parse wh) t))).
Definition leaves_fit (parse : string -> cond) (m : otree) (by_ : list string) (t : stable) : Prop :=
  let wh := get_global_filter (ofilter_tree m) in
  forall metric above loc by', In (metric, above, loc, by') (bottoms wh m by_ [] []) -> leaf_fits parse wh metric above loc by' t.

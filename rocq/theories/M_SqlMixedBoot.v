(** Bootstrap in mixed mode: operations.py 2029-2044 (compute_on_sql_mixed_mode), 2695-2740 (compute_children_sql), 2742-2757 and 3550-3711
    (the resampled data, M_BootSql); metrics.py 643-659, 748-765.

    In mixed mode every leaf metric of the child is a query of its own, and each of these queries has the WITH tables that draw the
    resamples: the numbers of RAND() belong to one execution of one query.  (The results of the leaves are cached within one
    batch, so that the same leaf metric with the same filters and split_by is one query.)  One value column. *)
From Coq Require Import Reals List Bool String Arith ZArith.
From Verif Require Import M_Num M_Frame M_Ops M_Leaf M_Jackknife M_BootCache M_SqlGlobal M_SqlLeaf M_SqlOps M_SqlJackknife M_SqlMixed M_SqlMixedJack M_SqlBoot.
Import ListNotations.
Open Scope string_scope.
Open Scope list_scope.

(** One query of mixed mode: the leaf metric, the filters of the metrics above it, its own, and the columns it is split by. *)
Definition leaf_query : Type := leaf * list string * list string * list string.

Section Queries.
  Variable parse : string -> cond.
  Variable dbo : query -> list (skey * option R) -> list (skey * option R).
  Variable psort : cum_how -> bool -> nat -> rframe -> rframe.
  (** what the table is when the query is executed *)
  Variable tab : leaf_query -> stable.

  (** M_SqlMixed.mixed_metric and mixed; [above]: the nested SELECT * FROM (...) WHERE (metrics.py 656-657), applied together *)
  Fixpoint queries_metric (m : metric) (above split_by : list string) : rframe :=
    match m with
    | MLeaf l w => sql_leaf_frame parse dbo l w split_by (sub_table parse above (tab (l, above, w, split_by)))
    | MOp op a b w => M_SqlLeaf.align op (queries_metric a (above ++ w) split_by) (queries_metric b (above ++ w) split_by)
    | MConstL op r a w => List.map (fun kv => (fst kv, num_op op (Fin r) (snd kv))) (queries_metric a (above ++ w) split_by)
    | MConstR op a r w => List.map (fun kv => (fst kv, num_op op (snd kv) (Fin r))) (queries_metric a (above ++ w) split_by)
    | MSqrt a w => List.map (fun kv => (fst kv, xsqrt (snd kv))) (queries_metric a (above ++ w) split_by)
    | MSq a w => List.map (fun kv => (fst kv, xsq (snd kv))) (queries_metric a (above ++ w) split_by)
    end.
  Fixpoint queries (m : otree) (above split_by : list string) : option rframe :=
    let n := List.length split_by in
    match m with
    | OLeaf m _ => Some (queries_metric m above split_by)
    | ODist over c w => option_map (distribution n) (queries c (above ++ w) (split_by ++ over))
    | OCum over how asc c w =>
        let s := match how with
                 | CumOrder o => ByOrder (if asc then o else rev o)
                 | _ => BySort (psort how asc n)
                 end in
        option_map (cumulative_distribution n s) (queries c (above ++ w) (split_by ++ over))
    | OChange p cond base incl c w =>
        match queries c (above ++ w) (split_by ++ cond) with
        | Some fr => (if p then percent_change else absolute_change) n (List.length cond) base incl fr
        | None => None
        end
    | ODiv d over c w =>
        option_map (match d with HHI => hhi n | Entropy => entropy n | TopK k => top_k k n | Nxx s => nxx s n end)
                   (queries c (above ++ w) (split_by ++ over))
    | OBin op a b _ w =>
        match queries a (above ++ w) split_by, queries b (above ++ w) split_by with
        | Some fa, Some fb => Some (align_levels op (split_by ++ extra_idx a) (split_by ++ extra_idx b) fa fb)
        | _, _ => None
        end
    | OConstL op r c _ w =>
        option_map (List.map (fun kv => (fst kv, num_op op (Fin r) (snd kv)))) (queries c (above ++ w) split_by)
    | OConstR op c r _ w =>
        option_map (List.map (fun kv => (fst kv, num_op op (snd kv) (Fin r)))) (queries c (above ++ w) split_by)
    end.
End Queries.

(** bst.unstack('meterstick_resample_idx'), 2722 and 2739: one column per resample that has a row, in the order of the numbers *)
Definition unstacked (size : nat) (bst : rframe) : list rframe :=
  flat_map (fun i => match filter (fun q => match fst q with x :: _ => String.eqb x (tag i) | [] => false end) bst with
                     | [] => []
                     | rows => [List.map (fun q => (tl (fst q), snd q)) rows]
                     end) (seq 1 size).

Section Run.
  Variable parse : string -> cond.
  Variable dbo : query -> list (skey * option R) -> list (skey * option R).
  Variable psort : cum_how -> bool -> nat -> rframe -> rframe.
  (** the random numbers and the order of the rows: of the batch, of the query *)
  Variable rand : nat -> leaf_query -> nat -> nat -> R.
  Variable order : nat -> leaf_query -> nat -> stable -> stable.
  Variables (unit : option string) (m : otree) (split_by : list string).
  (** 2716-2740: the child on the resampled data of batch [k], split by meterstick_resample_idx first *)
  Definition boot_batch (t : stable) (k size : nat) : option (list rframe) :=
    option_map (unstacked size)
      (queries parse dbo psort (fun x => boot_table split_by unit (rand k x) (order k x) size t) m [] (resample_idx :: split_by)).
  (** batch_size or 1000 (2698); n_replicates // batch_size full batches and the rest; std over the columns (1811-1825, no column: pd.concat
      raises), joined to the point estimates.  The table has been filtered (metrics.py 656-657), so every row passes the global filter of
      the resampling queries. *)
  Definition bootstrap_mixed (where_ : list string) (batch_size n : nat) (t : stable) : option (list (list string * num * num * Z)) :=
    let t := sub_table parse where_ t in
    let sizes := batches n (match batch_size with 0 => 1000 | _ => batch_size end) in
    match sizes, all_some (List.map (fun ks => boot_batch t (fst ks) (snd ks)) (combine (seq 0 (List.length sizes)) sizes)), mixed parse dbo psort m split_by t with
    | _ :: _, Some cols, Some points =>
        Some (List.map (fun q => let l := List.map (lookup (fst q)) (List.concat cols) in (fst q, snd q, std_of l, dof_of l)) points)
    | _, _, _ => None
    end.
End Run.

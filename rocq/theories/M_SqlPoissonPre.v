(** SQL of a PoissonBootstrap with a unit whose leaf metrics are Sum and Count (the default): operations.py 2067-2101 (to_sql, as for Bootstrap,
    M_SqlBootPre) and 2986-3102 (get_resampled_data_sql with has_been_preaggregated).

    The rows of the table of sums per unit are not repeated: the columns named sum_... and count_... are multiplied by the weight.
    The labels of a row are kept apart from its numbers, so that a column of the operations, or the unit, that is called sum_... or count_... (which
    the code would multiply) is not in the model; max and min leaves are not either. *)
From Coq Require Import Reals List Bool String Arith ZArith.
From Verif Require Import M_Num M_Frame M_Ops M_Slices M_Leaf M_Jackknife M_Bootstrap M_BootSql M_BootCache M_SqlGlobal M_SqlLeaf M_SqlOps M_SqlJackknife M_SqlJackFast M_SqlBoot M_SqlBootPre M_SqlPoisson.
Import ListNotations.
Open Scope string_scope.
Open Scope list_scope.

(** 3074-3085 *)
Definition weighted (column : string) : bool := String.prefix "sum_" column || String.prefix "count_" column.
Definition times (w : nat) (r : srow) : srow := SRow (slab r) (fun c => if weighted c then option_map (fun x => (x * INR w)%R) (snum r c) else snum r c).
(** 3057-3062: WHERE drops the rows of weight 0 *)
Definition weigh (w : nat) (r : srow) : stable := match w with O => [] | S _ => [times w r] end.
Definition poisson_weighted (split_by : list string) (unit : option string) (rand : nat -> nat -> R) (fp : string -> R) (i : nat) (t : stable) : stable :=
  match unit with
  | None => flat_map (fun jr => weigh (poisson_weight (rand i (fst jr))) (snd jr)) (combine (seq 0 (List.length t)) t)
  | Some u => flat_map (fun r => match spart (split_by ++ [u]) r with
                                 | Some k => weigh (poisson_weight (hashed_uniform fp k i)) r
                                 | None => []
                                 end) t
  end.
Section Run.
  Variable parse : string -> cond.
  Variable srt : list okey -> list env -> list env.
  Definition poisson_sql_preagg (rand : nat -> nat -> R) (fp : string -> R) (pre : leaf -> list string -> string) (where_ : list string) (unit : string) (n : nat) (m : otree) (split_by : list string) (t : stable) : list row :=
    let data := unit_sums parse pre where_ unit m split_by t in
    let m' := push_tree pre [] m in
    with_se_of false (split_by ++ extra_idx m') (samples_sql m' split_by)
               (run_sql parse srt (samples_sql m' split_by) (flat_map (fun i => List.map (relabel (Some (tag i))) (poisson_weighted split_by (boot_unit unit m) rand fp i data)) (seq 1 n)))
               (point_sql m' split_by) (run_sql parse srt (point_sql m' split_by) data).
End Run.

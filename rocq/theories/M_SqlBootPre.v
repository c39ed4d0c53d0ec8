(** SQL of a Bootstrap with a unit whose leaf metrics are Sum and Count (the default): operations.py 2067-2101 (to_sql), 3163-3202
    (get_preaggregated_metric_tree).

    The table is first summed per unit, slice and group of the operations (UnitAgg); the tree is replaced by sums of these columns, and the
    query of M_SqlBoot is run on the summed table.  The tree has been expanded (C19); as for Jackknife (M_SqlJackFast) [pre] gives the column
    names.  max and min leaves, which the code preaggregates too, are not in this model. *)
From Coq Require Import Reals List Bool String Arith ZArith.
From Verif Require Import M_Num M_Frame M_Ops M_Leaf M_SqlGlobal M_SqlLeaf M_SqlOps M_SqlJackknife M_SqlJackFast M_BootSql M_SqlBoot.
Import ListNotations.
Open Scope list_scope.

(** 2094-2097: if each unit has one row after preaggregation the rows are sampled *)
Definition boot_unit (unit : string) (m : otree) : option string := match extra_split m with [] => None | _ => Some unit end.
Section Run.
  Variable parse : string -> cond.
  Variable srt : list okey -> list env -> list env.
  (** 2070-2085: split_by, the columns of the operations, unit; the filters of the leaves are in the columns, the Bootstrap's in WHERE *)
  Definition unit_sums (pre : leaf -> list string -> string) (where_ : list string) (unit : string) (m : otree) (split_by : list string) (t : stable) : stable :=
    preagg parse pre (tree_leaves [] m) ((split_by ++ extra_split m) ++ [unit]) (filter (spass parse where_) t).
  (** 2086-2101 *)
  Definition bootstrap_sql_preagg (rand : nat -> nat -> R) (order : nat -> stable -> stable) (pre : leaf -> list string -> string) (where_ : list string) (unit : string) (n : nat) (m : otree) (split_by : list string) (t : stable) : list row :=
    bootstrap_sql parse srt rand order [] (boot_unit unit m) n (push_tree pre [] m) split_by (unit_sums pre where_ unit m split_by t).
End Run.

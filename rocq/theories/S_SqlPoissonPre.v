(** What C79 compares. *)
From Coq Require Import Reals List Bool String Arith.
From Verif Require Import M_Num M_Frame M_Ops M_Slices M_Leaf M_Jackknife M_Bootstrap M_BootSql M_BootCache M_SqlLeaf M_SqlOps M_SqlJackknife M_SqlJackFast M_SqlBoot S_SqlBootPre M_SqlPoissonPre.
Import ListNotations.
Open Scope string_scope.
Open Scope list_scope.

(** The raw rows of every unit of every slice, repeated by its weight. *)
Definition raw_sample (split_by : list string) (unit : string) (ws : list nat) (t : stable) : stable :=
  rows_of split_by unit (repeat_by (group_keys (split_by ++ [unit]) (pandas_table t)) ws) t.
(** The columns of the leaves are called sum_... or count_... *)
Definition named_by_kind (name : leaf -> list string -> string) (m : otree) : Prop :=
  forall l fs, In (l, fs) (tree_leaves [] m) -> exists rest, name l fs = String.append "sum_" rest \/ name l fs = String.append "count_" rest.
(** The weight that the query gives to the unit [c]: from the hash, or from the random number of its row of the table of sums. *)
Fixpoint position (c : list string) (keys : list (option (list string))) : nat :=
  match keys with
  | [] => 0
  | k :: keys' => if match k with Some k' => key_eqb k' c | None => false end then 0 else S (position c keys')
  end.
Definition query_weight (split_by : list string) (unit : string) (hashed : bool) (rand : nat -> nat -> R) (fp : string -> R) (i : nat) (data : stable) (c : list string) : nat :=
  poisson_weight (if hashed then hashed_uniform fp c i else rand i (position c (List.map (spart (split_by ++ [unit])) data))).
Definition query_weights (split_by : list string) (unit : string) (hashed : bool) (rand : nat -> nat -> R) (fp : string -> R) (i : nat) (data t : stable) : list nat :=
  List.map (query_weight split_by unit hashed rand fp i data) (group_keys (split_by ++ [unit]) (pandas_table t)).

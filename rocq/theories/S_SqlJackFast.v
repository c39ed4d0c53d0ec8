(** On which data and trees C65 compares the fast SQL of Jackknife. *)
From Coq Require Import Reals List Bool String.
From Verif Require Import M_Num M_Frame M_Leaf M_SqlGlobal M_SqlLeaf M_SqlOps M_SqlJackknife S_SqlJackknife M_SqlJackFast.
Import ListNotations.
Open Scope list_scope.

(** All leaves are Sum and Count: the condition under which the code takes this path (operations.py 3113-3123). *)
Definition sums_only (m : otree) : Prop :=
  forall l fs, In (l, fs) (tree_leaves [] m) -> exists c, l = Lf (LSum c) \/ l = Lf (LCount c).
(** Different leaves (a leaf with other filters is different) have different columns. *)
Definition own_columns (name : leaf -> list string -> string) (m : otree) : Prop :=
  forall l fs l' fs', In (l, fs) (tree_leaves [] m) -> In (l', fs') (tree_leaves [] m) -> name l fs = name l' fs' -> (l, fs) = (l', fs').
(** Every unit of a slice has a row in every group of that slice that has a row, and a value to sum there. *)
Definition complete_units (split_by : list string) (unit : string) (m : otree) (t : stable) : Prop :=
  forall k x r l fs, unit_in split_by unit k x t -> In r t -> srow_key split_by r = List.map Some k -> In (l, fs) (tree_leaves [] m) ->
  exists r', In r' t /\ srow_key (split_by ++ extra_split m) r' = srow_key (split_by ++ extra_split m) r /\ slab r' unit = Some x /\
    forall c, l = Lf (LSum c) -> scell c r' <> None.

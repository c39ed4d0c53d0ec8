(** What C72 compares. *)
From Coq Require Import List String.
From Verif Require Import M_SqlLeaf M_SqlOps.
Import ListNotations.
Open Scope list_scope.

(** All rows of the drawn units: a unit is given by its labels in split_by and its name; one drawn twice has its rows twice. *)
Definition rows_of (split_by : list string) (unit : string) (drawn : list (list string)) (t : stable) : stable :=
  flat_map (fun c => M_SqlLeaf.group (split_by ++ [unit]) (List.map Some c) t) drawn.

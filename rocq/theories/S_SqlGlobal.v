(** For every leaf, left to right, the filters on the path from the root. *)
From Coq Require Import List String Bool.
From Verif Require Import M_SqlGlobal.
Import ListNotations.

Fixpoint paths (above : list string) (t : ftree) : list (list string) :=
  match t with
  | FNode _ w [] => [above ++ w]
  | FNode _ w cs => flat_map (paths (above ++ w)) cs
  end.

(** [P] and [Q] are the same conditions (an empty string is no condition). *)
Definition same_filters (P Q : list string) : Prop :=
  forall c, c <> ""%string -> (In c P <-> In c Q).

(** The names a metric's columns should have: its template applied once to the child's names. *)
From Coq Require Import String List Arith.
From Verif Require Import M_Naming.
Import ListNotations.
Fixpoint names (m : nm) : list string :=
  match m with NLeaf _ n => [n] | NOp _ tmpl c => map tmpl (names c) end.
Fixpoint subtrees (m : nm) : list nm := m :: match m with NLeaf _ _ => [] | NOp _ _ c => subtrees c end.
(** metrics that are equal for the cache have the same names *)
Definition consistent (ms : list nm) : Prop :=
  forall a b, In a (flat_map subtrees ms) -> In b (flat_map subtrees ms) -> nkey_of a = nkey_of b -> names a = names b.
(** how often an operation equal to [k] occurs in the metrics, at any depth *)
Definition occurrences (k : nkey) (ms : list nm) : nat :=
  List.length (filter (fun m => match m with NOp _ _ _ => nkey_eqb (nkey_of m) k | NLeaf _ _ => false end) (flat_map subtrees ms)).
(** the metrics whose columns are renamed in place: all but those asked for in long format, and the children of those *)
Definition renamed_in_place (ms : list (nm * bool)) : list nm :=
  flat_map (fun p : nm * bool =>
    match p with (m, false) => [m] | (NOp _ _ c, true) => [c] | (NLeaf _ _, true) => [] end) ms.

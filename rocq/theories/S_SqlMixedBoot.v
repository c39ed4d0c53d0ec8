(** What C71 says about a Bootstrap in mixed mode. *)
From Coq Require Import List String Arith.
From Verif Require Import M_SqlLeaf M_SqlOps S_SqlMixed.
Import ListNotations.

(** The child is one query: all its leaf metrics are the same one, with the same filters and the same columns. *)
Definition one_query (m : otree) : Prop := forall x y, In x (tree_leaves m [] []) -> In y (tree_leaves m [] []) -> x = y.
(** Resample [j] of 1, ..., n: its batch (from 0) and its number in the batch (from 1). *)
Definition place (b j : nat) : nat * nat := ((j - 1) / b, (j - 1) mod b + 1).
(** batch_size or 1000 *)
Definition actual_size (batch_size : nat) : nat := match batch_size with 0 => 1000 | _ => batch_size end.

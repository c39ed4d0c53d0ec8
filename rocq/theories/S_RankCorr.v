(** What C85 says rank correlations depend on: the order of the values. *)
From Coq Require Import Reals List Bool.
From Verif Require Import M_Num M_Frame M_Leaf.
Import ListNotations.

(** Both columns have missing values in the same rows. *)
Definition same_missing (a b : colx) (rows : table) : Prop := forall r, In r rows -> (cellx a r = NaN <-> cellx b r = NaN).
(** The columns order the rows alike: where one is less, so is the other. *)
Definition ordered_alike (a b : colx) (rows : table) : Prop :=
  forall r q, In r rows -> In q rows -> xlt (cellx a r) (cellx a q) = xlt (cellx b r) (cellx b q).
(** One column is less where the other is greater. *)
Definition ordered_opposite (a b : colx) (rows : table) : Prop :=
  forall r q, In r rows -> In q rows -> xlt (cellx a r) (cellx a q) = xlt (cellx b q) (cellx b r).
(** Not all values are equal. *)
Definition varies (a : colx) (rows : table) : Prop := exists r q, In r rows /\ In q rows /\ xlt (cellx a r) (cellx a q) = true.

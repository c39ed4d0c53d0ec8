(** C73: the metrics without children in a tree, and what precomputation needs. *)
From Coq Require Import List.
From Verif Require Import M_Leaf M_Precomp.
Import ListNotations.
Open Scope list_scope.

Fixpoint ends (t : tree) : list kind :=
  match t with TLeaf k => [k] | TConst _ => [] | TNode _ cs => flat_map ends cs end.
Fixpoint nodes (t : tree) : list (node * list tree) :=
  match t with TNode n cs => (n, cs) :: flat_map nodes cs | _ => [] end.
(** Sum, Count; for Bootstrap also Max, Min *)
Definition summable (jackknife : bool) (k : kind) : Prop :=
  (exists c, k = KSimple (LSum c)) \/ (exists c, k = KSimple (LCount c)) \/ (jackknife = false /\ exists v, k = KMax v \/ k = KMin v).
(** Every leaf is summable, and no operation inside is a Jackknife or Bootstrap (or lacks its child) *)
Definition only_sums (jackknife : bool) (t : tree) : Prop :=
  (forall k, In k (ends t) -> summable jackknife k) /\ (forall n cs, In (n, cs) (nodes t) -> n <> NOperation false /\ cs <> []).
(** Metrics of the library only *)
Definition built_in (t : tree) : Prop := forall n, ~ In (KUser n) (ends t).
(** A leaf of the library which is not Count(distinct), Nth, Quantile or a rank correlation; nor, for Jackknife, Max or Min *)
Definition expandable (jackknife : bool) (k : kind) : Prop :=
  match k with KSimple (LOther _) => False | KSimple _ => True | KMax _ | KMin _ => jackknife = false | KDistinct _ | KOther _ | KUser _ => False end.

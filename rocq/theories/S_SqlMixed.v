(** On which data C67 compares mixed mode and pandas. *)
From Coq Require Import Reals List Bool String Permutation.
From Verif Require Import M_Num M_Frame M_SqlGlobal M_SqlLeaf S_SqlLeaf M_SqlOps M_SqlMixed.
Import ListNotations.
Open Scope list_scope.

(** Every database returns the rows of the result in some order. *)
Definition some_order (dbo : query -> list (skey * option R) -> list (skey * option R)) : Prop := forall q l, Permutation (dbo q l) l.
(** The leaf metrics of a tree: filters of the metrics above it, own filters, and the columns by which it is split. *)
Fixpoint metric_leaves (m : metric) (above by_ : list string) : list (leaf * list string * list string * list string) :=
  match m with
  | MLeaf l w => [(l, above, w, by_)]
  | MOp _ a b w => metric_leaves a (above ++ w) by_ ++ metric_leaves b (above ++ w) by_
  | MConstL _ _ a w | MConstR _ a _ w | MSqrt a w | MSq a w => metric_leaves a (above ++ w) by_
  end.
Fixpoint tree_leaves (m : otree) (above by_ : list string) : list (leaf * list string * list string * list string) :=
  match m with
  | OLeaf m _ => metric_leaves m above by_
  | ODist over c w | OCum over _ _ c w | ODiv _ over c w | OChange _ over _ _ c w => tree_leaves c (above ++ w) (by_ ++ over)
  | OBin _ a b _ w => tree_leaves a (above ++ w) by_ ++ tree_leaves b (above ++ w) by_
  | OConstL _ _ c _ w | OConstR _ c _ _ w => tree_leaves c (above ++ w) by_
  end.
(** What C16 asks for, for one leaf metric: SQL and pandas agree about its filters, the rows it uses have labels, in the groups it has no
    sum of nothing and no division of a nonzero number by zero occurs within the leaf metric. *)
Definition mixed_leaf_fits (parse : string -> cond) (t : stable) (x : leaf * list string * list string * list string) : Prop :=
  let '(l, above, w, by_) := x in
  supported l /\ ~ In EmptyString (above ++ w) /\
  (forall f r, In f (above ++ w) -> In r t -> same_verdict (parse f) r) /\
  (forall r c, In r t -> spass parse (above ++ w) r = true -> In c by_ -> slab r c <> None) /\
  (forall k, (by_ = [] /\ k = []) \/ used_rows parse by_ k (above ++ w) t <> [] ->
     fits parse (sql_leaf l []) (used_rows parse by_ k (above ++ w) t) /\ cov_same_nulls l (used_rows parse by_ k (above ++ w) t)).
Definition mixed_fits (parse : string -> cond) (m : otree) (above by_ : list string) (t : stable) : Prop :=
  forall x, In x (tree_leaves m above by_) -> mixed_leaf_fits parse t x.

(** What C22 is about. *)
From Coq Require Import Reals List Bool String Arith.
From Verif Require Import M_Num M_Frame M_Ops M_Slices.
Import ListNotations.
Open Scope nat_scope.
Open Scope list_scope.

(** An operation works slice by slice: the part of its result for the slice [k] (of the first [n]
    levels) is its result on the part of its input for that slice. *)
Definition slicewise (op : nat -> rframe -> option rframe) : Prop :=
  forall n m k c r, List.length k = n -> restrict n k c <> [] -> op m (restrict n k c) = Some r ->
  exists R, op (n + m) c = Some R /\ restrict n k R = r.
Fixpoint slicewise_tree (t : mtree) : Prop :=
  match t with
  | TLeaf _ => True
  | TWhere _ t' => slicewise_tree t'
  | TConst _ t' => slicewise_tree t'
  | TBinary _ a b => slicewise_tree a /\ slicewise_tree b
  | TOp _ _ op t' => slicewise op /\ slicewise_tree t'
  end.
(** Filters and operations leave something at every node. *)
Fixpoint populated (t : mtree) (split_by : list string) (df : table) : Prop :=
  match t with
  | TLeaf _ => df <> []
  | TWhere keep t' => populated t' split_by (filter keep df)
  | TConst _ t' => populated t' split_by df
  | TBinary _ a b => populated a split_by df /\ populated b split_by df
  | TOp extra _ _ t' => populated t' (split_by ++ extra) df /\ compute_on t' (split_by ++ extra) df <> Some []
  end.
(** The operation's result has no slices its input has not. *)
Definition adds_no_slices (op : nat -> rframe -> option rframe) : Prop :=
  forall n c R q, n <> 0 -> op n c = Some R -> In q R -> exists p, In p c /\ firstn n (fst p) = firstn n (fst q).
Fixpoint no_slices_added (t : mtree) : Prop :=
  match t with
  | TLeaf _ => True
  | TWhere _ t' => no_slices_added t'
  | TConst _ t' => no_slices_added t'
  | TBinary _ a b => no_slices_added a /\ no_slices_added b
  | TOp _ _ op t' => adds_no_slices op /\ no_slices_added t'
  end.

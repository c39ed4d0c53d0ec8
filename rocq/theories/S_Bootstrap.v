(** What C37 and C38 are about. *)
From Coq Require Import Reals List Bool String Arith.
From Verif Require Import M_Num M_Frame M_Ops M_Slices M_Leaf M_Jackknife M_Bootstrap.
Import ListNotations.
Open Scope list_scope.

(** Columns that are summed have no infinities. *)
Fixpoint summable (t : btree) (df : table) : Prop :=
  match t with
  | BLeaf KSum v _ => Forall (fun r => no_inf (val r v)) df
  | BLeaf _ _ _ => True
  | BWhere _ t' | BConst _ t' | BOp _ _ _ t' => summable t' df
  | BBinary _ a b => summable a df /\ summable b df
  end.
(** Leaves whose columns in the preaggregated data have the same name are the same metric. *)
Definition distinct_names (ls : list pleaf) : Prop :=
  forall l l', In l ls -> In l' ls -> colname l = colname l' ->
    pk l = pk l' /\ pvar l = pvar l' /\ (forall q, In q (pwhere l) <-> In q (pwhere l')).
(** No filter inside the metric empties a slice of the sample: every slice the metric looks at has a
    row that passes. *)
Fixpoint no_slice_emptied (keep : string -> drow -> bool) (t : btree) (cols : list string) (df sample : table) : Prop :=
  match t with
  | BLeaf _ _ w => cols = [] \/ forall r, In r sample -> exists r', In r' df /\ row_key cols r' = row_key cols r /\ keep_all keep w r' = true
  | BWhere w t' => no_slice_emptied keep t' cols (filter (keep_all keep w) df) sample
  | BConst _ t' => no_slice_emptied keep t' cols df sample
  | BBinary _ a b => no_slice_emptied keep a cols df sample /\ no_slice_emptied keep b cols df sample
  | BOp extra _ _ t' => no_slice_emptied keep t' (cols ++ extra) df sample
  end.

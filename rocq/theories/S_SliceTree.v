(** What C22 asks of a tree of operations and of a slice. *)
From Coq Require Import Reals List Bool String Arith.
From Verif Require Import M_Num M_Frame M_Leaf M_Ops M_SqlGlobal M_SqlLeaf M_SqlOps.
Import ListNotations.
Open Scope list_scope.

(** The index columns of both operands of an arithmetic operation have different names. *)
Fixpoint distinct_levels (m : otree) (by_ : list string) : Prop :=
  match m with
  | OLeaf _ _ => True
  | ODist over c _ | OCum over _ _ c _ | ODiv _ over c _ | OChange _ over _ _ c _ => distinct_levels c (by_ ++ over)
  | OBin _ a b _ _ => distinct_levels a by_ /\ distinct_levels b by_ /\ NoDup (by_ ++ extra_idx a) /\ NoDup (by_ ++ extra_idx b)
  | OConstL _ _ c _ _ | OConstR _ c _ _ _ => distinct_levels c by_
  end.
Section Rows.
  Variable parse : string -> cond.
  Variable psort : cum_how -> bool -> nat -> rframe -> rframe.
  (** every leaf metric has rows that pass its filters *)
  Fixpoint leaf_rows (m : metric) (df : table) : Prop :=
    match m with
    | MLeaf _ w => filter (pfilters parse w) df <> []
    | MOp _ a b w => leaf_rows a (filter (pfilters parse w) df) /\ leaf_rows b (filter (pfilters parse w) df)
    | MConstL _ _ a w | MConstR _ a _ w | MSqrt a w | MSq a w => leaf_rows a (filter (pfilters parse w) df)
    end.
  (** ... and every operation gets rows from its child; TopK gets a share (not NaN) in each of its groups *)
  Fixpoint rows_everywhere (m : otree) (by_ : list string) (df : table) : Prop :=
    match m with
    | OLeaf m _ => leaf_rows m df
    | ODist over c w | OCum over _ _ c w | OChange _ over _ _ c w =>
        let df := filter (pfilters parse w) df in rows_everywhere c (by_ ++ over) df /\ op_compute parse psort c (by_ ++ over) df <> Some []
    | ODiv d over c w =>
        let df := filter (pfilters parse w) df in rows_everywhere c (by_ ++ over) df /\ op_compute parse psort c (by_ ++ over) df <> Some [] /\
        match d with
        | TopK k => forall fr, op_compute parse psort c (by_ ++ over) df = Some fr ->
                    forall g, In g (groupby_level (List.length by_) (nlargest k) (distribution (List.length by_) fr)) -> snd g <> []
        | _ => True
        end
    | OBin _ a b _ w => let df := filter (pfilters parse w) df in rows_everywhere a by_ df /\ rows_everywhere b by_ df
    | OConstL _ _ c _ w | OConstR _ c _ _ w => rows_everywhere c by_ (filter (pfilters parse w) df)
    end.
End Rows.

(** What C16 compares, and on which data. *)
From Coq Require Import Reals List Bool String ZArith.
From Verif Require Import M_Num M_Frame M_Leaf M_SqlGlobal M_SqlLeaf.
Import ListNotations.
Open Scope list_scope.

(** SQL and pandas decide the same about the row. *)
Definition same_verdict (p : cond) (r : srow) : Prop :=
  ptest p (pandas_row r) = match stest p r with Some true => true | _ => false end.
(** No negation: neither NOT nor != *)
Fixpoint positive (p : cond) : Prop :=
  match p with
  | CNum _ op _ => op <> CNe
  | CIs _ _ | CIn _ _ => True
  | CIsNot _ _ | CNot _ => False
  | CAnd p q | COr p q => positive p /\ positive q
  end.
(** The columns that the condition mentions are not NULL in the row. *)
Fixpoint known (p : cond) (r : srow) : Prop :=
  match p with
  | CNum a _ b => soperand a r <> None /\ soperand b r <> None
  | CIs c _ | CIsNot c _ | CIn c _ => slab r c <> None
  | CAnd p q | COr p q => known p r /\ known q r
  | CNot p => known p r
  end.

Section Data.
  Variable parse : string -> cond.

  (** Leaves with the filters on the path from the root. *)
  Fixpoint leaves_with_filters (above : list string) (m : metric) : list (leaf * list string) :=
    match m with
    | MLeaf l w => [(l, above ++ w)]
    | MOp _ a b w => leaves_with_filters (above ++ w) a ++ leaves_with_filters (above ++ w) b
    | MConstL _ _ a w | MConstR _ a _ w | MSqrt a w | MSq a w => leaves_with_filters (above ++ w) a
    end.
  (** The rows of group [k] that pass all the filters. *)
  Definition used_rows (split_by : list string) (k : list string) (fs : list string) (t : stable) : stable :=
    filter (fun r => spass parse fs r && (if skey_dec (srow_key split_by r) (List.map Some k) then true else false)) t.

  (** pandas gives 0 for the sum of nothing, SQL gives NULL; pandas gives inf for x / 0, SQL gives NULL.
      [fits]: no sum of nothing and no division of a nonzero number by zero in the column. *)
  Fixpoint fits (x : sexpr) (rows : stable) : Prop :=
    match x with
    | XAgg (SUM e) => exists r, In r rows /\ sarg parse e r <> None
    | XAgg _ | XNum _ => True
    | XAdd a b | XSub a b | XMul a b => fits a rows /\ fits b rows
    | XDiv a b => fits a rows /\ fits b rows /\
                  (sexpr_value parse b rows = Some 0%R -> sexpr_value parse a rows = None \/ sexpr_value parse a rows = Some 0%R)
    | XSqrt a | XSq a => fits a rows
    end.
  (** Supported leaves; ddof is 0 or 1 (what the constructors of Variance, StandardDeviation and CV set). *)
  Definition supported (l : leaf) : Prop :=
    match l with
    | Lf (LVar _ ddof None) | Lf (LSD _ ddof None) | Lf (LCV _ ddof) => (ddof = 0 \/ ddof = 1)%Z
    | Lf (LOther _) => False
    | _ => True
    end.
  (** For Cov without weights: both columns are NULL in the same rows (see C21). *)
  Definition cov_same_nulls (l : leaf) (rows : stable) : Prop :=
    match l with
    | Lf (LCov a b _ None None) => forall r, In r rows -> (scell a r = None <-> scell b r = None)
    | _ => True
    end.
End Data.

(** What C33-C36 and C41 are about. *)
From Coq Require Import Reals List Bool String Arith.
From Verif Require Import M_Num M_Frame M_Ops M_Slices S_Slices.
Import ListNotations.
Open Scope list_scope.

(** The rows of a table whose [unit] is not [x]. *)
Definition without (unit x : string) (df : table) : table :=
  filter (fun r => match lab r unit with Some y => if string_dec y x then false else true | None => true end) df.
(** The leaf metric is a Sum or a Count, of a column without infinities. *)
Definition sum_or_count (agg : table -> num) (df : table) : Prop :=
  exists v, (agg = agg_sum v /\ Forall (fun r => no_inf (val r v)) df) \/ agg = agg_count v.
Fixpoint sums_and_counts (t : mtree) (df : table) : Prop :=
  match t with
  | TLeaf agg => sum_or_count agg df
  | TWhere _ t' => sums_and_counts t' df
  | TConst _ t' => sums_and_counts t' df
  | TBinary _ a b => sums_and_counts a df /\ sums_and_counts b df
  | TOp _ _ _ t' => sums_and_counts t' df
  end.
(** Every row has a label in the column [c]. *)
Definition has_labels (cols : list string) (df : table) : Prop := Forall (fun r => forall c, In c cols -> lab r c <> None) df.
(** Unit [x] occurs in the slice [k]. *)
Definition occurs (split_by : list string) (unit : string) (k : list string) (x : string) (df : table) : Prop :=
  exists r, In r df /\ row_key split_by r = Some k /\ lab r unit = Some x.

(** Statistics of a list of numbers. *)
Definition len (l : list R) : R := INR (List.length l).
Definition avg (l : list R) : R := (Rsum l / len l)%R.
Definition spread (l : list R) : R := Rsum (List.map (fun x => ((x - avg l) * (x - avg l))%R) l).
(** [ppf p dof] is, for p in (0, 1), the quantile function of a distribution symmetric around 0
    (Student's t). *)
Definition symmetric_quantiles (ppf : R -> Z -> num) (dof : Z) : Prop :=
  exists q : R -> R, (forall p, (0 < p < 1)%R -> ppf p dof = Fin (q p)) /\ q (1 / 2)%R = 0%R /\
  forall p p', (0 < p)%R -> (p < p')%R -> (p' < 1)%R -> (q p < q p')%R.

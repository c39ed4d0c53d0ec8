(** What C65 compares, and on which data. *)
From Coq Require Import Reals List Bool String Permutation ZArith.
From Verif Require Import M_Num M_Frame M_Jackknife M_SqlGlobal M_SqlLeaf S_SqlLeaf M_SqlOps S_SqlOps M_SqlJackknife.
Import ListNotations.
Open Scope list_scope.

(** The unit [x] has a row in the slice [k] of split_by. *)
Definition unit_in (split_by : list string) (unit : string) (k : list string) (x : string) (t : stable) : Prop :=
  exists r, In r t /\ srow_key split_by r = List.map Some k /\ slab r unit = Some x.
(** The rows of the slice [k] whose unit is not [x]. *)
Definition left_out (split_by : list string) (unit : string) (k : list string) (x : string) (t : stable) : stable :=
  filter (fun r => (if skey_dec (srow_key split_by r) (List.map Some k) then true else false) &&
                   (if label_dec (slab r unit) (Some x) then false else true)) t.

(** The columns whose labels a condition reads. *)
Fixpoint cond_labels (p : cond) : list string :=
  match p with
  | CNum _ _ _ => []
  | CIs c _ | CIsNot c _ | CIn c _ => [c]
  | CAnd p q | COr p q => cond_labels p ++ cond_labels q
  | CNot p => cond_labels p
  end.

(** The conditions of C62, when no filter is in WHERE. *)
Definition child_fits (parse : string -> cond) (psort : cum_how -> bool -> nat -> rframe -> rframe) (m : otree) (by_ : list string) (t : stable) : Prop :=
  (forall b above loc by', In (b, above, loc, by') (bottoms [] m by_ [] []) -> leaf_fits parse [] b above loc by' t) /\
  tree_fits parse psort m by_ (pandas_table t).
(** Every leaf metric has a row that passes its filters. *)
Definition every_leaf_has_rows (parse : string -> cond) (m : otree) (t : stable) : Prop :=
  forall b above loc by' l fs, In (b, above, loc, by') (bottoms [] m [] [] []) -> In (l, fs) (leaves_with_filters above b) ->
  exists r, In r t /\ spass parse fs r = true.

(** What the caller sees: index, value, standard error. *)
Definition jk_shown (index : list string) (v : string) (rows : list row) : list (list (option string) * num * num) :=
  List.map (fun r => (List.map (fun c => label (r c)) index, fetch (number (r v)), fetch (number (r (se_name v))))) rows.
Definition jk_same_rows (s : list (list (option string) * num * num)) (fr : list (list string * num * num * Z)) : Prop :=
  Permutation s (List.map (fun q => (List.map Some (fst (fst (fst q))), snd (fst (fst q)), snd (fst q))) fr).

(** The confidence intervals that are made of the rows of the query (degrees of freedom are a column of it), and those of pandas. *)
Definition jk_bounds (ppf : R -> Z -> num) (confidence : R) (index : list string) (v : string) (rows : list row) : list (list (option string) * num * (num * num)) :=
  List.map (fun r => (List.map (fun c => label (r c)) index, fetch (number (r v)),
    sql_ci ppf confidence (fetch (number (r v))) (fetch (number (r (se_name v)))) (option_map Int_part (number (r (dof_name v)))))) rows.
Definition jk_same_bounds (ppf : R -> Z -> num) (confidence : R) (s : list (list (option string) * num * (num * num))) (fr : list (list string * num * num * Z)) : Prop :=
  Permutation s (List.map (fun q => (List.map Some (fst (fst (fst q))), snd (fst (fst q)), ci ppf confidence (snd (fst (fst q))) (snd (fst q)) (snd q))) fr).

(** What C70 compares, and on which data. *)
From Coq Require Import Reals List Bool String Permutation ZArith.
From Verif Require Import M_Num M_Frame M_Jackknife M_Bootstrap M_SqlGlobal M_SqlLeaf S_SqlLeaf M_SqlOps S_SqlOps M_SqlJackknife S_SqlJackknife.
Import ListNotations.
Open Scope list_scope.

(** The rows of the slice [k] of split_by. *)
Definition rows_in (split_by : list string) (k : list string) (t : stable) : stable :=
  filter (fun r => if skey_dec (srow_key split_by r) (List.map Some k) then true else false) t.
(** What pandas draws from: the rows of each slice, or the units of each slice. *)
Definition draw_sizes (split_by : list string) (unit : option string) (df : table) : list nat :=
  match unit with
  | None => List.map (fun k => List.length (slice split_by k df)) (group_keys split_by df)
  | Some u => List.map (@List.length _) (unit_groups split_by u df)
  end.
(** sample(frac=1, replace=True): as many positions as there are members, in each slice. *)
Definition possible_draw (sizes : list nat) (ds : list (list nat)) : Prop :=
  Forall2 (fun n d => List.length d = n /\ Forall (fun x => (x < n)%nat) d) sizes ds.
(** Index, value and standard error; the bounds of the confidence interval (the columns of the query and what is made of them). *)
Definition boot_se_name (c : string) : string := String.append c " Bootstrap SE".
Definition boot_shown (index : list string) (v : string) (rows : list row) : list (list (option string) * num * num) :=
  List.map (fun r => (List.map (fun c => label (r c)) index, fetch (number (r v)), fetch (number (r (boot_se_name v))))) rows.
Definition boot_bounds (ppf : R -> Z -> num) (confidence : R) (index : list string) (v : string) (rows : list row) : list (list (option string) * num * (num * num)) :=
  List.map (fun r => (List.map (fun c => label (r c)) index, fetch (number (r v)),
    sql_ci ppf confidence (fetch (number (r v))) (fetch (number (r (boot_se_name v)))) (option_map Int_part (number (r (dof_name v)))))) rows.

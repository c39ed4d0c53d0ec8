(** What computing a metric with a confidence level on its own gives, and the key its data has. *)
From Coq Require Import List String Bool.
From Verif Require Import M_Metric M_Cache M_CiBase.
Import ListNotations.
(** the key of the metric [m] split by [sb] below a metric with the key [parent] *)
Definition data_key (parent : ckey) (sb : list string) (m : ci) : ckey :=
  CKey (ci_fp m) (k_raw parent) (to_set (k_where parent ++ ci_where m))
       (match sb with [] => k_split parent | _ => sb end) (k_slice parent).
Definition alone {V B} (comp : ckey -> res (V * B)) (m : ci) (k : ckey) : res (V * option B) :=
  match comp k with
  | Ok (v, b) => Ok (v, if ci_conf m then Some b else None)
  | Err e => Err e
  end.
(** slices in keys are sorted and have distinct columns *)
Definition normal_slice (k : ckey) : Prop := NoDup (map fst (k_slice k)) /\ pair_sort (k_slice k) = k_slice k.

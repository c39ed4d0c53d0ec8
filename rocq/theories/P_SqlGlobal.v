(** C14: global and local filters. *)
From Coq Require Import List String Bool.
From Verif Require Import M_SqlGlobal S_SqlGlobal L_SqlGlobal.
Import ListNotations.
Open Scope string_scope.
Open Scope list_scope.

(** For every leaf: WHERE clause plus its own IF condition are the filters on its path. *)
Theorem C14_global_and_local_filters :
  forall t, Forall2 (fun gl path => same_filters (fst gl ++ snd gl) path) (sql_filters t) (paths [] t).
Proof. exact sql_filters_ok. Qed.
Print Assumptions C14_global_and_local_filters.
(** On data, however conditions are interpreted: a row that passes WHERE and the leaf's IF is a
    row that passes all filters of the path, and conversely. *)
Theorem C14_rows_used :
  forall R (holds : string -> R -> bool) t r, (forall r, holds "" r = true) ->
  Forall2 (fun gl path => forallb (fun c => holds c r) (fst gl) && forallb (fun c => holds c r) (snd gl) =
                          forallb (fun c => holds c r) path) (sql_filters t) (paths [] t).
Proof. exact @sql_rows. Qed.
Print Assumptions C14_rows_used.
(** No condition is both in the WHERE clause and in an IF. *)
Theorem C14_no_condition_twice :
  forall t, Forall (fun gl => forall c, In c (snd gl) -> ~ In c (fst gl)) (sql_filters t).
Proof. exact sql_filters_disjoint. Qed.
Print Assumptions C14_no_condition_twice.

Example C14_example :
  let t := FNode "MetricList" ["a"] [FNode "Sum" ["b"; "c"] []; FNode "Ratio" ["c"] [FNode "Sum" ["a"; "b"] []; FNode "Count" ["b"; "d"] []];
                                     FNode "Jackknife" ["b"; "c"] [FNode "Sum" ["e"] []]] in
  sql_filters t = [(["a"; "b"; "c"], []); (["a"; "b"; "c"], []); (["a"; "b"; "c"], ["d"]); (["a"; "b"; "c"], ["e"])] /\
  paths [] t = [["a"; "b"; "c"]; ["a"; "c"; "a"; "b"]; ["a"; "c"; "b"; "d"]; ["a"; "b"; "c"; "e"]].
Proof. vm_compute. split; reflexivity. Qed.

(** C07: the column names of a MetricList whose metrics share cached results. *)
From Coq Require Import String List Bool Arith.
From Verif Require Import M_Naming S_Naming L_Naming.
Import ListNotations.
Open Scope list_scope.
Open Scope string_scope.

Definition share (n : string) : string := "Distribution of " ++ n.
Definition pct (n : string) : string := n ++ " Percent Change".
Definition dist : nm := NOp 1 share (NLeaf 0 "sum(X)").
Definition change : nm := NOp 2 pct dist.

(** The same operation three times: the third result, and with it the second, is named twice over. *)
Theorem C07_names_refuted :
  exists multi ms, consistent (map fst ms) /\ list_names multi ms <> map (fun p => names (fst p)) ms.
Proof.
  exists (fun _ => false), [(dist, false); (dist, false); (dist, false)]. split.
  - intros a b Ha Hb. cbn in Ha, Hb. repeat (destruct Ha as [<-|Ha]; [|]); try (destruct Ha);
      repeat (destruct Hb as [<-|Hb]; [|]); try (destruct Hb); intros E; (discriminate E || reflexivity).
  - vm_compute. discriminate.
Qed.

(** Exactly what happens when an operation is listed [S n] times.  When the result has an index of one level, all results but
    the first are one and the same frame, renamed [n] times. *)
Theorem C07_repeated_one_level multi i l x t n :
  multi (KOp i (KLeaf l)) = false ->
  list_names multi (repeat (NOp i t (NLeaf l x), false) (S n)) = [t x] :: repeat [Nat.iter n t x] n.
Proof. exact (repeat_single multi i l x t n). Qed.
(** With an index of several levels each use has a name with one more template around it. *)
Theorem C07_repeated_several_levels multi i l x t n :
  multi (KOp i (KLeaf l)) = true ->
  list_names multi (repeat (NOp i t (NLeaf l x), false) (S n)) = [t x] :: map (fun j => [Nat.iter j t x]) (seq 1 n).
Proof. exact (repeat_multi multi i l x t n). Qed.

(** The names are those of the metrics as long as every operation, at any depth, is used at most twice, or is only used in
    long format.  Missing from the full property: more uses than that, where it is false (above). *)
Theorem C07_at_most_twice_partial multi (ms : list (nm * bool)) :
  consistent (map fst ms) ->
  (forall k, occurrences k (map fst ms) <= 2 \/ occurrences k (renamed_in_place ms) = 0) ->
  list_names multi ms = map (fun p => names (fst p)) ms.
Proof. exact (list_names_twice multi ms). Qed.

(** Names are not compared by the cache: a metric equal to an earlier one but for its name shows the earlier one's name. *)
Theorem C07_other_name_refuted :
  exists multi a b, nkey_of a = nkey_of b /\ names a <> names b /\
    list_names multi [(a, false); (b, false)] = [names a; names a].
Proof.
  exists (fun _ => false), (NOp 1 share (NLeaf 0 "revenue")), (NOp 1 share (NLeaf 0 "sales")).
  split; [reflexivity|]. split; [vm_compute; discriminate|reflexivity].
Qed.

(** In the mixed mode of compute_on_sql the names are right for any number of uses. *)
Theorem C07_sql_mixed_mode multi ms : consistent ms -> list_names_mixed multi ms = map names ms.
Proof. exact (list_names_mixed_right multi ms). Qed.

Print Assumptions C07_at_most_twice_partial.
Print Assumptions C07_sql_mixed_mode.

(** ** Concrete cases *)
Example C07_three_times :
  list_names (fun _ => false) [(dist, false); (dist, false); (dist, false)]
  = [["Distribution of sum(X)"]; ["Distribution of Distribution of sum(X)"]; ["Distribution of Distribution of sum(X)"]].
Proof. reflexivity. Qed.
Example C07_three_times_split :
  list_names (fun _ => true) [(dist, false); (dist, false); (dist, false)]
  = [["Distribution of sum(X)"]; ["Distribution of sum(X)"]; ["Distribution of Distribution of sum(X)"]].
Proof. reflexivity. Qed.
Example C07_nested_hypotheses : consistent [dist; change; dist] /\ occurrences (nkey_of dist) [dist; change] = 2
  /\ list_names (fun _ => false) [(dist, false); (change, false)] = [["Distribution of sum(X)"]; ["Distribution of sum(X) Percent Change"]].
Proof.
  split; [|split; reflexivity].
  intros a b Ha Hb. cbn in Ha, Hb. repeat (destruct Ha as [<-|Ha]; [|]); try (destruct Ha);
      repeat (destruct Hb as [<-|Hb]; [|]); try (destruct Hb); intros E; (discriminate E || reflexivity).
Qed.
Example C07_melted_many :
  list_names (fun _ => false) (repeat (dist, true) 4) = repeat ["Distribution of sum(X)"] 4
  /\ occurrences (nkey_of dist) (renamed_in_place (repeat (dist, true) 4)) = 0.
Proof. split; reflexivity. Qed.
Example C07_mixed_many : list_names_mixed (fun _ => false) [dist; change; dist; dist] = map names [dist; change; dist; dist].
Proof. reflexivity. Qed.

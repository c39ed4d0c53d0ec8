(** C40: Jackknife's precomputation and the results of other metrics in the same cache. *)
From Coq Require Import Reals List Bool String Arith Lra.
From Verif Require Import M_Num M_Frame M_Jackknife S_Jackknife L_Frame L_Jackknife L_Jackknife2 M_JackCache L_JackCache P_Jackknife.
Import ListNotations.
Open Scope string_scope.
Open Scope list_scope.

(** The result a metric finds in the cache, or computes, is the one on the data of the round. *)
Definition serves_right (sat : string -> drow -> bool) (df : table) (c : lcache) : Prop :=
  forall l w split_by, fst (compute_cached sat df l w split_by c) = compute_leaf (agg_of l) split_by (query sat df w).
(** Every cached result of the round is right. *)
Definition right_cache (sat : string -> drow -> bool) (df : table) (c : lcache) : Prop :=
  forall k v, In (k, v) c -> k_raw k = KRound -> v = compute_leaf (agg_of (k_leaf k)) (k_split k) (query sat df (k_where k)).
(** If no Count(distinct=True) was computed by a metric that splits by split_by and the unit, and
    there is no null unit, the precomputation leaves the cache right, whatever else is in it. *)
Theorem C40_totals_partial : forall sat df w leaves split_by unit c, has_labels [unit] df -> right_cache sat df c ->
  (forall k v, In (k, v) c -> k_raw k = KRound -> firstn (S (List.length split_by)) (k_split k) = split_by ++ [unit] ->
     sum_or_count (agg_of (k_leaf k)) df /\ NoDup (k_split k)) ->
  (forall l wl lv, In (l, wl, lv) leaves -> sum_or_count (agg_of l) df /\ NoDup (split_by ++ [unit] ++ lv)) ->
  let c' := jackknife_precompute sat df w leaves split_by unit c in right_cache sat df c' /\ serves_right sat df c'.
Proof.
  intros sat df w leaves s u c Hl Hc Hk Hlv c'.
  assert (all_right sat df c') as H.
  { apply precompute_all_right; auto. intros k v Hin Hr Hp. apply (Hk k v); auto. unfold is_prefix in Hp.
    destruct (list_eq_dec _ _ _) as [E|]; [|discriminate]. rewrite app_length, Nat.add_comm in E. exact E. }
  split; [exact H|]. intros l w' s'. now apply compute_cached_right.
Qed.
Print Assumptions C40_totals_partial.

(** And the replicates it leaves in the cache for its leaves are the leave-one-out results: in every slice, for every unit of the
    slice, the row of the replicate is the metric on the slice without the unit.  (If there are none for this unit
    yet.) *)
Theorem C40_replicates_partial : forall sat df w leaves split_by unit c l wl lv, has_labels [unit] df -> right_cache sat df c ->
  (forall k v, In (k, v) c -> k_raw k <> KLoo unit) ->
  In (l, wl, lv) leaves -> sum_or_count (agg_of l) df ->
  exists replicates, get (LKey l (w ++ wl) (split_by ++ unit :: lv) (KLoo unit)) (jackknife_precompute sat df w leaves split_by unit c) = Some replicates /\
  forall k x, occurs split_by unit k x (query sat df w) ->
    (lv <> [] \/ split_by = [] \/ slice split_by k (query sat df (w ++ wl)) <> []) ->
    restrict (S (List.length split_by)) (k ++ [x]) replicates
    = compute_leaf (agg_of l) lv (without unit x (slice split_by k (query sat df (w ++ wl)))).
Proof.
  intros sat df w leaves s u c l wl lv Hl Hc Hn Hin Hs. eexists. split; [now apply precompute_loo|]. intros k x Ho Hne.
  apply C33_sum_and_count; auto.
  - eapply sum_or_count_incl; [exact Hs|]. apply filter_incl.
  - unfold has_labels in *. rewrite Forall_forall in *. intros r Hr. apply Hl. eapply filter_incl; eauto.
Qed.
(** u: unit, x: something counted, f: a flag, y: a number *)
Definition obs (u x f : string) (y : R) : drow :=
  Row (fun c => if string_dec c "u" then Some u else if string_dec c "x" then Some x else if string_dec c "f" then Some f else None)
      (fun c => if string_dec c "y" then Fin y else NaN).
Definition ex_df : table := [obs "1" "a" "y" 5; obs "2" "a" "n" 7].
Definition ex_sat (c : string) (r : drow) : bool := match lab r "f" with Some f => if string_dec f "y" then true else false | None => false end.
Example C40_example : has_labels ["u"] ex_df /\ sum_or_count (agg_of (CSum "y")) ex_df /\
  right_cache ex_sat ex_df (snd (compute_cached ex_sat ex_df (CSum "y") [] ["u"] [])) /\
  Datatypes.length (jackknife_precompute ex_sat ex_df [] [(CCount "y" false, ["f"], [])] [] "u" (snd (compute_cached ex_sat ex_df (CSum "y") [] ["u"] []))) = 6.
Proof.
  split; [|split; [|split]].
  - repeat constructor; intros c [<-|[]]; discriminate.
  - exists "y". left. split; auto. repeat constructor; discriminate.
  - intros k v [F|[]] _. injection F as <- <-. reflexivity.
  - reflexivity.
Qed.
Example C40_replicates_example :
  right_cache ex_sat ex_df [] /\ occurs [] "u" [] "1" (query ex_sat ex_df []) /\
  exists x y, get (LKey (CSum "y") [] ["u"] (KLoo "u")) (jackknife_precompute ex_sat ex_df [] [(CSum "y", [], [])] [] "u" []) = Some [(["1"], Fin x); (["2"], Fin y)] /\ x = 7%R /\ y = 5%R.
Proof.
  split; [intros k v []|]. split; [exists (obs "1" "a" "y" 5); split; [now left|split; reflexivity]|].
  eexists. eexists. split; [reflexivity|]. cbn. split; lra.
Qed.
(** MetricList([Distribution('u', Count('x', distinct=True)), Jackknife('u', Sum('y')),
    Count('x', distinct=True)]): the last one should be 1. *)
Theorem C40_distinct_refuted : exists sat df unit c, has_labels [unit] df /\
  c = jackknife_precompute sat df [] [(CSum "y", [], [])] [] unit (snd (compute_cached sat df (CCount "x" true) [] [unit] [])) /\
  fst (compute_cached sat df (CCount "x" true) [] [] c) = [([], Fin 2)] /\
  compute_leaf (agg_of (CCount "x" true)) [] (query sat df []) = [([], Fin 1)].
Proof.
  exists ex_sat, ex_df, "u". eexists. split; [repeat constructor; intros c [<-|[]]; discriminate|]. split; [reflexivity|]. split.
  - cbn. do 3 f_equal. ring.
  - cbn. reflexivity.
Qed.
Print Assumptions C40_distinct_refuted.
(** MetricList([Jackknife('u', Sum('y', where='f')), Jackknife('u', Sum('y'), where='f')]): the second one
    reuses leave-one-out results with a replicate for unit 2, which does not occur in its data. *)
Theorem C40_shared_replicates_refuted : exists sat df, let second := jackknife_precompute sat df ["f"] [(CSum "y", [], [])] [] "u" in
  let first := jackknife_precompute sat df [] [(CSum "y", ["f"], [])] [] "u" in
  let replicates c := match get (LKey (CSum "y") ["f"] ["u"] (KLoo "u")) c with Some r => List.map fst r | None => [] end in
  replicates (second []) = [["1"]] /\ replicates (second (first [])) = [["1"]; ["2"]].
Proof. exists ex_sat, ex_df. split; reflexivity. Qed.
(** A null unit: the total cached for Sum('y') lacks its rows. *)
Theorem C40_null_unit_refuted : exists sat df a b, a <> b /\
  fst (compute_cached sat df (CSum "y") [] [] (jackknife_precompute sat df [] [(CSum "y", [], [])] [] "u" [])) = [([], Fin a)] /\
  compute_leaf (agg_of (CSum "y")) [] (query sat df []) = [([], Fin b)].
Proof.
  exists ex_sat, [obs "1" "a" "y" 5; Row (fun _ => None) (fun _ => Fin 1)]. eexists. eexists. split; [|split; reflexivity]. cbn. lra.
Qed.

(** C22: slices are independent. *)
From Coq Require Import Reals List Bool String Arith Lra.
From Verif Require Import M_Num M_Frame M_Ops M_Slices S_Slices L_Slices L_Slices2.
Import ListNotations.
Open Scope string_scope.
Open Scope list_scope.

(** The rows of the result for the slice [k] are the result of the metric on the rows of the
    slice alone, for trees of leaves, filters, arithmetic and slicewise operations. *)
Theorem C22_slices_independent_partial :
  forall t split_by k df alone, slicewise_tree t ->
  List.length k = List.length split_by -> populated t [] (slice split_by k df) ->
  compute_on t [] (slice split_by k df) = Some alone ->
  exists R, compute_on t split_by df = Some R /\ restrict (List.length split_by) k R = alone.
Proof.
  intros t s k df r H1 H2 H3 H4. destruct (compute_on_slice t s [] k df r H1 H2 H3 H4) as [R H].
  rewrite app_nil_r in H. now exists R.
Qed.
Print Assumptions C22_slices_independent_partial.
(** Rows only for slices that occur in the data. *)
Theorem C22_no_other_slices :
  forall t split_by df R k v, no_slices_added t -> split_by <> [] ->
  compute_on t split_by df = Some R -> In (k, v) R ->
  exists r, In r df /\ row_key split_by r = Some (firstn (List.length split_by) k).
Proof.
  intros t s df R k v H1 H2 H3 H4. apply slice_nonempty. rewrite <- (app_nil_r s) in H3.
  exact (compute_on_keys t s [] df R (k, v) H1 H2 H3 H4).
Qed.
(** Exactly one row per slice value that occurs, for leaf metrics. *)
Theorem C22_leaf_one_row_per_slice :
  forall agg split_by df, split_by <> [] ->
  NoDup (List.map fst (compute_leaf agg split_by df)) /\
  (forall k, In k (List.map fst (compute_leaf agg split_by df)) <-> exists r, In r df /\ row_key split_by r = Some k) /\
  (forall k v, In (k, v) (compute_leaf agg split_by df) -> v = agg (slice split_by k df)).
Proof.
  intros agg s df Hs. unfold compute_leaf. rewrite map_map. cbn [fst]. rewrite map_id. split; [|split].
  - apply L_Frame.ksorted_NoDup, group_keys_sorted.
  - intros k. rewrite group_keys_In. split; [intros [[E _]|[_ H]]; [contradiction|exact H]|intros H; right; auto].
  - intros k v H. apply in_map_iff in H as [g [E Hg]]. now injection E as <- <-.
Qed.
(** The operations of the library that work slice by slice. *)
Theorem C22_slicewise_operations :
  slicewise (fun n c => Some (distribution n c)) /\
  (forall order, slicewise (fun n c => Some (cumulative_distribution n (ByOrder order) c))) /\
  (forall leb, (forall a b, leb a b = true \/ leb b a = true) ->
     (forall a b c, leb a b = true -> leb b c = true -> leb a c = true) ->
     slicewise (fun n c => Some (cumulative_distribution n (BySort (sort_rows leb n)) c))) /\
  (forall nc base incl, slicewise (fun n c => percent_change n nc base incl c)) /\
  (forall nc base incl, slicewise (fun n c => absolute_change n nc base incl c)) /\
  slicewise (fun n c => Some (hhi n c)) /\ slicewise (fun n c => Some (entropy n c)) /\
  (forall share, slicewise (fun n c => Some (nxx share n c))).
Proof.
  repeat split.
  - apply slicewise_distribution.
  - apply slicewise_cumdist_order.
  - apply slicewise_cumdist_sort.
  - intros. apply slicewise_compare.
  - intros. apply slicewise_compare.
  - apply slicewise_hhi.
  - apply slicewise_entropy.
  - apply slicewise_nxx.
Qed.
Theorem C22_operations_add_no_slices :
  adds_no_slices (fun n c => Some (distribution n c)) /\
  (forall order, adds_no_slices (fun n c => Some (cumulative_distribution n (ByOrder order) c))) /\
  (forall leb, adds_no_slices (fun n c => Some (cumulative_distribution n (BySort (sort_rows leb n)) c))) /\
  (forall nc base incl, adds_no_slices (fun n c => percent_change n nc base incl c)) /\
  (forall nc base incl, adds_no_slices (fun n c => absolute_change n nc base incl c)) /\
  adds_no_slices (fun n c => Some (hhi n c)) /\ adds_no_slices (fun n c => Some (entropy n c)) /\
  (forall k, adds_no_slices (fun n c => Some (top_k k n c))) /\
  (forall share, adds_no_slices (fun n c => Some (nxx share n c))).
Proof.
  repeat split.
  - apply no_slices_distribution.
  - intros order. apply (no_slices_cumdist (fun _ => ByOrder order)). discriminate.
  - intros leb. apply (no_slices_cumdist (fun n => BySort (sort_rows leb n))). intros n f l q E H.
    injection E as <-. now apply sort_rows_In in H.
  - intros. apply no_slices_compare.
  - intros. apply no_slices_compare.
  - apply no_slices_agg.
  - apply no_slices_agg.
  - apply no_slices_top_k.
  - intros. apply no_slices_agg.
Qed.

(** Examples and refutations share this table: country, arm, x. *)
Definition mk (c a : string) (x : R) : drow :=
  Row (fun col => if string_dec col "country" then Some c else if string_dec col "arm" then Some a else None)
      (fun col => if string_dec col "x" then Fin x else NaN).
Definition ex_df : table := [mk "us" "t" 1; mk "uk" "t" 2; mk "us" "c" 3].
(** Distribution over arm of Sum(x), in percent *)
Definition ex_tree := TConst (fun v => xmul v (Fin 100)) (TOp ["arm"] ["arm"] (fun n c => Some (distribution n c)) (TLeaf (agg_sum "x"))).
Example C22_example : slicewise_tree ex_tree /\ no_slices_added ex_tree /\ populated ex_tree [] (slice ["country"] ["us"] ex_df) /\
  exists r, compute_on ex_tree [] (slice ["country"] ["us"] ex_df) = Some r /\ List.map fst r = [["c"]; ["t"]].
Proof.
  split; [|split; [|split]].
  - simpl. repeat split. apply slicewise_distribution.
  - simpl. repeat split. apply no_slices_distribution.
  - split; discriminate.
  - eexists. split; reflexivity.
Qed.

(** A filter that empties a slice: the slice alone sums to 0, in the split result it is missing (NaN
    once it is combined with another metric). *)
Definition ex_where := TBinary xdiv (TWhere (fun r => match lab r "arm" with Some "c" => true | _ => false end) (TLeaf (agg_sum "x"))) (TLeaf (agg_sum "x")).
Theorem C22_emptied_slice_refuted :
  exists t split_by k df alone R, slicewise_tree t /\ slice split_by k df <> [] /\
  compute_on t [] (slice split_by k df) = Some [([], Fin alone)] /\
  compute_on t split_by df = Some R /\ lookup k R = NaN /\ In k (List.map fst R).
Proof.
  exists ex_where, ["country"], ["uk"], ex_df, 0%R. eexists. split; [simpl; auto|]. split; [discriminate|]. split; [|split; [reflexivity|split]].
  - cbn. unfold align, agg_sum. cbn. destruct (Req_EM_T (2 + 0) 0); [exfalso; lra|]. do 4 f_equal. unfold Rdiv. ring.
  - reflexivity.
  - cbn. auto.
Qed.
Print Assumptions C22_emptied_slice_refuted.
(** A slice without the baseline: alone an exception, with other slices NaN. *)
Theorem C22_missing_baseline_refuted :
  exists split_by k df R, slice split_by k df <> [] /\
  let t := TOp ["arm"] ["arm"] (fun n c => percent_change n 1 ["c"] false c) (TLeaf (agg_sum "x")) in
  compute_on t [] (slice split_by k df) = None /\ compute_on t split_by df = Some R /\ restrict 1 k R = [(["t"], NaN)].
Proof.
  exists ["country"], ["uk"], ex_df. eexists. split; [discriminate|]. split; [reflexivity|]. split; [reflexivity|].
  cbn. reflexivity.
Qed.
(** TopK of a slice whose total is 0: alone 0, with other slices the row is missing. *)
Theorem C22_top_k_refuted :
  exists split_by k df R, slice split_by k df <> [] /\
  let t := TOp ["arm"] [] (fun n c => Some (top_k 1 n c)) (TLeaf (agg_sum "x")) in
  compute_on t [] (slice split_by k df) = Some [([], Fin 0)] /\ compute_on t split_by df = Some R /\
  ~ In k (List.map fst R).
Proof.
  exists ["country"], ["uk"], [mk "us" "t" 1; mk "uk" "t" 0].
  eexists. split; [discriminate|]. split; [|split; [reflexivity|]].
  - cbn. unfold top_k, agg_sum. cbn. destruct (Req_EM_T (0 + 0 + 0) 0) as [_|N]; [|exfalso; lra]. unfold inf_times.
    destruct (Req_EM_T (0 + 0) 0) as [_|N]; [|exfalso; lra]. reflexivity.
  - cbn. unfold top_k, distribution, groupby_level, agg_sum. cbn.
    destruct (Req_EM_T (0 + 0 + 0) 0) as [_|N]; [|exfalso; lra]. unfold inf_times.
    destruct (Req_EM_T (0 + 0) 0) as [_|N]; [|exfalso; lra].
    destruct (Req_EM_T (1 + 0 + 0) 0) as [N|_]; [exfalso; lra|]. cbn. intros [H|[]]. discriminate.
Qed.

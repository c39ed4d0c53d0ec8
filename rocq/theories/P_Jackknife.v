(** C33 leave-one-out, C34 its slices, C35 standard errors, C36 intervals, C41 optimization. *)
From Coq Require Import Reals List Bool String Arith ZArith Lia Lra Permutation.
From Verif Require Import M_Num M_Frame M_Ops M_Slices S_Slices M_Leaf M_Jackknife S_Jackknife L_Frame L_OpsB L_Slices L_Slices2 L_Jackknife L_Jackknife2 L_Jackknife3 L_JackSE.
Import ListNotations.
Open Scope string_scope.
Open Scope list_scope.

(** ** C33 *)
(** The precomputed leave-[x]-out results of a Sum or Count for a split [k]: exactly the result on
    the split's rows whose unit is not [x].  [df] is the data after the leaf's filters, [slices]
    before.  (The last hypothesis fails if the filters leave no row in the split at all.) *)
Theorem C33_sum_and_count :
  forall agg split_by unit op_levels df slices k x, sum_or_count agg df -> has_labels [unit] df ->
  occurs split_by unit k x slices -> (op_levels <> [] \/ split_by = [] \/ slice split_by k df <> []) ->
  restrict (S (List.length split_by)) (k ++ [x]) (loo_leaf (List.length split_by) slices agg (split_by ++ unit :: op_levels) df)
  = compute_leaf agg op_levels (without unit x (slice split_by k df)).
Proof.
  intros agg s u e df sl k x Hs Hl Ho Hne. destruct (sum_or_count_additive _ _ Hs) as [f Hf]. destruct Ho as [r [Hr [Hk Hx]]].
  eapply loo_leaf_slice; eauto.
  - apply Forall_forall. intros q Hq. unfold has_labels in Hl. rewrite Forall_forall in Hl. apply (Hl q Hq). now left.
  - apply bucket_keys. exists r. split; auto. now apply row_key_unit_mk.
  - eapply row_key_length; eauto.
Qed.
Print Assumptions C33_sum_and_count.
(** Trees of arithmetic, filters and slicewise operations over them, when the filters leave
    something of the leave-one-out data. *)
Theorem C33_leave_one_out_partial :
  forall t split_by unit df k x alone, slicewise_tree t -> sums_and_counts t df ->
  has_labels (split_by ++ [unit] ++ op_columns t) df -> occurs split_by unit k x df ->
  let rest := without unit x (slice split_by k df) in
  populated t [] rest -> compute_on t [] rest = Some alone ->
  exists R, fast_replicates t split_by unit df = Some R /\ restrict (S (List.length split_by)) (k ++ [x]) R = alone.
Proof.
  intros t s u df k x r Hs Hc Hl Ho rest Hp Hr. assert (List.length k = List.length s) as Hk.
  { destruct Ho as [q [_ [E _]]]. eapply row_key_length; eauto. }
  assert (In (k ++ [x]) (group_keys (s ++ [u]) df)) as Hx.
  { destruct Ho as [q [Hq [E1 E2]]]. apply bucket_keys. exists q. split; auto. now apply row_key_unit_mk. }
  destruct (fast_slice s u t [] df df k x r Hs Hc (unit_lab t s u df Hl) Hx Hk Hp Hr) as [R H]. exists R. unfold fast_replicates.
  rewrite (slices_all t s u df Hl). exact H.
Qed.
(** The cached totals are the metric's values. *)
Theorem C33_point_estimate : forall t split_by unit df, sums_and_counts t df -> has_labels [unit] df ->
  fast_point_estimate t split_by unit df = compute_on t split_by df.
Proof.
  intros t s u df Hs Hl. unfold fast_point_estimate. pose proof (fast_point_eq s u t [] df Hs) as H. rewrite !app_nil_r in H. apply H.
  apply Forall_forall. intros q Hq. unfold has_labels in Hl. rewrite Forall_forall in Hl. apply (Hl q Hq). now left.
Qed.
Print Assumptions C33_point_estimate.

(** A table with columns unit u, group g, condition c, flag f, value x. *)
Definition obs (u g c f : string) (x : R) : drow :=
  Row (fun col => if string_dec col "u" then (if string_dec u "" then None else Some u) else if string_dec col "g" then Some g
                  else if string_dec col "c" then Some c else if string_dec col "f" then Some f else None)
      (fun col => if string_dec col "x" then Fin x else NaN).
Definition ex_df : table := [obs "1" "A" "foo" "y" 10; obs "2" "A" "foo" "y" 20; obs "2" "A" "bar" "y" 30; obs "3" "A" "bar" "n" 40; obs "2" "B" "bar" "y" 5].
(** Jackknife('u', Distribution('c', Sum('x'))).compute_on(df, 'g') *)
Definition ex_tree := TOp ["c"] ["c"] (fun n c => Some (distribution n c)) (TLeaf (agg_sum "x")).
Example C33_example : slicewise_tree ex_tree /\ no_slices_added ex_tree /\ sums_and_counts ex_tree ex_df /\
  has_labels (["g"] ++ ["u"] ++ op_columns ex_tree) ex_df /\ occurs ["g"] "u" ["A"] "1" ex_df /\
  let rest := without "u" "1" (slice ["g"] ["A"] ex_df) in
  populated ex_tree [] rest /\ exists r, compute_on ex_tree [] rest = Some r /\ List.map fst r = [["bar"]; ["foo"]].
Proof.
  split; [|split; [|split; [|split; [|split]]]].
  - simpl. split; auto. apply slicewise_distribution.
  - simpl. split; auto. apply no_slices_distribution.
  - exists "x". left. split; auto. repeat constructor; discriminate.
  - repeat constructor; intros col [<-|[<-|[<-|[]]]]; discriminate.
  - exists (obs "1" "A" "foo" "y" 10). repeat split. now left.
  - split; [split; discriminate|]. eexists. split; reflexivity.
Qed.
(** Rows with a null unit are lost, also from the point estimate. *)
Theorem C33_null_unit_refuted : exists t unit df a b, sums_and_counts t df /\ a <> b /\
  fast_point_estimate t [] unit df = Some [([], Fin a)] /\ compute_on t [] df = Some [([], Fin b)].
Proof.
  exists (TLeaf (agg_sum "x")), "u", [obs "1" "A" "" "" 1; obs "" "A" "" "" 2]. eexists. eexists. split; [|split; [|split; reflexivity]].
  - exists "x". left. split; auto. repeat constructor; discriminate.
  - cbn. lra.
Qed.

(** ** C34 *)
(** With operation levels: (split k, unit x, slice g) is in the leave-one-out index iff x occurs in
    the split and g remains in the split without x. *)
Theorem C34_loo_slices : forall agg split_by unit op_levels slices df q, op_levels <> [] ->
  In q (List.map fst (loo_leaf (List.length split_by) slices agg (split_by ++ unit :: op_levels) df)) <->
  exists k x g, q = k ++ x :: g /\ occurs split_by unit k x slices /\
    exists y, y <> x /\ occurs (split_by ++ op_levels) unit (k ++ g) y df /\ List.length k = List.length split_by.
Proof.
  intros agg s u e sl df q He. unfold loo_leaf. rewrite map_map. cbn [fst]. rewrite map_id, loo_keys_In by assumption. split.
  - intros [k [x [y [g [r [-> [Hk [Hx [Hr [E1 [E2 [Hxy E3]]]]]]]]]]]]. exists k, x, g. split; auto. split.
    + apply bucket_keys in Hx as [q [Hq E]]. apply row_key_unit in E as [a [z [b [E [F1 [F2 F3]]]]]]. cbn in F3. injection F3 as <-.
      apply app_inj_tail in E as [-> ->]. exists q. auto.
    + exists y. split; auto. split; auto. exists r. rewrite row_key_app, E1, E3. auto.
  - intros [k [x [g [-> [Ho [y [Hy [Hg Hk]]]]]]]]. destruct Hg as [r [Hr [E E2]]]. rewrite row_key_app in E.
    destruct (row_key s r) as [a|] eqn:E1; [|discriminate]. destruct (row_key e r) as [b|] eqn:E3; [|discriminate]. injection E as E.
    apply app_len_inj in E as [-> ->]; [|apply row_key_length in E1; congruence].
    exists k, x, y, g, r. repeat split; auto. destruct Ho as [q [Hq [F1 F2]]]. apply bucket_keys. exists q. split; auto. now apply row_key_unit_mk.
Qed.
Print Assumptions C34_loo_slices.
(** Without: every unit of every split. *)
Theorem C34_loo_units : forall agg split_by unit slices df q,
  In q (List.map fst (loo_leaf (List.length split_by) slices agg (split_by ++ [unit]) df)) <->
  exists k x, q = k ++ [x] /\ occurs split_by unit k x slices.
Proof.
  intros agg s u sl df q. unfold loo_leaf. rewrite map_map. cbn [fst]. rewrite map_id, loo_keys_nil, bucket_keys. split.
  - intros [r [Hr E]]. apply row_key_unit in E as [a [y [b [-> [E1 [E2 E3]]]]]]. cbn in E3. injection E3 as <-. exists a, y. split; auto. exists r. auto.
  - intros [k [x [-> [r [Hr [E1 E2]]]]]]. exists r. split; auto. now apply row_key_unit_mk.
Qed.
(** The samples without precomputation: leaving out [x] keeps a split iff [x] occurs in it. *)
Theorem C34_samples : forall split_by unit df x k, List.length k = List.length split_by ->
  (occurs split_by unit k x df -> slice split_by k (loo_sample split_by unit df (Some x)) = without unit x (slice split_by k df)) /\
  (~ occurs split_by unit k x df -> split_by <> [] -> slice split_by k (loo_sample split_by unit df (Some x)) = []).
Proof. intros s u df x k Hk. split; intros; [now apply sample_here|now apply sample_not_here]. Qed.
Example C34_example : let fr := loo_leaf 1 ex_df (agg_sum "x") ["g"; "u"; "c"] ex_df in
  List.map fst fr = [["A"; "1"; "bar"]; ["A"; "1"; "foo"]; ["A"; "2"; "bar"]; ["A"; "2"; "foo"]; ["A"; "3"; "bar"]; ["A"; "3"; "foo"]].
Proof. reflexivity. Qed.

(** ** C35 *)
Theorem C35_stderr_formula : forall reps, (2 <= List.length reps)%nat ->
  jk_stderr (List.map Fin reps) = Fin (sqrt ((len reps - 1) / len reps * spread reps)).
Proof. exact jk_formula. Qed.
Print Assumptions C35_stderr_formula.
(** Missing replicates are ignored, and the order does not matter. *)
Theorem C35_missing_replicates : forall reps reps',
  Permutation (filter (fun x => negb (is_nan x)) reps) (filter (fun x => negb (is_nan x)) reps') -> jk_stderr reps = jk_stderr reps'.
Proof. exact jk_stderr_present. Qed.
Theorem C35_too_few : forall reps, (count_present reps < 2)%nat -> jk_stderr reps = NaN.
Proof. exact jk_too_few. Qed.
Theorem C35_zero : forall reps, (2 <= List.length reps)%nat ->
  (jk_stderr (List.map Fin reps) = Fin 0 <-> forall a b, In a reps -> In b reps -> a = b).
Proof. exact jk_zero. Qed.
(** Jackknife of a Mean with one row per unit: the standard error of the mean, s / sqrt n. *)
Theorem C35_mean : forall v unit df (a : drow -> R),
  NoDup (List.map (fun r => lab r unit) df) -> (forall r, In r df -> lab r unit <> None) ->
  (forall r, In r df -> val r v = Fin (a r)) -> (2 <= List.length df)%nat ->
  let l := List.map a df in
  let answer := Some [([] : list string, Fin (avg l), Fin (sqrt (spread l / (len l - 1) / len l)))] in
  jackknife_fast (TBinary xdiv (TLeaf (agg_sum v)) (TLeaf (agg_count v))) [] unit df = answer /\
  jackknife_direct (TLeaf (agg_mean v)) [] unit df = answer.
Proof. exact jk_mean_result. Qed.
Print Assumptions C35_mean.
Example C35_example : let df := [obs "1" "" "" "" 3; obs "2" "" "" "" 5] in
  NoDup (List.map (fun r => lab r "u") df) /\ (forall r, In r df -> lab r "u" <> None /\ exists a, val r "x" = Fin a) /\ (2 <= List.length df)%nat.
Proof.
  repeat split.
  - repeat constructor; simpl; intuition congruence.
  - destruct H as [<-|[<-|[]]]; discriminate.
  - destruct H as [<-|[<-|[]]]; eexists; reflexivity.
  - simpl. lia.
Qed.

(** ** C36 *)
Open Scope R_scope.
(** Centered and ordered, for Jackknife ([se] = jk_stderr) and Bootstrap ([se] = std_of). *)
Theorem C36_centered : forall ppf confidence point reps, (2 <= List.length reps)%nat -> 0 < confidence < 1 ->
  let dof := dof_of (List.map Fin reps) in symmetric_quantiles ppf dof ->
  forall se, se = jk_stderr (List.map Fin reps) \/ se = std_of (List.map Fin reps) ->
  exists lower upper, ci ppf confidence (Fin point) se dof = (Fin lower, Fin upper) /\
    lower <= point <= upper /\ point - lower = upper - point.
Proof.
  intros ppf c p reps H2 Hc dof [q [Hq [H0 Hm]]] se Hse.
  assert (exists e, se = Fin e /\ 0 <= e) as [e [-> He]].
  { destruct Hse as [->| ->].
    - rewrite jk_formula by assumption. eexists. split; [reflexivity|apply sqrt_pos].
    - unfold std_of. rewrite xvar_Fin by assumption. assert (1 < len reps) as H1 by (unfold len; apply (lt_INR 1); lia).
      rewrite L_Leaf.xsqrt_fin; [eexists; split; [reflexivity|apply sqrt_pos]|]. apply Rmult_le_pos; [apply spread_nonneg|]. left. apply Rinv_0_lt_compat. lra. }
  assert (0 < (1 + c) / 2 < 1) as Hp by lra. specialize (Hq _ Hp).
  rewrite (ci_formula ppf c p e dof _ Hq). eexists. eexists. split; [reflexivity|].
  assert (0 < q ((1 + c) / 2)) as Hz by (rewrite <- H0; apply Hm; lra). assert (0 <= e * q ((1 + c) / 2)) by (apply Rmult_le_pos; lra). lra.
Qed.
Print Assumptions C36_centered.
(** Higher confidence, wider interval. *)
Theorem C36_wider : forall ppf c c' point se dof lower upper lower' upper', symmetric_quantiles ppf dof -> 0 < c < c' -> c' < 1 -> 0 < se ->
  ci ppf c (Fin point) (Fin se) dof = (Fin lower, Fin upper) -> ci ppf c' (Fin point) (Fin se) dof = (Fin lower', Fin upper') ->
  lower' < lower /\ upper < upper'.
Proof.
  intros ppf c c' p se dof l h l' h' [q [Hq [H0 Hm]]] Hc Hc' Hse E E'.
  rewrite (ci_formula ppf c p se dof _ (Hq ((1 + c) / 2) ltac:(lra))) in E. rewrite (ci_formula ppf c' p se dof _ (Hq ((1 + c') / 2) ltac:(lra))) in E'.
  injection E as <- <-. injection E' as <- <-. assert (q ((1 + c) / 2) < q ((1 + c') / 2)) as H by (apply Hm; lra).
  apply (Rmult_lt_compat_l se) in H; auto. lra.
Qed.
(** A standard error or a quantile that is missing makes the bounds missing. *)
Theorem C36_missing : forall ppf c point se dof, se = NaN \/ ppf ((1 + c) / 2) dof = NaN -> ci ppf c point se dof = (NaN, NaN).
Proof.
  intros ppf c p se dof H. unfold ci, half_width. assert (xmul se (ppf ((1 + c) / 2) dof) = NaN) as -> by (destruct H as [->| ->]; [reflexivity|now destruct se]).
  now destruct p.
Qed.
(** One degree of freedom (Student's t is the Cauchy distribution). *)
Example C36_example : symmetric_quantiles (fun p dof => if Z.eqb dof 1 then Fin (tan (PI * (p - 1 / 2))) else NaN) 1 /\ dof_of (List.map Fin [3; 5]) = 1%Z.
Proof.
  split; [|reflexivity]. exists (fun p => tan (PI * (p - 1 / 2))). split; [|split].
  - reflexivity.
  - replace (PI * (1 / 2 - 1 / 2)) with 0 by field. apply tan_0.
  - intros p p' H1 H2 H3. pose proof PI_RGT_0. apply tan_increasing; nra.
Qed.
Close Scope R_scope.

(** ** C41 *)
(** Optimization changes nothing when there are two units, no null labels, and in every split the
    data without any one of its units still has data for every leaf. *)
Theorem C41_same_result_partial : forall t split_by unit df, slicewise_tree t -> no_slices_added t -> sums_and_counts t df ->
  has_labels (split_by ++ [unit] ++ op_columns t) df -> (2 <= List.length (units_of unit df))%nat ->
  (forall k x, occurs split_by unit k x df -> let rest := without unit x (slice split_by k df) in
     populated t [] rest /\ exists r, compute_on t [] rest = Some r) ->
  jackknife_fast t split_by unit df = jackknife_direct t split_by unit df.
Proof. intros t s u df H1 H2 H3 H4 H5 H6. now apply results_agree. Qed.
Print Assumptions C41_same_result_partial.
Example C41_example : let df := [obs "1" "A" "foo" "y" 10; obs "2" "A" "foo" "y" 20] in
  (2 <= List.length (units_of "u" df))%nat /\ has_labels (["g"] ++ ["u"] ++ op_columns ex_tree) df /\
  forall k x, occurs ["g"] "u" k x df -> let rest := without "u" x (slice ["g"] k df) in
     populated ex_tree [] rest /\ exists r, compute_on ex_tree [] rest = Some r.
Proof.
  split; [cbn; lia|]. split; [repeat constructor; intros col [<-|[<-|[<-|[]]]]; discriminate|].
  intros k x [r [[<-|[<-|[]]] [H1 H2]]]; injection H1 as <-; injection H2 as <-; (split; [split; discriminate|eexists; reflexivity]).
Qed.
(** One unit: an exception or a missing standard error. *)
Theorem C41_one_unit_refuted : exists t unit df v, jackknife_direct t [] unit df = None /\ jackknife_fast t [] unit df = Some [([], Fin v, NaN)].
Proof. exists (TLeaf (agg_sum "x")), "u", [obs "1" "" "" "" 5]. eexists. split; [reflexivity|]. cbn -[jk_stderr]. rewrite C35_too_few by (cbn; lia). reflexivity. Qed.
(** Only unit 1 has rows that pass the filter of the leaf: the leave-1-out replicate is 0 with
    optimization and missing without, and the standard errors differ. *)
Theorem C41_filter_refuted : exists t df a b, sums_and_counts t df /\ has_labels ["g"; "u"] df /\ (2 <= List.length (units_of "u" df))%nat /\
  jackknife_fast t ["g"] "u" df = Some [(["A"], Fin 5, Fin a)] /\ jackknife_direct t ["g"] "u" df = Some [(["A"], Fin 5, Fin b)] /\ a <> b.
Proof.
  exists (TWhere (fun r => match lab r "f" with Some "y" => true | _ => false end) (TLeaf (agg_sum "x"))),
    [obs "1" "A" "" "y" 5; obs "2" "A" "" "n" 7; obs "3" "A" "" "n" 9].
  eexists. eexists. split; [|split; [|split; [|split; [|split]]]].
  - exists "x". left. split; auto. repeat constructor; discriminate.
  - repeat constructor; intros c [<-|[<-|[]]]; discriminate.
  - cbn. lia.
  - cbn -[jk_stderr]. replace (5 + 0 + 0)%R with 5%R by ring.
    change [Fin (5 + - (5 + 0)); Fin (5 + - 0); Fin (5 + - 0)] with (List.map Fin [(5 + - (5 + 0))%R; (5 + - 0)%R; (5 + - 0)%R]).
    rewrite jk_formula by (cbn; lia). reflexivity.
  - cbn -[jk_stderr]. replace (5 + 0)%R with 5%R by ring. rewrite (C35_missing_replicates _ (List.map Fin [5%R; 5%R])) by reflexivity.
    rewrite jk_formula by (cbn; lia). reflexivity.
  - intros E. apply (f_equal Fin) in E. rewrite <- !jk_formula in E by (cbn; lia).
    assert (jk_stderr (List.map Fin [5%R; 5%R]) = Fin 0) as E0 by (apply C35_zero; [cbn; lia|intros a b [<-|[<-|[]]] [<-|[<-|[]]]; reflexivity]).
    rewrite E0 in E. pose proof (proj1 (C35_zero [(5 + - (5 + 0))%R; (5 + - 0)%R; (5 + - 0)%R] ltac:(cbn; lia)) E) as E1. specialize (E1 (5 + - (5 + 0))%R (5 + - 0)%R (or_introl eq_refl) (or_intror (or_introl eq_refl))). lra.
Qed.
Print Assumptions C41_filter_refuted.

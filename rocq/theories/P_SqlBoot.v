(** C70: a Bootstrap computed by the generated SQL and by pandas (one value column, without preaggregation).
    Both draw at random: for every outcome of the query there is an outcome of pandas with the same result, and for every
    outcome of pandas one of the query. *)
From Coq Require Import Reals List Bool String Arith ZArith Permutation Sorted Lia Lra.
From Verif Require Import M_Num M_Frame L_Frame M_Ops S_Ops M_Leaf M_Jackknife S_Jackknife M_Bootstrap M_BootSql L_BootSql M_SqlGlobal M_SqlLeaf S_SqlLeaf L_SqlLeaf L_SqlLeaf2 M_SqlOps S_SqlOps L_SqlOps7 L_SqlScope L_SqlSort M_SqlJackknife S_SqlJackknife L_SqlJack6 L_SqlJack7 M_SqlBoot S_SqlBoot L_SqlBoot2 L_SqlBoot3 L_SqlBoot4 P_SqlOps P_SqlJackknife P_SqlMixedJack.
From Verif Require L_Leaf L_Jackknife3 L_JackSE.
Import ListNotations.
Open Scope string_scope.
Open Scope list_scope.

(** Every sample of the query is one that pandas can draw: as many rows (or units) of each slice as the slice has, with
    replacement.  [order]: any order of the rows.  RAND() is in (0, 1] (see C53_rand_zero_refuted for 0). *)
Theorem C70_sample_is_a_draw : forall split_by unit rand i t t',
  Permutation t' t -> (forall j, 0 < rand i j <= 1)%R ->
  (forall r c, In r t -> In c split_by -> slab r c <> None) -> (forall u r, unit = Some u -> In r t -> slab r u <> None) ->
  exists ds, possible_draw (draw_sizes split_by unit (pandas_table t)) ds /\
    Permutation (pandas_table (boot_sample split_by unit rand i t')) (boot_psample split_by unit (pandas_table t) ds).
Proof. intros s unit rand i t t' H1 H2 H3 H4. now apply sample_is_possible. Qed.
Print Assumptions C70_sample_is_a_draw.
(** Every draw of pandas, for all samples at once, is the outcome of some random numbers of the query. *)
Theorem C70_every_draw_is_a_sample : forall split_by unit n (draws : nat -> list (list nat)) (order : nat -> stable -> stable) t,
  (forall i, Permutation (order i t) t) ->
  (forall r c, In r t -> In c split_by -> slab r c <> None) -> (forall u r, unit = Some u -> In r t -> slab r u <> None) ->
  (forall i, (1 <= i <= n)%nat -> possible_draw (draw_sizes split_by unit (pandas_table t)) (draws i)) ->
  exists rand, (forall i j, 0 < rand i j <= 1)%R /\ forall i, (1 <= i <= n)%nat ->
    Permutation (pandas_table (boot_sample split_by unit rand i (order i t))) (boot_psample split_by unit (pandas_table t) (draws i)).
Proof.
  intros s unit n draws order t H1 H2 H3 H4.
  destruct (choose_nat (fun i (v : nat -> R) => (forall j, (0 < v j <= 1)%R) /\ forall rand, (forall j, rand i j = v j) -> Permutation (pandas_table (boot_sample s unit rand i (order i t))) (boot_psample s unit (pandas_table t) (draws i))) (fun _ => 1%R) (seq 1 n)) as [D HD].
  { intros i Hi. apply in_seq in Hi. apply (draw_is_possible s unit i t (order i t) (H1 i) H2 H3). apply H4. lia. }
  exists (fun i => if in_dec Nat.eq_dec i (seq 1 n) then D i else fun _ => 1%R). split.
  - intros i j. destruct (in_dec Nat.eq_dec i (seq 1 n)) as [Hi|_]; [apply (HD i Hi)|lra].
  - intros i Hi. assert (In i (seq 1 n)) as Hi' by (apply in_seq; lia). apply (HD i Hi'). intros j. destruct (in_dec Nat.eq_dec i (seq 1 n)); [reflexivity|contradiction].
Qed.
Print Assumptions C70_every_draw_is_a_sample.

(** On data where the child agrees (C62) on the table and on every slice of every sample: for all random numbers there are
    draws with which pandas gives the same index, point estimates, standard errors, and bounds (for any quantile function). *)
Theorem C70_query_as_pandas : forall parse srt psort rand order where_ unit n m split_by t0,
  let t := filter (spass parse where_) t0 in
  let index := split_by ++ extra_idx m in
  let sample i := boot_sample split_by unit rand i (order i t) in
  db_sorts srt -> pandas_sorts psort ->
  (forall f, ~ In resample_idx (cond_labels (parse f))) ->
  supported_tree (split_by ++ [resample_idx]) m -> ~ In (boot_se_name (value_name m)) index ->
  (forall f r, In f where_ -> In r t0 -> same_verdict (parse f) r) ->
  (forall u r, unit = Some u -> In r t -> slab r u <> None) ->
  (1 <= n)%nat -> t <> [] -> (forall i, Permutation (order i t) t) -> (forall i j, 0 < rand i j <= 1)%R ->
  child_fits parse psort m split_by t ->
  (forall i k, (1 <= i <= n)%nat -> rows_in split_by k (sample i) <> [] ->
     child_fits parse psort m [] (rows_in split_by k (sample i)) /\ every_leaf_has_rows parse m (rows_in split_by k (sample i))) ->
  exists draws, (forall i, (1 <= i <= n)%nat -> possible_draw (draw_sizes split_by unit (pandas_table t)) (draws i)) /\
  exists result, bootstrap_pandas parse psort draws where_ unit n m split_by (pandas_table t0) = Some result /\
    jk_same_rows (boot_shown index (value_name m) (bootstrap_sql parse srt rand order where_ unit n m split_by t0)) result /\
    (~ In (dof_name (value_name m)) index -> forall ppf confidence,
       jk_same_bounds ppf confidence (boot_bounds ppf confidence index (value_name m) (bootstrap_sql parse srt rand order where_ unit n m split_by t0)) result).
Proof.
  intros parse srt psort rand order where_ unit n m s t0 t index sample H1 H2 H3 H4 H5 H6 H7 H8 H9 H10 H11 H12 H13.
  pose proof (split_labels parse psort where_ m s t0 H12) as Hlab.
  destruct (choose_nat (fun i ds => possible_draw (draw_sizes s unit (pandas_table t)) ds /\ Permutation (pandas_table (sample i)) (boot_psample s unit (pandas_table t) ds)) [] (seq 1 n)) as [draws HD].
  { intros i _. now apply C70_sample_is_a_draw. }
  assert (forall i, (1 <= i <= n)%nat -> In i (seq 1 n)) as Hseq by (intros i Hi; apply in_seq; lia).
  exists draws. split; [intros i Hi; apply (HD i (Hseq i Hi))|].
  refine (same_boot parse srt psort rand order draws where_ unit n m s t0 H1 H2 H3 H4 H5 H6 _ _ H10 H12 H13 _); [lia| |intros i Hi; apply (HD i (Hseq i Hi))].
  intros i Hi E. destruct (HD i (Hseq i Hi)) as [D1 D2]. fold t in E. fold (sample i) in E. rewrite E in D2. apply Permutation_nil in D2. revert D2.
  apply draw_nonempty; [|intros r c Hr; apply in_map_iff in Hr as (r' & <- & Hr); now apply Hlab|intros u r Eu Hr; apply in_map_iff in Hr as (r' & <- & Hr); now apply H7|exact D1].
  unfold pandas_table. intros E'. apply map_eq_nil in E'. contradiction.
Qed.
Print Assumptions C70_query_as_pandas.

(** ... and for all draws of pandas there are random numbers with which the query gives the same. *)
Theorem C70_pandas_as_query : forall parse srt psort draws order where_ unit n m split_by t0,
  let t := filter (spass parse where_) t0 in
  let index := split_by ++ extra_idx m in
  db_sorts srt -> pandas_sorts psort ->
  (forall f, ~ In resample_idx (cond_labels (parse f))) ->
  supported_tree (split_by ++ [resample_idx]) m -> ~ In (boot_se_name (value_name m)) index ->
  (forall f r, In f where_ -> In r t0 -> same_verdict (parse f) r) ->
  (forall u r, unit = Some u -> In r t -> slab r u <> None) ->
  (1 <= n)%nat -> t <> [] -> (forall i, Permutation (order i t) t) ->
  (forall i, (1 <= i <= n)%nat -> possible_draw (draw_sizes split_by unit (pandas_table t)) (draws i)) ->
  child_fits parse psort m split_by t ->
  (forall i k T, (1 <= i <= n)%nat -> Permutation (pandas_table T) (boot_psample split_by unit (pandas_table t) (draws i)) -> rows_in split_by k T <> [] ->
     child_fits parse psort m [] (rows_in split_by k T) /\ every_leaf_has_rows parse m (rows_in split_by k T)) ->
  exists rand, (forall i j, 0 < rand i j <= 1)%R /\
  exists result, bootstrap_pandas parse psort draws where_ unit n m split_by (pandas_table t0) = Some result /\
    jk_same_rows (boot_shown index (value_name m) (bootstrap_sql parse srt rand order where_ unit n m split_by t0)) result /\
    (~ In (dof_name (value_name m)) index -> forall ppf confidence,
       jk_same_bounds ppf confidence (boot_bounds ppf confidence index (value_name m) (bootstrap_sql parse srt rand order where_ unit n m split_by t0)) result).
Proof.
  intros parse srt psort draws order where_ unit n m s t0 t index H1 H2 H3 H4 H5 H6 H7 H8 H9 H10 H11 H12 H13.
  pose proof (split_labels parse psort where_ m s t0 H12) as Hlab.
  destruct (C70_every_draw_is_a_sample s unit n draws order t H10 Hlab H7 H11) as (rand & HR & HP). exists rand. split; [exact HR|].
  refine (same_boot parse srt psort rand order draws where_ unit n m s t0 H1 H2 H3 H4 H5 H6 _ _ H10 H12 _ HP); [lia| |].
  - intros i Hi E. specialize (HP i Hi). fold t in E. rewrite E in HP. apply Permutation_nil in HP. revert HP.
    apply draw_nonempty; [|intros r c Hr; apply in_map_iff in Hr as (r' & <- & Hr); now apply Hlab|intros u r Eu Hr; apply in_map_iff in Hr as (r' & <- & Hr); now apply H7|now apply H11].
    unfold pandas_table. intros E'. apply map_eq_nil in E'. contradiction.
  - intros i k Hi Hn. apply (H13 i k (boot_sample s unit rand i (order i t)) Hi); [now apply HP|exact Hn].
Qed.
Print Assumptions C70_pandas_as_query.

(** The standard error of both is the sample standard deviation of the replicates; nothing from fewer than two. *)
Theorem C70_se_formula : forall l, (2 <= List.length l)%nat ->
  stderr_sql false (List.map Some l) = Some (sqrt (spread l / (len l - 1))) /\ std_of (List.map Fin l) = Fin (sqrt (spread l / (len l - 1))).
Proof.
  intros l H. assert (std_of (List.map Fin l) = Fin (sqrt (spread l / (len l - 1)))) as E.
  { unfold std_of. rewrite L_JackSE.xvar_Fin by assumption. rewrite L_Leaf.xsqrt_fin; [reflexivity|]. apply Rmult_le_pos; [apply L_JackSE.spread_nonneg|]. left. apply Rinv_0_lt_compat. unfold len. apply (le_INR 2) in H. cbn in H. lra. }
  split; [|exact E]. pose proof (stderr_fetch false (List.map Some l)) as E1. rewrite map_map in E1. cbn [fetch stderr_of] in E1. change (fun x : R => Fin x) with Fin in E1. rewrite E in E1.
  destruct (stderr_sql false (List.map Some l)); cbn [fetch] in E1; congruence.
Qed.

(** ** A case: Bootstrap("u", Sum("x")), split by "p", any number of replicates, all random numbers *)
Lemma sub_fits T : (forall r, In r T -> In r datau) -> T <> [] -> child_fits parse0 pd_sort sum_x [] T /\ every_leaf_has_rows parse0 sum_x T.
Proof.
  intros Hi Hn. split; [split; [|exact I]|].
  - intros b ab lc by' [E|[]]. injection E as <- <- <- <-. now apply leaf_any.
  - intros b ab lc by' l fs [E|[]] Hl. injection E as <- <- <- <-. destruct Hl as [E|[]]. injection E as <- <-. destruct T as [|r T]; [congruence|]. exists r. split; [now left|reflexivity].
Qed.
Example C70_case : forall rand n, (1 <= n)%nat -> (forall i j, 0 < rand i j <= 1)%R ->
  (forall f, ~ In resample_idx (cond_labels (parse0 f))) /\
  supported_tree (["p"] ++ [resample_idx]) sum_x /\ ~ In (boot_se_name (value_name sum_x)) (["p"] ++ extra_idx sum_x) /\ ~ In (dof_name (value_name sum_x)) (["p"] ++ extra_idx sum_x) /\
  (forall u r, Some "u" = Some u -> In r datau -> slab r u <> None) /\
  child_fits parse0 pd_sort sum_x ["p"] datau /\
  (forall i k, (1 <= i <= n)%nat -> rows_in ["p"] k (boot_sample ["p"] (Some "u") rand i datau) <> [] ->
     child_fits parse0 pd_sort sum_x [] (rows_in ["p"] k (boot_sample ["p"] (Some "u") rand i datau)) /\ every_leaf_has_rows parse0 sum_x (rows_in ["p"] k (boot_sample ["p"] (Some "u") rand i datau))).
Proof.
  intros rand n Hn HR. split; [intros f []|].
  split; [cbn; repeat split; try discriminate; try (intros [H|[H|[]]]; discriminate); repeat constructor; cbn; intuition discriminate|].
  split; [intros [H|[]]; discriminate|]. split; [intros [H|[]]; discriminate|].
  split; [intros u r _ Hr; now apply datau_cells|].
  split; [split; [|exact I]; intros b ab lc by' [E|[]]; injection E as <- <- <- <-; apply leaf_any; [auto|discriminate]|].
  intros i k _ Hk. apply sub_fits; [|exact Hk]. intros r Hr. apply filter_In in Hr as [Hr _].
  unfold boot_sample, bootstrap_by_unit in Hr. apply in_flat_map in Hr as (c & _ & Hr). now apply filter_In in Hr as [Hr _].
Qed.
(** With numbers: Bootstrap(None, Sum("x"), 2) of the rows 1 and 3; the first sample is 3, 3, the second 1, 1. *)
Definition two_rows : stable := [cellu "1" "a" 1; cellu "2" "a" 3].
Example C70_numbers : bootstrap_pandas parse0 pd_sort (fun i => if Nat.eqb i 1 then [[1; 1]] else [[0; 0]])%nat [] None 2 sum_x [] (pandas_table two_rows) = Some [([], Fin 4, Fin (sqrt 8), 1%Z)] /\
  possible_draw (draw_sizes [] None (pandas_table two_rows)) [[1; 1]]%nat /\
  boot_sample [] None (fun i _ => if Nat.eqb i 1 then 1 else /2)%R 1 two_rows = [cellu "2" "a" 3; cellu "2" "a" 3] /\
  boot_sample [] None (fun i _ => if Nat.eqb i 1 then 1 else /2)%R 2 two_rows = [cellu "1" "a" 1; cellu "1" "a" 1].
Proof.
  split; [|split; [|split]].
  - assert (bootstrap_pandas parse0 pd_sort (fun i => if Nat.eqb i 1 then [[1; 1]] else [[0; 0]])%nat [] None 2 sum_x [] (pandas_table two_rows) =
      Some [([], Fin (1 + (3 + 0)), std_of (List.map Fin [3 + (3 + 0); 1 + (1 + 0)])%R, 1%Z)]) as -> by (lazy -[Rplus Rminus Rmult Rdiv Rinv Ropp IZR Reqb Rltb std_of]; reflexivity).
    rewrite (proj2 (C70_se_formula [3 + (3 + 0); 1 + (1 + 0)]%R ltac:(cbn; lia))). unfold spread, S_Jackknife.avg, len. cbn [List.length List.map fold_right]. replace (INR 2) with 2%R by (cbn; lra). unfold Rsum; cbn [fold_right fold_left].
    match goal with |- Some [([], Fin ?a, Fin (sqrt ?b), _)] = _ => replace a with 4%R by lra; replace b with 8%R by (unfold Rsqr; field) end. reflexivity.
  - constructor; [|constructor]. split; [reflexivity|]. repeat constructor.
  - unfold boot_sample, bootstrap_by_row, joined, random_rows. cbn. assert (ceiling (1 * (1 + 1)) = 2%Z) as -> by (apply ceiling_iff; lra). reflexivity.
  - unfold boot_sample, bootstrap_by_row, joined, random_rows. cbn. assert (ceiling (/ 2 * (1 + 1)) = 1%Z) as -> by (apply ceiling_iff; lra). reflexivity.
Qed.

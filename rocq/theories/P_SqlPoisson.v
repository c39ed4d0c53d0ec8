(** C78: a PoissonBootstrap computed by the generated SQL and by pandas (one value column, without preaggregation).
    Both give every row, or every unit of every slice, a random weight in every sample and repeat the rows by it.  The query
    gets the weight from RAND(), or from a hash of the labels, the unit and the number of the sample: [fp] is any hash function. *)
From Coq Require Import Reals List Bool String Arith ZArith Permutation Sorted Lia Lra.
From Verif Require Import M_Num M_Frame L_Frame M_Ops S_Ops M_Leaf M_Jackknife S_Jackknife M_Bootstrap M_BootSql L_BootSql M_SqlText M_BootCache M_SqlGlobal M_SqlLeaf S_SqlLeaf L_SqlLeaf L_SqlLeaf2 M_SqlOps S_SqlOps L_SqlOps7 L_SqlScope L_SqlSort M_SqlJackknife S_SqlJackknife L_SqlJack6 L_SqlJack7 M_SqlBoot S_SqlBoot L_SqlBoot2 L_SqlBoot3 L_SqlBoot4 M_SqlPoisson S_SqlPoisson L_SqlPoisson1 L_SqlPoisson2 P_SqlOps P_SqlJackknife P_SqlMixedJack P_SqlBoot.
From Verif Require L_Leaf L_Jackknife3 L_JackSE.
Import ListNotations.
Open Scope string_scope.
Open Scope list_scope.

(** Every sample of the query is one that pandas can draw, with weights up to 18. *)
Theorem C78_sample_is_a_draw : forall split_by unit rand fp i t,
  (forall r c, In r t -> In c split_by -> slab r c <> None) -> (forall u r, unit = Some u -> In r t -> slab r u <> None) ->
  exists ws, weights_up_to_18 (weight_count split_by unit (pandas_table t)) ws /\
    Permutation (pandas_table (poisson_sample split_by unit rand fp i t)) (poisson_psample split_by unit (pandas_table t) ws).
Proof. intros s unit rand fp i t H1 H2. now apply poisson_is_draw. Qed.
Print Assumptions C78_sample_is_a_draw.

(** Every draw of pandas with weights up to 18, for all samples at once, is the outcome of some random numbers, or of some hash
    function if the hashed texts of different units and samples differ. *)
Theorem C78_every_draw_is_a_sample : forall split_by unit n (weights : nat -> list nat) t,
  (forall r c, In r t -> In c split_by -> slab r c <> None) -> (forall u r, unit = Some u -> In r t -> slab r u <> None) ->
  (forall u, unit = Some u -> texts_differ n (group_keys (split_by ++ [u]) (pandas_table t))) ->
  (forall i, (1 <= i <= n)%nat -> weights_up_to_18 (weight_count split_by unit (pandas_table t)) (weights i)) ->
  exists rand fp, (forall i j, 0 < rand i j <= 1)%R /\ (forall x, 0 < fp x <= 1)%R /\ forall i, (1 <= i <= n)%nat ->
    Permutation (pandas_table (poisson_sample split_by unit rand fp i t)) (poisson_psample split_by unit (pandas_table t) (weights i)).
Proof.
  intros s unit n weights t H1 H2 H3 H4. exists (fun i j => number_for (nth j (weights i) 0%nat)).
  destruct unit as [u|].
  - exists (fp_for s u t n weights). split; [intros i j; apply number_bounds|]. split; [apply fp_for_bounds|]. intros i Hi.
    apply units_every_draw; auto.
  - exists (fun _ => 1%R). split; [intros i j; apply number_bounds|]. split; [intros; lra|]. intros i Hi. rewrite (rows_every_draw s t None H2 (fun _ => 1%R) n weights eq_refl H4 i Hi). reflexivity.
Qed.
Print Assumptions C78_every_draw_is_a_sample.

(** On data where the child agrees (C62) on the table and on every slice of every sample, and no sample is empty: for all random
    numbers and hash functions there are weights with which pandas gives the same index, point estimates, standard errors and bounds. *)
Theorem C78_query_as_pandas : forall parse srt psort rand fp where_ unit n m split_by t0,
  let t := filter (spass parse where_) t0 in
  let index := split_by ++ extra_idx m in
  let sample i := poisson_sample split_by unit rand fp i t in
  db_sorts srt -> pandas_sorts psort ->
  (forall f, ~ In resample_idx (cond_labels (parse f))) ->
  supported_tree (split_by ++ [resample_idx]) m -> ~ In (boot_se_name (value_name m)) index ->
  (forall f r, In f where_ -> In r t0 -> same_verdict (parse f) r) ->
  (forall u r, unit = Some u -> In r t -> slab r u <> None) ->
  (1 <= n)%nat -> (forall i, (1 <= i <= n)%nat -> sample i <> []) ->
  child_fits parse psort m split_by t ->
  (forall i k, (1 <= i <= n)%nat -> rows_in split_by k (sample i) <> [] ->
     child_fits parse psort m [] (rows_in split_by k (sample i)) /\ every_leaf_has_rows parse m (rows_in split_by k (sample i))) ->
  exists weights, (forall i, (1 <= i <= n)%nat -> weights_up_to_18 (weight_count split_by unit (pandas_table t)) (weights i)) /\
  exists result, poisson_pandas parse psort weights where_ unit n m split_by (pandas_table t0) = Some result /\
    jk_same_rows (boot_shown index (value_name m) (poisson_sql parse srt rand fp where_ unit n m split_by t0)) result /\
    (~ In (dof_name (value_name m)) index -> forall ppf confidence,
       jk_same_bounds ppf confidence (boot_bounds ppf confidence index (value_name m) (poisson_sql parse srt rand fp where_ unit n m split_by t0)) result).
Proof.
  intros parse srt psort rand fp where_ unit n m s t0 t index sample H1 H2 H3 H4 H5 H6 H7 H8 H9 H10 H11.
  pose proof (split_labels parse psort where_ m s t0 H10) as Hlab.
  destruct (choose_nat (fun i ws => weights_up_to_18 (weight_count s unit (pandas_table t)) ws /\ Permutation (pandas_table (sample i)) (poisson_psample s unit (pandas_table t) ws)) [] (seq 1 n)) as [weights HD].
  { intros i _. now apply C78_sample_is_a_draw. }
  assert (forall i, (1 <= i <= n)%nat -> In i (seq 1 n)) as Hseq by (intros i Hi; apply in_seq; lia).
  exists weights. split; [intros i Hi; apply (HD i (Hseq i Hi))|].
  refine (same_poisson parse srt psort rand fp weights where_ unit n m s t0 H1 H2 H3 H4 H5 H6 _ H9 H10 H11 _); [lia|intros i Hi; apply (HD i (Hseq i Hi))].
Qed.
Print Assumptions C78_query_as_pandas.

(** ... and for all weights up to 18 that pandas draws there are random numbers and a hash function with which the query gives the same. *)
Theorem C78_pandas_as_query : forall parse srt psort weights where_ unit n m split_by t0,
  let t := filter (spass parse where_) t0 in
  let index := split_by ++ extra_idx m in
  db_sorts srt -> pandas_sorts psort ->
  (forall f, ~ In resample_idx (cond_labels (parse f))) ->
  supported_tree (split_by ++ [resample_idx]) m -> ~ In (boot_se_name (value_name m)) index ->
  (forall f r, In f where_ -> In r t0 -> same_verdict (parse f) r) ->
  (forall u r, unit = Some u -> In r t -> slab r u <> None) ->
  (forall u, unit = Some u -> texts_differ n (group_keys (split_by ++ [u]) (pandas_table t))) ->
  (1 <= n)%nat ->
  (forall i, (1 <= i <= n)%nat -> weights_up_to_18 (weight_count split_by unit (pandas_table t)) (weights i) /\
     poisson_psample split_by unit (pandas_table t) (weights i) <> []) ->
  child_fits parse psort m split_by t ->
  (forall i k T, (1 <= i <= n)%nat -> Permutation (pandas_table T) (poisson_psample split_by unit (pandas_table t) (weights i)) -> rows_in split_by k T <> [] ->
     child_fits parse psort m [] (rows_in split_by k T) /\ every_leaf_has_rows parse m (rows_in split_by k T)) ->
  exists rand fp, (forall i j, 0 < rand i j <= 1)%R /\ (forall x, 0 < fp x <= 1)%R /\
  exists result, poisson_pandas parse psort weights where_ unit n m split_by (pandas_table t0) = Some result /\
    jk_same_rows (boot_shown index (value_name m) (poisson_sql parse srt rand fp where_ unit n m split_by t0)) result /\
    (~ In (dof_name (value_name m)) index -> forall ppf confidence,
       jk_same_bounds ppf confidence (boot_bounds ppf confidence index (value_name m) (poisson_sql parse srt rand fp where_ unit n m split_by t0)) result).
Proof.
  intros parse srt psort weights where_ unit n m s t0 t index H1 H2 H3 H4 H5 H6 H7 H8 H9 H10 H11 H12.
  pose proof (split_labels parse psort where_ m s t0 H11) as Hlab.
  destruct (C78_every_draw_is_a_sample s unit n weights t Hlab H7 H8 (fun i Hi => proj1 (H10 i Hi))) as (rand & fp & HR & HF & HP). exists rand, fp. split; [exact HR|]. split; [exact HF|].
  refine (same_poisson parse srt psort rand fp weights where_ unit n m s t0 H1 H2 H3 H4 H5 H6 _ _ H11 _ HP); [lia| |].
  - intros i Hi E. specialize (HP i Hi). fold t in E. rewrite E in HP. apply Permutation_nil in HP. now apply (proj2 (H10 i Hi)).
  - intros i k Hi Hn. apply (H12 i k (poisson_sample s unit rand fp i t) Hi); [now apply HP|exact Hn].
Qed.
Print Assumptions C78_pandas_as_query.

(** ** A case: PoissonBootstrap("u", Sum("x")), split by "p" *)
Example C78_case : forall rand fp n, (forall x, 1/2 <= fp x <= 1)%R ->
  supported_tree (["p"] ++ [resample_idx]) sum_x /\ ~ In (boot_se_name (value_name sum_x)) (["p"] ++ extra_idx sum_x) /\ ~ In (dof_name (value_name sum_x)) (["p"] ++ extra_idx sum_x) /\
  (forall u r, Some "u" = Some u -> In r datau -> slab r u <> None) /\
  child_fits parse0 pd_sort sum_x ["p"] datau /\
  (forall i, (1 <= i <= n)%nat -> poisson_sample ["p"] (Some "u") rand fp i datau <> []) /\
  (forall i k, (1 <= i <= n)%nat -> rows_in ["p"] k (poisson_sample ["p"] (Some "u") rand fp i datau) <> [] ->
     child_fits parse0 pd_sort sum_x [] (rows_in ["p"] k (poisson_sample ["p"] (Some "u") rand fp i datau)) /\ every_leaf_has_rows parse0 sum_x (rows_in ["p"] k (poisson_sample ["p"] (Some "u") rand fp i datau))) /\
  texts_differ 3 (group_keys ["p"; "u"] (pandas_table datau)).
Proof.
  intros rand fp n HF. destruct (C70_case (fun _ _ => 1%R) 1 ltac:(lia) ltac:(intros; lra)) as (_ & A1 & A2 & A3 & A4 & A5 & _).
  split; [exact A1|]. split; [exact A2|]. split; [exact A3|]. split; [exact A4|]. split; [exact A5|]. split; [|split].
  - intros i _ E. unfold datau in E. cbn [poisson_sample flat_map] in E. apply app_eq_nil in E as [E _]. revert E.
    change (spart (["p"] ++ ["u"]) (cellu "1" "a" 1)) with (Some ["a"; "1"]). cbv beta iota zeta.
    assert (1 <= poisson_weight (hashed_uniform fp ["a"; "1"] i))%nat as Hw.
    { apply weight_at_least; [lia|]. exists cutoff0. split; [reflexivity|]. unfold hashed_uniform. unfold cutoff0. match goal with |- (_ < fp ?x)%R => pose proof (HF x) end. lra. }
    destruct (poisson_weight (hashed_uniform fp ["a"; "1"] i)); [lia|discriminate].
  - intros i k _ Hk. apply sub_fits; [|exact Hk]. intros r Hr. apply filter_In in Hr as [Hr _]. now apply poisson_incl in Hr.
  - assert (group_keys ["p"; "u"] (pandas_table datau) = [["a"; "1"]; ["a"; "2"]; ["b"; "1"]; ["b"; "2"]]) as -> by reflexivity.
    intros k k' i i' Hk Hk' Hi Hi'. assert (i = 1 \/ i = 2 \/ i = 3)%nat as Di by lia. assert (i' = 1 \/ i' = 2 \/ i' = 3)%nat as Di' by lia.
    clear Hi Hi'. cbn [In] in Hk, Hk'.
    repeat match goal with H : _ \/ _ |- _ => destruct H as [H|H] end; try contradiction; subst;
    intros E; vm_compute in E; first [discriminate E|split; reflexivity].
Qed.

(** ** What the hypotheses exclude *)
(** An empty sample: Sum of no rows is 0 in pandas; the query has no row for the sample and leaves the replicate out. *)
Definition one_row : stable := [cellu "1" "a" 1].
Theorem C78_empty_sample_refuted : exists rand fp weights,
  (forall i j, 0 < rand i j <= 1)%R /\
  (forall i, (1 <= i <= 3)%nat -> weights_up_to_18 (weight_count [] None (pandas_table one_row)) (weights i) /\
     pandas_table (poisson_sample [] None rand fp i one_row) = poisson_psample [] None (pandas_table one_row) (weights i)) /\
  poisson_pandas parse0 pd_sort weights [] None 3 sum_x [] (pandas_table one_row) = Some [([], Fin 1, Fin (sqrt (1/3)), 2%Z)] /\
  boot_shown [] (value_name sum_x) (poisson_sql parse0 db_sort rand fp [] None 3 sum_x [] one_row) = [([], Fin 1, Fin 0)].
Proof.
  set (w := fun i => if Nat.eqb i 1 then 0%nat else 1%nat). assert (forall i, (w i <= 18)%nat) as Hw by (intros i; unfold w; destruct (Nat.eqb i 1); lia).
  exists (fun i _ => number_for (w i)), (fun _ => 1%R), (fun i => [w i]).
  assert (forall i, poisson_sample [] None (fun i _ => number_for (w i)) (fun _ => 1%R) i one_row = repeat (cellu "1" "a" 1) (w i)) as HS.
  { intros i. unfold one_row. cbn [poisson_sample List.length seq List.map repeat_by]. rewrite number_weight by apply Hw. apply app_nil_r. }
  split; [intros; apply number_bounds|]. split; [|split].
  - intros i _. split; [split; [reflexivity|constructor; [apply Hw|constructor]]|]. rewrite HS. cbn [poisson_psample]. unfold poisson_rows, one_row, pandas_table. cbn [List.map repeat_by]. rewrite app_nil_r. apply map_repeat'.
  - assert (poisson_pandas parse0 pd_sort (fun i => [w i]) [] None 3 sum_x [] (pandas_table one_row) = Some [([], Fin (1 + 0), std_of (List.map Fin [0; 1 + 0; 1 + 0])%R, 2%Z)]) as -> by (lazy -[Rplus Rminus Rmult Rdiv Rinv Ropp IZR Reqb Rltb std_of]; reflexivity).
    rewrite (proj2 (C70_se_formula [0; 1 + 0; 1 + 0]%R ltac:(cbn; lia))). unfold spread, S_Jackknife.avg, len. cbn [List.length List.map fold_right]. replace (INR 3) with 3%R by (cbn; lra). unfold Rsum; cbn [fold_right fold_left].
    match goal with |- Some [([], Fin ?a, Fin (sqrt ?b), _)] = _ => replace b with (1/3)%R by (unfold Rsqr; field); replace a with 1%R by lra end. reflexivity.
  - assert (poisson_table [] None (fun i _ => number_for (w i)) (fun _ => 1%R) 3 one_row = List.map (relabel (Some (tag 2))) one_row ++ List.map (relabel (Some (tag 3))) one_row) as HT.
    { unfold poisson_table. cbn [seq flat_map]. rewrite !HS. reflexivity. }
    unfold poisson_sql. cbn [filter spass forallb]. change (filter (spass parse0 []) one_row) with one_row. rewrite HT. unfold with_se_of, se_rows_of. lazy -[Rplus Rminus Rmult Rdiv Rinv Ropp IZR Reqb Rltb stddev_samp Rsum].
    pose proof (proj1 (C70_se_formula [Rsum [1%R]; Rsum [1%R]]%R ltac:(cbn; lia))) as E. cbn [List.map stderr_sql] in E. rewrite E. cbv beta iota zeta.
    replace (spread [Rsum [1]; Rsum [1]] / (len [Rsum [1]; Rsum [1]] - 1))%R with 0%R by (unfold spread, S_Jackknife.avg, len, Rsum; cbn; field). rewrite sqrt_0.
    replace (Rsum [1%R]) with 1%R by (unfold Rsum; cbn; lra). reflexivity.
Qed.
Print Assumptions C78_empty_sample_refuted.

(** Units "1" and "11": the text of "1" in sample 11 is that of "11" in sample 1, so that no hash function gives them different weights. *)
Definition ones : stable := [cellu "1" "a" 1; cellu "11" "a" 1].
Theorem C78_same_text_refuted : exists weights : nat -> list nat,
  (forall i, (1 <= i <= 11)%nat -> weights_up_to_18 (weight_count [] (Some "u") (pandas_table ones)) (weights i)) /\
  forall rand fp, ~ (forall i, (1 <= i <= 11)%nat ->
    Permutation (pandas_table (poisson_sample [] (Some "u") rand fp i ones)) (poisson_psample [] (Some "u") (pandas_table ones) (weights i))).
Proof.
  exists (fun i => if Nat.eqb i 1 then [1; 0]%nat else [1; 1]%nat). split.
  - intros i _. split; [destruct (Nat.eqb i 1); reflexivity|]. destruct (Nat.eqb i 1); repeat constructor.
  - intros rand fp H. pose proof (H 1%nat ltac:(lia)) as A. pose proof (H 11%nat ltac:(lia)) as B. clear H.
    cbn [Nat.eqb poisson_psample] in A, B.
    assert (poisson_units [] "u" (pandas_table ones) [1; 0]%nat = [pandas_row (cellu "1" "a" 1)]) as EA by reflexivity.
    assert (poisson_units [] "u" (pandas_table ones) [1; 1]%nat = [pandas_row (cellu "1" "a" 1); pandas_row (cellu "11" "a" 1)]) as EB by reflexivity.
    rewrite EA in A. rewrite EB in B. clear EA EB.
    assert (forall i, poisson_sample [] (Some "u") rand fp i ones = repeat (cellu "1" "a" 1) (poisson_weight (hashed_uniform fp ["1"] i)) ++ repeat (cellu "11" "a" 1) (poisson_weight (hashed_uniform fp ["11"] i)) ++ []) as ES by reflexivity.
    rewrite ES in A, B. rewrite app_nil_r in A, B. unfold pandas_table in A, B. rewrite map_app, !map_repeat' in A, B.
    assert (hashed_uniform fp ["1"] 11 = hashed_uniform fp ["11"] 1) as EH by reflexivity.
    assert (poisson_weight (hashed_uniform fp ["11"] 1) = 0)%nat as Z.
    { destruct (poisson_weight (hashed_uniform fp ["11"] 1)) as [|w]; [reflexivity|]. exfalso. assert (In (pandas_row (cellu "11" "a" 1)) [pandas_row (cellu "1" "a" 1)]) as Hi.
      { eapply Permutation_in; [exact A|]. apply in_or_app. right. now left. }
      destruct Hi as [E|[]]. apply (f_equal (fun r => lab r "u")) in E. discriminate E. }
    rewrite EH, Z in B. cbn [repeat app] in B.
    assert (In (pandas_row (cellu "1" "a" 1)) (repeat (pandas_row (cellu "11" "a" 1)) (poisson_weight (hashed_uniform fp ["11"] 11)))) as Hi by (eapply Permutation_in; [symmetry; exact B|now left]).
    apply repeat_spec in Hi. apply (f_equal (fun r => lab r "u")) in Hi. discriminate Hi.
Qed.
Print Assumptions C78_same_text_refuted.


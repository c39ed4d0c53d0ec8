(** C71: a Bootstrap computed by compute_on_sql(mode='mixed', batch_size=b) and by compute_on (one value column). *)
From Coq Require Import Reals List Bool String Arith ZArith Permutation Lia Lra.
From Verif Require Import M_Num M_Frame L_Frame M_Ops S_Ops M_Leaf M_Jackknife S_Jackknife M_Bootstrap M_BootSql L_BootSql M_SqlGlobal M_SqlLeaf S_SqlLeaf L_SqlLeaf M_SqlOps S_SqlOps L_SqlSort M_SqlJackknife S_SqlJackknife L_SqlJack7 M_SqlMixed S_SqlMixed L_SqlMixed M_BootCache M_SqlMixedJack M_SqlBoot S_SqlBoot L_SqlBoot2 L_SqlBoot3 L_SqlBoot4 M_SqlMixedBoot S_SqlMixedBoot L_SqlMixedBoot1 L_SqlMixedBoot2 P_SqlOps P_SqlJackknife P_SqlMixed P_SqlMixedJack P_SqlBoot.
From Verif Require L_Leaf L_Jackknife3 L_JackSE.
Import ListNotations.
Open Scope string_scope.
Open Scope list_scope.

(** The child is one query (a leaf metric, or operations on one leaf metric): whatever the batch size, the number of replicates, the
    random numbers and the order of the rows in every query, there are draws of pandas with the same index, values, standard errors and
    degrees of freedom, in the same order. *)
Theorem C71_query_as_pandas_partial : forall parse dbo psort rand order where_ unit n batch_size m split_by t0,
  let t := filter (spass parse where_) t0 in
  let sample q j := let p := place (actual_size batch_size) j in boot_sample split_by unit (rand (fst p) q) (snd p) (order (fst p) q (snd p) t) in
  some_order dbo -> pandas_sorts psort ->
  (forall f, ~ In resample_idx (cond_labels (parse f))) ->
  supported_tree (split_by ++ [resample_idx]) m -> one_query m ->
  (forall f r, In f where_ -> In r t0 -> same_verdict (parse f) r) ->
  (forall u r, unit = Some u -> In r t -> slab r u <> None) ->
  (1 <= n)%nat -> t <> [] -> (forall k q i, Permutation (order k q i t) t) -> (forall k q i j, 0 < rand k q i j <= 1)%R ->
  child_fits parse psort m split_by t -> mixed_fits parse m [] split_by t ->
  (forall q j k, (1 <= j <= n)%nat -> rows_in split_by k (sample q j) <> [] ->
     child_fits parse psort m [] (rows_in split_by k (sample q j)) /\ every_leaf_has_rows parse m (rows_in split_by k (sample q j)) /\ mixed_fits parse m [] [] (rows_in split_by k (sample q j))) ->
  exists draws, (forall j, (1 <= j <= n)%nat -> possible_draw (draw_sizes split_by unit (pandas_table t)) (draws j)) /\
    bootstrap_mixed parse dbo psort rand order unit m split_by where_ batch_size n t0 = bootstrap_pandas parse psort draws where_ unit n m split_by (pandas_table t0).
Proof.
  intros parse dbo psort rand order where_ unit n bs m s t0 t sample H1 H2 H3 H4 Hone H6 H7 H8 H9 H10 H11 H12 Hmix H13.
  pose proof (split_labels parse psort where_ m s t0 H12) as Hlab.
  destruct (leaf_exists m [] (resample_idx :: s)) as [x0 Hx0].
  destruct (choose_nat (fun j ds => possible_draw (draw_sizes s unit (pandas_table t)) ds /\ Permutation (pandas_table (sample x0 j)) (boot_psample s unit (pandas_table t) ds)) [] (seq 1 n)) as [draws HD].
  { intros j _. now apply C70_sample_is_a_draw. }
  assert (forall j, (1 <= j <= n)%nat -> In j (seq 1 n)) as Hseq by (intros j Hj; apply in_seq; lia).
  exists draws. split; [intros j Hj; apply (HD j (Hseq j Hj))|].
  apply (same_mixed parse dbo psort rand order (fun k => rand k x0) (fun k => order k x0) draws where_ unit n bs m s t0); auto; [| lia| | |].
  - intros k x Hx. now rewrite (one_query_split m _ Hone x x0 Hx Hx0).
  - intros j Hj E. destruct (HD j (Hseq j Hj)) as [D1 D2]. unfold sample in D2. cbv zeta in D2. fold t in E. rewrite E in D2. apply Permutation_nil in D2. revert D2.
    apply draw_nonempty; [|intros r c Hr; apply in_map_iff in Hr as (r' & <- & Hr); now apply Hlab|intros u r Eu Hr; apply in_map_iff in Hr as (r' & <- & Hr); now apply H7|exact D1].
    unfold pandas_table. intros E'. apply map_eq_nil in E'. contradiction.
  - intros j k Hj Hn. exact (H13 x0 j k Hj Hn).
  - intros j Hj. exact (proj2 (HD j (Hseq j Hj))).
Qed.
Print Assumptions C71_query_as_pandas_partial.

(** For every child: every outcome of pandas is one of mixed mode. *)
Theorem C71_pandas_as_query : forall parse dbo psort draws order where_ unit n batch_size m split_by t0,
  let t := filter (spass parse where_) t0 in
  some_order dbo -> pandas_sorts psort ->
  (forall f, ~ In resample_idx (cond_labels (parse f))) ->
  supported_tree (split_by ++ [resample_idx]) m ->
  (forall f r, In f where_ -> In r t0 -> same_verdict (parse f) r) ->
  (forall u r, unit = Some u -> In r t -> slab r u <> None) ->
  (1 <= n)%nat -> t <> [] -> (forall k i, Permutation (order k i t) t) ->
  (forall j, (1 <= j <= n)%nat -> possible_draw (draw_sizes split_by unit (pandas_table t)) (draws j)) ->
  child_fits parse psort m split_by t -> mixed_fits parse m [] split_by t ->
  (forall j k T, (1 <= j <= n)%nat -> Permutation (pandas_table T) (boot_psample split_by unit (pandas_table t) (draws j)) -> rows_in split_by k T <> [] ->
     child_fits parse psort m [] (rows_in split_by k T) /\ every_leaf_has_rows parse m (rows_in split_by k T) /\ mixed_fits parse m [] [] (rows_in split_by k T)) ->
  exists rand, (forall k q i j, 0 < rand k q i j <= 1)%R /\
    bootstrap_mixed parse dbo psort rand (fun k _ => order k) unit m split_by where_ batch_size n t0 = bootstrap_pandas parse psort draws where_ unit n m split_by (pandas_table t0).
Proof.
  intros parse dbo psort draws order where_ unit n bs m s t0 t H1 H2 H3 H4 H6 H7 H8 H9 H10 H11 H12 Hmix H13.
  pose proof (split_labels parse psort where_ m s t0 H12) as Hlab.
  destruct (leaf_exists m [] (resample_idx :: s)) as [x0 Hx0].
  set (b := actual_size bs). assert (b <> O) as Hb by (unfold b, actual_size; destruct bs; discriminate).
  destruct (choose_nat (fun j (v : nat -> R) => (forall i, (0 < v i <= 1)%R) /\ forall rand, (forall i, rand (snd (place b j)) i = v i) ->
      Permutation (pandas_table (boot_sample s unit rand (snd (place b j)) (order (fst (place b j)) (snd (place b j)) t))) (boot_psample s unit (pandas_table t) (draws j))) (fun _ => 1%R) (seq 1 n)) as [D HD].
  { intros j Hj. apply in_seq in Hj. apply (draw_is_possible s unit _ t (order (fst (place b j)) (snd (place b j)) t) (H10 _ _) Hlab H7). apply H11. lia. }
  set (rand := fun (k : nat) (q : leaf_query) (i : nat) => if andb (Nat.leb 1 i) (Nat.leb i b) then (if in_dec Nat.eq_dec (k * b + i) (seq 1 n) then D (k * b + i)%nat else fun _ => 1%R) else fun _ => 1%R).
  assert (forall j, (1 <= j <= n)%nat -> forall i, rand (fst (place b j)) x0 (snd (place b j)) i = D j i) as HRD.
  { intros j Hj i. unfold rand. unfold place. cbn [fst snd]. pose proof (Nat.mod_upper_bound (j - 1) b Hb) as Hu. pose proof (Nat.div_mod (j - 1) b Hb) as Hd.
    replace (Nat.leb 1 ((j - 1) mod b + 1)) with true by (symmetry; apply Nat.leb_le; lia). replace (Nat.leb ((j - 1) mod b + 1) b) with true by (symmetry; apply Nat.leb_le; lia). cbn [andb].
    replace ((j - 1) / b * b + ((j - 1) mod b + 1))%nat with j by lia. destruct (in_dec Nat.eq_dec j (seq 1 n)) as [_|Hn]; [reflexivity|]. exfalso. apply Hn, in_seq. lia. }
  assert (forall j, (1 <= j <= n)%nat -> Permutation (pandas_table (boot_sample s unit (rand (fst (place b j)) x0) (snd (place b j)) (order (fst (place b j)) (snd (place b j)) t))) (boot_psample s unit (pandas_table t) (draws j))) as HP.
  { intros j Hj. apply (HD j); [apply in_seq; lia|]. intros i. now apply HRD. }
  exists rand. split.
  - intros k q i j. unfold rand. destruct (andb _ _); [|lra]. destruct (in_dec _ _ _) as [Hi|_]; [|lra]. apply (HD _ Hi).
  - apply (same_mixed parse dbo psort rand (fun k _ => order k) (fun k => rand k x0) order draws where_ unit n bs m s t0); auto; [lia| |].
    + intros j Hj E. specialize (HP j Hj). fold t in E. fold b in E. rewrite E in HP. apply Permutation_nil in HP. revert HP.
      apply draw_nonempty; [|intros r c Hr; apply in_map_iff in Hr as (r' & <- & Hr); now apply Hlab|intros u r Eu Hr; apply in_map_iff in Hr as (r' & <- & Hr); now apply H7|now apply H11].
      unfold pandas_table. intros E'. apply map_eq_nil in E'. contradiction.
    + intros j k Hj Hn. exact (H13 j k _ Hj (HP j Hj) Hn).
Qed.
Print Assumptions C71_pandas_as_query.

(** ** A case: Bootstrap("u", Sum("x")) split by "p", any number of replicates, any batch size, all random numbers *)
Example C71_case : forall (rand : nat -> leaf_query -> nat -> nat -> R) n batch_size, (1 <= n)%nat -> (forall k q i j, 0 < rand k q i j <= 1)%R ->
  let sample q j := let p := place (actual_size batch_size) j in boot_sample ["p"] (Some "u") (rand (fst p) q) (snd p) datau in
  (forall f, ~ In resample_idx (cond_labels (parse0 f))) /\
  supported_tree (["p"] ++ [resample_idx]) sum_x /\ one_query sum_x /\
  (forall u r, Some "u" = Some u -> In r datau -> slab r u <> None) /\
  child_fits parse0 pd_sort sum_x ["p"] datau /\ mixed_fits parse0 sum_x [] ["p"] datau /\
  (forall q j k, (1 <= j <= n)%nat -> rows_in ["p"] k (sample q j) <> [] ->
     child_fits parse0 pd_sort sum_x [] (rows_in ["p"] k (sample q j)) /\ every_leaf_has_rows parse0 sum_x (rows_in ["p"] k (sample q j)) /\ mixed_fits parse0 sum_x [] [] (rows_in ["p"] k (sample q j))).
Proof.
  intros rand n bs Hn HR sample. split; [intros f []|].
  split; [cbn; repeat split; try discriminate; try (intros [H|[H|[]]]; discriminate); repeat constructor; cbn; intuition discriminate|].
  split; [intros x y [<-|[]] [<-|[]]; reflexivity|].
  split; [intros u r _ Hr; now apply datau_cells|].
  split; [split; [|exact I]; intros b ab lc by' [E|[]]; injection E as <- <- <- <-; apply leaf_any; [auto|discriminate]|].
  split; [intros x [<-|[]]; apply (sum_mixed_fits parse0 "x" [] []); [discriminate|intros []|intros f []|intros r c Hr _; now apply datau_cells|intros r Hr; now apply datau_cells]|].
  intros q j k _ Hk.
  assert (forall r, In r (rows_in ["p"] k (sample q j)) -> In r datau) as Hi.
  { intros r Hr. apply filter_In in Hr as [Hr _]. unfold sample, boot_sample, bootstrap_by_unit in Hr. apply in_flat_map in Hr as (c & _ & Hr). now apply filter_In in Hr as [Hr _]. }
  destruct (sub_fits _ Hi Hk) as [A B]. split; [exact A|]. split; [exact B|].
  intros x [<-|[]]. apply (sum_mixed_fits_rows parse0 "x" [] []); [intros []|intros f []|intros r c _ []|intros r Hr; now apply datau_cells, Hi|].
  destruct (rows_in ["p"] k (sample q j)) as [|r0 T]; [congruence|]. exists r0. split; [now left|reflexivity].
Qed.

(** ** Where they differ *)
(** Ratio("x", "y") of a table whose columns x and y are the same: every resample has ratio 1, and so has every replicate of pandas, with
    standard error 0.  In mixed mode the numerator and the denominator are two queries with resamples of their own. *)
Definition ratio_xy := OLeaf (MOp OpDiv (MLeaf (Lf (LSum (Col "x"))) []) (MLeaf (Lf (LSum (Col "y"))) []) []) "ratio".
Definition equal_xy : stable := [cell2 (Some "a") (Some 1%R); cell2 (Some "a") (Some 2%R)].
Definition is_y (q : leaf_query) : bool := match q with (Lf (LSum (Col "y")), _, _, _) => true | _ => false end.
(** resample 1: the row 1 twice for x, the row 2 twice for y; resample 2 the other way round *)
Definition rand_xy (k : nat) (q : leaf_query) (i j : nat) : R := if Bool.eqb (Nat.eqb k 0) (is_y q) then 1%R else (/ 2)%R.
Lemma std_two a b : std_of [Fin a; Fin b] = Fin (sqrt ((a - b) * (a - b) / 2)).
Proof.
  change [Fin a; Fin b] with (List.map Fin [a; b]). rewrite (proj2 (C70_se_formula [a; b] ltac:(cbn; lia))). f_equal. f_equal.
  unfold spread, S_Jackknife.avg, len. cbn [List.length List.map fold_right]. replace (INR 2) with 2%R by (cbn; lra). unfold Rsum; cbn [fold_right fold_left]. unfold Rsqr. field.
Qed.
Lemma xdiv_fin a b : b <> 0%R -> xdiv (Fin a) (Fin b) = Fin (a / b).
Proof. intros H. unfold xdiv. destruct (Req_EM_T b 0); [contradiction|reflexivity]. Qed.
Lemma ratio_draw d : possible_draw (draw_sizes [] None (pandas_table equal_xy)) d ->
  op_compute parse0 pd_sort ratio_xy [] (boot_psample [] None (pandas_table equal_xy) d) = Some [([], Fin 1)].
Proof.
  intros H. unfold possible_draw in H. change (draw_sizes [] None (pandas_table equal_xy)) with [2%nat] in H. inversion H as [|x d1 l l' [HL HF] H0]; subst. inversion H0; subst. clear H H0.
  destruct d1 as [|a [|b [|c d1]]]; try discriminate. inversion HF as [|? ? Ha HF']; subst. inversion HF' as [|? ? Hb _]; subst. clear HF HF' HL.
  assert (forall x y, op_compute parse0 pd_sort ratio_xy [] (pandas_table [cell2 (Some "a") (Some x); cell2 (Some "a") (Some y)]) = Some [([], xdiv (Fin (x + (y + 0))) (Fin (x + (y + 0))))]) as E
    by (intros x y; lazy -[Rplus Rminus Rmult Rdiv Rinv Ropp IZR Reqb Rltb xdiv]; reflexivity).
  assert (forall x y, (0 < x -> 0 < y -> Some [([] : list string, xdiv (Fin (x + (y + 0))) (Fin (x + (y + 0))))] = Some [([], Fin 1)])%R) as E2 by (intros x y Hx Hy; rewrite xdiv_fin by lra; do 4 f_equal; field; lra).
  destruct a as [|[|a]]; [| |lia]; (destruct b as [|[|b]]; [| |lia]);
    match goal with |- op_compute _ _ _ _ ?T = _ => (change T with (pandas_table [cell2 (Some "a") (Some 1%R); cell2 (Some "a") (Some 1%R)]) || change T with (pandas_table [cell2 (Some "a") (Some 1%R); cell2 (Some "a") (Some 2%R)]) || change T with (pandas_table [cell2 (Some "a") (Some 2%R); cell2 (Some "a") (Some 1%R)]) || change T with (pandas_table [cell2 (Some "a") (Some 2%R); cell2 (Some "a") (Some 2%R)])) end;
    rewrite E; apply E2; lra.
Qed.
Lemma sample_first (rand : nat -> nat -> R) i : (forall j, rand i j = / 2)%R -> boot_sample [] None rand i equal_xy = [cell2 (Some "a") (Some 1%R); cell2 (Some "a") (Some 1%R)].
Proof.
  intros H. unfold boot_sample, bootstrap_by_row, joined, random_rows. cbn. rewrite !H. assert (ceiling (/ 2 * (1 + 1)) = 1%Z) as -> by (apply ceiling_iff; lra). reflexivity.
Qed.
Lemma sample_second (rand : nat -> nat -> R) i : (forall j, rand i j = 1)%R -> boot_sample [] None rand i equal_xy = [cell2 (Some "a") (Some 2%R); cell2 (Some "a") (Some 2%R)].
Proof.
  intros H. unfold boot_sample, bootstrap_by_row, joined, random_rows. cbn. rewrite !H. assert (ceiling (1 * (1 + 1)) = 2%Z) as -> by (apply ceiling_iff; lra). reflexivity.
Qed.
Lemma batch_xy x y k : (0 < y)%R ->
  boot_sample [] None (rand_xy k (Lf (LSum (Col "x")), [], [], [resample_idx])) 1 equal_xy = [cell2 (Some "a") (Some x); cell2 (Some "a") (Some x)] ->
  boot_sample [] None (rand_xy k (Lf (LSum (Col "y")), [], [], [resample_idx])) 1 equal_xy = [cell2 (Some "a") (Some y); cell2 (Some "a") (Some y)] ->
  boot_batch parse0 db_rev pd_sort rand_xy (fun _ _ _ t => t) None ratio_xy [] equal_xy k 1 = Some [[([], Fin ((x + (x + 0)) / (y + (y + 0))))]].
Proof.
  intros Hy Ex Ey. unfold boot_batch, ratio_xy. cbn [queries queries_metric option_map]. rewrite !(sub_nil parse0). unfold boot_table. cbn [seq flat_map]. cbn [app]. rewrite Ex, Ey, !app_nil_r.
  rewrite <- xdiv_fin by lra. lazy -[Rplus Rminus Rmult Rdiv Rinv Ropp IZR Reqb Rltb xdiv]. reflexivity.
Qed.
Theorem C71_separate_queries_refuted :
  (forall draws, (forall j, (1 <= j <= 2)%nat -> possible_draw (draw_sizes [] None (pandas_table equal_xy)) (draws j)) ->
     bootstrap_pandas parse0 pd_sort draws [] None 2 ratio_xy [] (pandas_table equal_xy) = Some [([], Fin 1, Fin 0, 1%Z)]) /\
  (forall k q i j, 0 < rand_xy k q i j <= 1)%R /\
  exists se, (0 < se)%R /\ bootstrap_mixed parse0 db_rev pd_sort rand_xy (fun _ _ _ t => t) None ratio_xy [] [] 1 2 equal_xy = Some [([], Fin 1, Fin se, 1%Z)].
Proof.
  assert (filter (pfilters parse0 []) (pandas_table equal_xy) = pandas_table equal_xy) as EF by reflexivity.
  split; [|split].
  - intros draws H. unfold bootstrap_pandas. cbv zeta. rewrite EF. cbn [seq List.map]. unfold boot_replicates. cbn [flat_map].
    rewrite (ratio_draw (draws 1%nat)), (ratio_draw (draws 2%nat)) by (apply H; lia).
    assert (op_compute parse0 pd_sort ratio_xy [] (pandas_table equal_xy) = Some [([], Fin 1)]) as ->.
    { apply (ratio_draw [[0; 1]]%nat). constructor; [|constructor]. split; [reflexivity|]. repeat constructor. }
    unfold direct_row. cbn [app List.map fst snd lookup]. rewrite (proj2 (key_eqb_eq [] []) eq_refl), std_two. replace ((1 - 1) * (1 - 1) / 2)%R with 0%R by lra. rewrite sqrt_0. reflexivity.
  - intros k q i j. unfold rand_xy. destruct (Bool.eqb _ _); lra.
  - exists (sqrt ((/ 2 - 2) * (/ 2 - 2) / 2)). split; [apply sqrt_lt_R0; lra|].
    unfold bootstrap_mixed. cbv zeta. change (sub_table parse0 [] equal_xy) with equal_xy. change (batches 2 1) with [1; 1]%nat. cbn [List.length seq combine List.map fst snd].
    rewrite (batch_xy 1 2 0), (batch_xy 2 1 1); try lra; try (apply sample_first; intros; reflexivity); try (apply sample_second; intros; reflexivity).
    assert (mixed parse0 db_rev pd_sort ratio_xy [] equal_xy = Some [([], xdiv (Fin (1 + (2 + 0))) (Fin (1 + (2 + 0))))]) as -> by (lazy -[Rplus Rminus Rmult Rdiv Rinv Ropp IZR Reqb Rltb xdiv]; reflexivity).
    rewrite xdiv_fin by lra. cbn [all_some option_map List.concat app List.map fst snd lookup]. rewrite (proj2 (key_eqb_eq [] []) eq_refl), std_two. replace ((1 + (2 + 0)) / (1 + (2 + 0)))%R with 1%R by field. replace ((1 + (1 + 0)) / (2 + (2 + 0)))%R with (/ 2)%R by field. replace ((2 + (2 + 0)) / (1 + (1 + 0)))%R with 2%R by field. reflexivity.
Qed.

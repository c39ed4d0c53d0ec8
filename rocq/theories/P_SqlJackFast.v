(** C65: a Jackknife whose leaves are Sum and Count (the default path: the leave-one-out samples are differences of
    precomputed sums) computed by the generated SQL and by pandas gives the same rows. *)
From Coq Require Import Reals List Bool String Arith ZArith Permutation Sorted Lia Lra.
From Verif Require Import M_Num M_Frame L_Frame M_Ops S_Ops M_Leaf M_Jackknife S_Jackknife L_Jackknife L_Jackknife2 L_Jackknife3 L_JackSE M_SqlGlobal M_SqlLeaf S_SqlLeaf L_SqlLeaf L_SqlLeaf2 M_SqlOps S_SqlOps L_SqlOps7 L_SqlBin L_SqlScope L_SqlSort M_SqlJackknife S_SqlJackknife L_SqlJack4 L_SqlJack6 L_SqlJack7 M_SqlJackFast S_SqlJackFast L_SqlLoo1 L_SqlLoo3 L_SqlLoo4 P_SqlOps P_SqlJackknife.
Import ListNotations.
Open Scope string_scope.
Open Scope list_scope.

(** The hypotheses are those of C65_same_rows, and: the leaves are Sum and Count; the columns of the tables are named apart; the unit
    is not a column of the metric; and if the code does not COALESCE (no leaf has a filter and no operation has index columns),
    every unit has a value in every group of its slice. *)
Theorem C65_fast_same_rows : forall parse srt psort pre loo where_ unit m split_by t0,
  let t := filter (spass parse where_) t0 in
  let index := split_by ++ extra_idx m in
  db_sorts srt -> pandas_sorts psort ->
  (forall f, ~ In resample_idx (cond_labels (parse f))) ->
  supported_tree (split_by ++ [resample_idx]) m -> ~ In (se_name (value_name m)) index ->
  (forall f r, In f where_ -> In r t0 -> same_verdict (parse f) r) ->
  (forall r, In r t -> slab r unit <> None) ->
  child_fits parse psort m split_by t ->
  (forall k x, unit_in split_by unit k x t -> left_out split_by unit k x t <> [] ->
     child_fits parse psort m [] (left_out split_by unit k x t) /\ every_leaf_has_rows parse m (left_out split_by unit k x t)) ->
  (exists k x, unit_in split_by unit k x t /\ left_out split_by unit k x t <> []) ->
  sums_only m -> own_columns pre m -> own_columns loo m ->
  (forall l fs, In (l, fs) (tree_leaves [] m) -> pre l fs <> "ct") ->
  ~ In unit (split_by ++ extra_split m) ->
  (needs_adjustment m = false -> complete_units split_by unit m t) ->
  exists result, jackknife_pandas parse psort where_ unit m split_by (pandas_table t0) = Some result /\
    jk_same_rows (jk_shown index (value_name m) (jackknife_sql_fast parse srt pre loo where_ unit m split_by t0)) result.
Proof.
  intros parse srt psort pre loo where_ unit m s t0 t index H1 H2 H3 H4 H5 H6 H7 H8 H9 H10 H11 H12 H13 H14 H15 H16.
  destruct (fast_same parse srt psort pre loo where_ unit m s t0 H1 H2 H3 H4 H5 H6 H7 H8 H9 H10 H11 H12 H13 H14 H15 H16) as (F & E & H & _). eauto.
Qed.
Print Assumptions C65_fast_same_rows.

Theorem C65_fast_same_bounds : forall parse srt psort pre loo where_ unit m split_by t0 ppf confidence,
  let t := filter (spass parse where_) t0 in
  let index := split_by ++ extra_idx m in
  db_sorts srt -> pandas_sorts psort ->
  (forall f, ~ In resample_idx (cond_labels (parse f))) ->
  supported_tree (split_by ++ [resample_idx]) m -> ~ In (se_name (value_name m)) index -> ~ In (dof_name (value_name m)) index ->
  (forall f r, In f where_ -> In r t0 -> same_verdict (parse f) r) ->
  (forall r, In r t -> slab r unit <> None) ->
  child_fits parse psort m split_by t ->
  (forall k x, unit_in split_by unit k x t -> left_out split_by unit k x t <> [] ->
     child_fits parse psort m [] (left_out split_by unit k x t) /\ every_leaf_has_rows parse m (left_out split_by unit k x t)) ->
  (exists k x, unit_in split_by unit k x t /\ left_out split_by unit k x t <> []) ->
  sums_only m -> own_columns pre m -> own_columns loo m ->
  (forall l fs, In (l, fs) (tree_leaves [] m) -> pre l fs <> "ct") ->
  ~ In unit (split_by ++ extra_split m) ->
  (needs_adjustment m = false -> complete_units split_by unit m t) ->
  exists result, jackknife_pandas parse psort where_ unit m split_by (pandas_table t0) = Some result /\
    jk_same_bounds ppf confidence (jk_bounds ppf confidence index (value_name m) (jackknife_sql_fast parse srt pre loo where_ unit m split_by t0)) result.
Proof.
  intros parse srt psort pre loo where_ unit m s t0 ppf cf t index H1 H2 H3 H4 H5 H5' H6 H7 H8 H9 H10 H11 H12 H13 H14 H15 H16.
  destruct (fast_same parse srt psort pre loo where_ unit m s t0 H1 H2 H3 H4 H5 H6 H7 H8 H9 H10 H11 H12 H13 H14 H15 H16) as (F & E & _ & H). exists F. split; [exact E|]. now apply H.
Qed.

(** The table LOO: one row for every group of every sample ([jk_general]: C65_samples says which rows a sample has), and no others; the column of a
    leaf is that leaf over the rows of the sample (or 0 instead of NULL). *)
Theorem C65_fast_samples : forall parse pre loo split_by extra unit t leaves adjust,
  let u := unit_slice parse ((split_by ++ extra) ++ [unit]) (preagg parse pre leaves ((split_by ++ extra) ++ [unit]) t) in
  let table := loo_table adjust pre loo leaves split_by (split_by ++ extra) unit u (total_count parse (split_by ++ extra) u) in
  let by_ := (split_by ++ [resample_idx]) ++ extra in
  let samples := jk_general split_by unit t in
  (forall f, ~ In resample_idx (cond_labels (parse f))) ->
  ~ In resample_idx (split_by ++ extra) -> t <> [] ->
  (forall r c, In r t -> In c ((split_by ++ extra) ++ [unit]) -> slab r c <> None) ->
  (forall l fs, In (l, fs) leaves -> exists c, l = Lf (LSum c) \/ l = Lf (LCount c)) ->
  (forall l fs l' fs', In (l, fs) leaves -> In (l', fs') leaves -> pre l fs = pre l' fs' -> (l, fs) = (l', fs')) ->
  (forall l fs l' fs', In (l, fs) leaves -> In (l', fs') leaves -> loo l fs = loo l' fs' -> (l, fs) = (l', fs')) ->
  (forall l fs, In (l, fs) leaves -> pre l fs <> "ct") ->
  ~ In unit (split_by ++ extra) ->
  NoDup (List.map (srow_key by_) table) /\
  (forall k, In k (List.map (srow_key by_) table) <-> In k (List.map (srow_key by_) samples)) /\
  (adjust = true -> forall row l fs, In row table -> In (l, fs) leaves ->
     snum row (loo l fs) = leaf_column parse l fs (M_SqlLeaf.group by_ (srow_key by_ row) samples) \/
     leaf_column parse l fs (M_SqlLeaf.group by_ (srow_key by_ row) samples) = None /\ snum row (loo l fs) = Some 0%R).
Proof.
  intros parse pre loo s e unit t lvs adjust u table by_ samples H1 H2 H3 H4 H5 H6 H7 H8 H9.
  destruct (LOO_fine parse pre loo s e unit t lvs H2 H3 H4 H9 adjust) as (N & A & B). split; [exact N|]. split.
  - intros k. split; intros H; apply in_map_iff in H as (r & <- & Hr).
    + destruct (B r Hr) as (r' & Hr' & E). fold by_ in E. rewrite E. now apply in_map.
    + destruct (A r Hr) as (g & Hg & E). fold by_ in E. rewrite <- E. now apply in_map.
  - intros Had row l fs Hr Hl. pose proof (LOO_carries parse pre loo s e unit t lvs H1 H2 H3 H4 H5 H6 H7 H8 H9 adjust ltac:(congruence) l fs Hl row Hr) as H.
    change (leaf_column parse l fs (M_SqlLeaf.group ((s ++ [resample_idx]) ++ e) (srow_key ((s ++ [resample_idx]) ++ e) row) (jk_general s unit t))) with (leaf_column parse l fs (M_SqlLeaf.group by_ (srow_key by_ row) samples)) in H.
    destruct (leaf_column parse l fs (M_SqlLeaf.group by_ (srow_key by_ row) samples)); [now left|]. destruct H as [H|H]; [now left|now right].
Qed.
Print Assumptions C65_fast_samples.

(** ** A case: Jackknife("u", Distribution("p", Sum("x"))): the other hypotheses are in C65_case *)
Ltac loo_value := unfold jackknife_sql_fast; cbn zeta;
  match goal with |- context[loo_table ?a ?b ?c ?d ?e ?f ?g ?h ?i] => let T := constr:(loo_table a b c d e f g h i) in
    let H := fresh in eassert (T = _) as H by (runj; compare; runj; reflexivity); rewrite H; clear H end.
Lemma se_pair_abs a b : se_of [Some a; Some b] = Some (Rabs (a - b) / 2)%R.
Proof.
  assert (forall a b, (b <= a)%R -> se_of [Some a; Some b] = Some ((a - b) / 2)%R /\ se_of [Some b; Some a] = Some ((a - b) / 2)%R) as H.
  { intros x y Hxy. pose proof (se_jk [Some x; Some y]) as E. pose proof (se_jk [Some y; Some x]) as E'. cbn [List.map fetch] in E, E'. rewrite (jk_stderr_present [Fin y; Fin x] [Fin x; Fin y]) in E' by constructor. rewrite se_two in E, E' by assumption.
    split; [destruct (se_of [Some x; Some y])|destruct (se_of [Some y; Some x])]; cbn [fetch] in *; congruence. }
  destruct (Rle_dec b a) as [L|L]; [rewrite Rabs_right by lra; now apply H|]. rewrite Rabs_left by lra. replace (- (a - b))%R with (b - a)%R by lra. apply H. lra.
Qed.
Ltac se_pair := match goal with |- context[se_of ?l] => match l with @cons _ (@Some _ ?a) (@cons _ (@Some _ ?b) _) => change (se_of l) with (se_of [Some a; Some b]); rewrite (se_pair_abs a b) end end.
Definition names (prefix : string) (l : leaf) (fs : list string) : string := (prefix ++ "sum(x)")%string.
Example C65_fast_case : 
  sums_only dist_x /\ own_columns (names "") dist_x /\ own_columns (names "loo ") dist_x /\
  (forall l fs, In (l, fs) (tree_leaves [] dist_x) -> names "" l fs <> "ct") /\
  ~ In "u" ([] ++ extra_split dist_x) /\ needs_adjustment dist_x = true /\
  jk_shown ["p"] (value_name dist_x) (jackknife_sql_fast parse0 db_sort (names "") (names "loo ") [] "u" dist_x [] datau) = [([Some "a"], Fin (3 / 8), Fin (1 / 8)); ([Some "b"], Fin (5 / 8), Fin (1 / 8))].
Proof. 
  split; [intros l fs [E|[]]; injection E as <- <-; eexists; now left|].
  split; [intros l fs l' fs' [E|[]] [E'|[]] _; congruence|].
  split; [intros l fs l' fs' [E|[]] [E'|[]] _; congruence|].
  split; [intros l fs _; discriminate|].
  split; [intros [E|[]]; discriminate|]. split; [reflexivity|].
  loo_value. runj. compare. runj. repeat se_pair. match goal with |- context[Rabs ?a] => rewrite (Rabs_right a) by lra end. match goal with |- context[Rabs ?a] => rewrite (Rabs_left a) by lra end. frames.
Qed.

(** ** Where they differ *)
(** No filter, no index columns: a unit without a value (x is NULL) has a NULL replicate, because NULL is subtracted from the total.
    The data: u = 1, 2, 3; x = 1, 2, NULL. *)
Definition celln (u : string) (x : option R) : srow := SRow (fun c => Some u) (fun _ => x).
Definition datanull : stable := [celln "1" (Some 1%R); celln "2" (Some 2%R); celln "3" None].
Theorem C65_fast_null_value_refuted : 
  jk_shown [] "sum(x)" (jackknife_sql_fast parse0 db_sort (names "") (names "loo ") [] "u" sum_x [] datanull) = [([], Fin 3, Fin (1 / 2))] /\
  exists se, jackknife_pandas parse0 pd_sort [] "u" sum_x [] (pandas_table datanull) = Some [([], Fin 3, Fin se, 2%Z)] /\ (1 < se)%R.
Proof.
  split.
  - loo_value. runj. rewrite C65_se_nulls. cbn [nonnull List.map]. se_pair. rewrite Rabs_right by lra. frames.
  - assert (jackknife_pandas parse0 pd_sort [] "u" sum_x [] (pandas_table datanull) =
      let l := List.map Fin [(2 + 0)%R; (1 + 0)%R; (1 + (2 + 0))%R] in Some [([], Fin (1 + (2 + 0)), jk_stderr l, dof_of l)]) as -> by (runj; reflexivity).
    cbn zeta. rewrite jk_formula by (cbn; lia). eexists. split; [frames|].
    unfold spread, S_Jackknife.avg, len. cbn [List.length List.map]. unfold Rsum. cbn [fold_right fold_left]. replace (INR 3) with 3%R by (cbn; lra).
    rewrite <- sqrt_1 at 1. apply sqrt_lt_1; lra.
Qed.
(** HHI("p", Sum("x")) has no index columns, so the code does not COALESCE either: without unit 2, which has no row in group b, the sum of
    group b becomes NULL.  SQL gives 0 as standard error, pandas 1/4. *)
Definition hhi_x := ODiv HHI ["p"] sum_x [].
Definition datah : stable := [cellu "1" "a" 1; cellu "1" "b" 1; cellu "2" "a" 2].
Theorem C65_fast_diversity_refuted : 
  jk_shown [] (value_name hhi_x) (jackknife_sql_fast parse0 db_sort (names "") (names "loo ") [] "u" hhi_x [] datah) = [([], Fin (5 / 8), Fin 0)] /\
  jackknife_pandas parse0 pd_sort [] "u" hhi_x [] (pandas_table datah) = Some [([], Fin (5 / 8), Fin (1 / 4), 1%Z)].
Proof.
  split.
  - loo_value. runj. compare. runj. se_pair. rewrite Rabs_right by lra. frames.
  - runj. compare. runj. rewrite se_two by lra. frames.
Qed.
Print Assumptions C65_fast_diversity_refuted.

# Formal model of google/meterstick in Rocq (Coq 8.16.1)

Everything lives in `rocq/theories/` (logical name `Verif`).  The code in /repo is never
run; the model is hand written from it, function by function, and every definition cites
the lines it models.

## 1. Layout

* `M_*.v`   model files: computable (or real-valued) Gallina functions, citing /repo lines.
* `S_*.v`   small independent specifications, not using the model's helpers.
* `L_*.v`   lemmas and proofs.
* `P_*.v`   property files: the theorems `Cnn_*`, `Print Assumptions` and the `Example`s showing
  that a concrete case meets the hypotheses.
* `tools/manifest.py` writes MANIFEST.json from the theorem names in `P_*.v` and
  `tools/notes.json`; `tools/assumptions.py --write` writes section 6 below.
* `seeded/LOG.jsonl`: wrong programs (edits of `M_*.v`) tried against the theorems.

Names: `Cnn_*` are the theorems of property Cnn.  `*_partial` = a proper part of the
property, what is missing is in the comment and in the note of MANIFEST.json.  `*_refuted` = the property
is false of the faithful model; the theorem exhibits a witness, i.e. a defect of the code
(or of the property as a user would naively state it).

## 2. Modelling choices

* Numbers.  Algebraic properties are about exact real arithmetic (stdlib `R`), rounding is
  not modelled except for C18, which is about binary64 and uses `Floats.SpecFloat` (pure
  `Z` computation, no primitive floats).  Properties about sharing, grouping, filtering and
  naming are proved for an arbitrary carrier and arbitrary leaf functions, so they
  hold for binary64 as well.
* Tables.  A row is a function from column names to cells, a frame is a list of rows; cells
  are missing or a number or a string.  `df.query`/SQL conditions are interpreted by an
  arbitrary function (an argument of the theorem).
* Python objects that the code mutates (cache, `cache_key`, `extra_split_by`, data frames
  returned from the cache, SQL columns) are explicit state; exceptions are values.
* Hash functions, random draws, t-quantiles, and other library behaviour are universally
  quantified arguments, restricted by stated hypotheses only.

## 3. Trusted base

* Coq's kernel (and `vm_compute`, which is part of it).
* The axioms printed by `Print Assumptions`, listed for each theorem in section 6.  Only axioms of
  the standard library occur: those of the classical reals
  (`ClassicalDedekindReals.sig_forall_dec`, `ClassicalDedekindReals.sig_not_dec`,
  `FunctionalExtensionality.functional_extensionality_dep`) and, for a few theorems that use real
  analysis (`Rpower`, `ln`, derivatives), `Classical_Prop.classic`.
* That the model is a faithful reading of the code.  In particular the behaviour of pandas,
  numpy and the SQL engines is modelled from their documentation (each `M_*.v` says which).
* Hypotheses about library functions are premises of theorems, never axioms: the t quantile is
  symmetric and increasing (C36), `np.linalg.solve` returns a solution (C48), `lam` bounds the
  quadratic form (C56, C59), Python's hash of strings/tuples has no collisions (positive part of C03).

## 4. Properties: what is modelled and how it is proved

Status and exact gaps: MANIFEST.json.

| id | model | proof |
|----|-------|-------|
| C01 | M_Metric (AST), M_Cache: cached interpreter with shared cache and `cache_key` state next to the uncached one | invariant: every cache entry is the value of every metric/context with that key; induction on trees |
| C02 | M_Metric: `get_fingerprint` of every class in the tree | structural induction; refuted for composites of Sum and Count |
| C03 | M_Hash: `CacheKey.__eq__/__hash__` over CPython hashes | positive under injective hash, refuted for real int hash (-1/-2) |
| C04, C05 | M_Cache, exceptions at every point | invariant over runs; induction over histories |
| C06 | M_Cache: `wrap_cache_key`/`replace_key` with retained `self.cache_key` | refuted (stale split_by/where); positive for fresh objects |
| C07 | M_Naming: heap of result frames, in-place `apply_name_tmpl` | exact names after any number of uses; refuted for three; positive for two |
| C08 | M_Cache: `MetricList.compute_children` with exceptions | induction on children |
| C09 | M_SqlText: `escape_alias` | induction on strings; exactly when it raises |
| C10, C11 | M_SqlColumns: `Column` heap, `Columns.add` | invariant over adds, termination measure |
| C12 | M_SqlColumns: `Datasources.add/merge`, `Sql.merge` | invariant over histories |
| C13 | M_SqlFilter: filter texts, lexer and precedence grammar | parser correctness; refuted for newline-separated OR |
| C14 | M_SqlGlobal: `get_global_filter`, local filters per leaf | induction on trees |
| C15 | M_SqlArith: token printer, grammar evaluator | induction on expressions |
| C16 | M_SqlLeaf: queries of leaf metrics and composites, SQL semantics with NULL; pandas side M_Leaf, M_Frame | per aggregate; induction on metric trees with filters |
| C17, C18 | M_Quantile: weighted quantile query, np.interp; `int(100*q)` in SpecFloat | list induction; exhaustive over the finite domain of k |
| C19-C21 | M_Leaf: native and expanded leaves | algebra over R, Cauchy-Schwarz |
| C22, C23, C46 | M_Slices (trees over frames), M_Cache (filters), M_SqlOps (operation trees) with S/L/P_SliceTree | induction on trees |
| C24-C27, C29-C32 | M_Ops, M_NxxFloat | list induction, Jensen (ln concave), sorting; binary64 counterexample |
| C28 | M_Adjust: CUPED/PrePost with one covariate, data frames and queries | least squares algebra |
| C33, C34, C41 | M_Jackknife | multiset algebra, induction on trees |
| C35, C36 | M_Jackknife (SE, CI) | algebra |
| C37, C38, C52 | M_Bootstrap: preaggregation | list algebra for every draw |
| C39, C42 | M_BootCache | invariant of the cache; counting |
| C40 | M_JackCache | invariant; witnesses for poisoning |
| C43 | M_Melt | list induction |
| C44, C45 | M_AuxCols | strings induction; injectivity of the printed name |
| C47 | M_Nth | sorted permutations |
| C48 | M_Models | normal equations, convexity, uniqueness |
| C49, C56 | M_ElasticNet | proximal maps, FISTA rate by potential function |
| C50, C60, C61 | M_Display | case analysis, list induction, string lemmas |
| C51 | M_CiBase: keys and base values of metrics with confidence level | invariant over computations |
| C53-C55 | M_BootSql | order/rank lemmas, alternating series for exp(-1) |
| C57-C59 | M_Logistic | derivatives, convexity, simulation per slice, FISTA rate |
| C62, C63 | M_SqlOps: nested queries of operations, diversity metrics and arithmetic on them, windows, joins, FULL JOIN; pandas side M_Ops, alignment of indexes | induction on trees with an invariant relating query rows and frame; sorts are oracles with any tie-breaking |
| C64 | M_SqlList: merging of the children's queries (Datasources.merge, Columns.add), chain of FULL JOINs, pd.concat | invariant of merging: each child's rows are its table's; joined rows are the union of keys, by induction on tables; uses C62's invariant |
| C65 | M_SqlJackknife: resampled table (join with the distinct units), child on the samples (M_SqlOps), standard errors, LEFT JOIN with the point estimates; pandas side: leave-one-out samples (M_Jackknife) and M_Ops ; M_SqlJackFast: preaggregated data, UnitSliceCount, TotalCount, LOO, trees over their columns | the group of a sample is the leave-one-out slice; C62's invariant on the resampled table from the parts; permutation of replicates; fast: LOO is the resampled table grouped, and a tree of Sum over a grouped table is the tree of Sum and Count over the table (L_SqlSummary, L_SqlLoo) |
| C66 | M_SqlMH: MHRaw (the query of a MetricList, M_SqlList), MHBase, LEFT JOIN, sums per group; pandas side: M_Ops.mh on the two children | the rows of MHRaw are the children (C64's induction); each row has at most one partner; the weighted terms agree one by one; sums per group up to order |
| C67 | M_SqlMixed: each leaf metric is a query on the table filtered by the filters above it (arbitrary row order, then a stable sort by the labels), the rest of the tree is M_Ops as in pandas | induction on the tree; a leaf's rows are a sorted permutation with distinct keys of the same rows (C16_whole_result), so the frames are equal |
| C68 | M_SqlMixedJack: SELECT DISTINCT of slices and units (arbitrary order), one query per unit or per batch (UNNEST joined with `!=`), each computed in mixed mode (C67), columns keyed by labels | every column's cell is the value of the child on the slice without the unit, or missing (one_value, batch_value); batches concatenate to the units; the standard error depends only on the multiset of present replicates |
| C69 | the pandas and SQL models of C62, C65, C66, M_Quantile, M_Nth; S_RowOrder: which leaf metrics are functions of the bag of rows | group keys are sorted, so equal for permuted data; each aggregate is invariant under permutation (leaf_perm, sagg_perm); induction over the tree (op_perm); Jackknife: the replicates are permuted and the standard error depends on their multiset |
| C70 | M_SqlBoot: the resampled table of M_BootSql for every replicate with its label, child on the samples, STDDEV_SAMP, LEFT JOIN (M_SqlJackknife); pandas: draws per slice (M_Bootstrap), child on each sample, std | the part of the tagged table with label i is the i-th sample (L_SqlBoot1, C62's invariant as for C65); a bag of n members of a slice is a draw and each draw is the outcome of some numbers (L_SqlBoot2/3); results depend on the bag of rows only (C69) |
| C71 | M_SqlMixedBoot: full batches and the remainder, each leaf query of a batch on its own resampled table (random numbers are an oracle per batch and query), combined in mixed mode (C67), unstacked by resample number, std over all columns | the part of a leaf table with label i is a bootstrap sample (C70); place j = (batch, number) is a bijection with 1..n; if all leaves are one query the trees agree with the child on one sample; else a counterexample (ratio of equal columns) |
| C72 | M_SqlBootPre: the table of the leaves per (split_by, operation columns, unit) (M_SqlJackFast), the tree over sums of its columns, M_SqlBoot on that table, sampling rows when there are no operation columns | a sample of the summed table is the sums of the raw rows of the drawn units (L_SqlBootPre1); without operation columns rows of the summed table and units are in bijection, so draws of one are draws of the other (L_SqlBootPre2); then C70 on the summed table |
| C73 | M_Precomp: trees with kinds of leaves, any equivalents for user metrics, the expansion, is_metric_precomputable with its recursion (fuel), and the decision, which is made again for the expansion | accepted after an expansion step implies accepted before; accepted fixed points of the expansion have only sums; induction on trees (L_Precomp) |
| C74 | M_OpList: frames with one column per metric (a row for every key of any metric, NaN where a metric has none), every operation on such frames as the code does it (vectorized arithmetic and group sums, dropna over all columns, xs on the whole frame, column by column with pd.concat), the list inside compute_on | a column of the list's frame is the frame of the metric alone with extra NaN rows (`pads`); every operation maps such pairs to such pairs: sums, nlargest and Nxx counts ignore NaN, sorted rows with values are unique without ties (L_OpList1-6); the order case is an iff |
| C75 | M_AdjustMany: the branches of adjust_value for more than one covariate on the aligned table of M_Adjust: every covariate centered by its split mean, LinearRegression per split and condition (PrePost, intercept_) or per split (CUPED, coef_) as an oracle `lm`, errors for missing or infinite values and no rows, then percent / absolute change. S_AdjustMany: predictions, least squares, independence, the interaction model, affine combinations. L_LeastSq: normal equations, all solutions predict the same, existence by orthogonalization. Proved by: the interaction model separates into the arms; CUPED's correction is a difference of mean predictions, hence the same for every solution and every spanning set; a null combination with a nonzero constant moves the intercept. |
| C76 | M_Objects: metric objects on a heap (label, children by reference), alloc, add_where, deep copy with memo, Operation.__call__, programs. S_Objects: the tree an object denotes, value semantics of programs. Proved by simulation: a childless operation is in no complete metric, so writing to it changes none; deep copies are isomorphic and made of new objects (induction with the set of objects being copied). False for add_where on the first result of a childless operation (refuted). |
| C77 | M_Objects: push_filters_to_leaf, get_equivalent_metric_tree, get_fully_expanded_equivalent_metric_tree, get_preaggregated_metric_tree, modify_descendants_for_jackknife_fast on the same heap. Proved by induction on the tree: old objects kept, result denotes the rewritten tree, all its objects are new. |
| C78 | M_SqlPoisson: weights from random numbers or hashes by the cutoffs of M_BootSql, rows repeated, child on the samples as in M_SqlBoot; pandas: M_Bootstrap's Poisson samples | the rows of the table are the rows of its units, so repeating rows by the unit's weight is repeating units (L_SqlPoisson2); each weight up to 18 has a number, a hash function is built by lookup when the texts differ; then as C70 (L_SqlPoisson1); counterexamples by evaluation |
| C79 | M_SqlPoissonPre: the table of sums of M_SqlBootPre, its sum_/count_ columns multiplied by the weight, rows of weight 0 dropped; weights from the hash, or by row when there are no operation columns | the multiplied rows sum the raw rows of the units repeated by their weights (L_SqlPoisson4); so the tree over sums on a sample is the tree on raw rows (child_push of C72), and the rest is C78 for given samples (L_SqlPoisson3/5) |
| C80 | M_SqlMHList: pandas is compute_mh of each ratio and concat of the results; SQL is MHRaw as the merged query of all ratios' metrics, each ratio's columns found by expression, MHBase, left join, one column per ratio | induction over the ratios: adding columns keeps fresh aliases different and every expression found again (L_SqlMHList1), so each alias is the value of its metric on the table (L_SqlMHList2), and each column is the column of C66 for the ratio alone (L_SqlMHList3) |
| C81 | M_SqlAdjust: pandas is M_Ops on child and covariate, concat, M_Adjust; SQL is the merged query of the two leaf queries (M_SqlMHList), the centered or theta step, the adjusted table as the query of a leaf metric, the comparison of C62 with its column renamed; each step reads the rows of the one before | the rows of the raw table are the aligned frame (L_SqlAdjust3); centering commutes with reading the table (2, 5); the adjusted column is mval of a composite leaf metric and equals M_Adjust's also for single rows and constant covariates (1); the join with theta gives every row its slice's theta (6); then C62 for the comparison (4) |
| C82 | M_SqlExtend: extend as the loop over texts, re.sub as cut at word boundaries and rename, add of M_SqlColumns; Sql.__init__'s nesting. S_SqlExtend: a table means its text with all earlier names replaced by their tables | texts are renamed one after the other, which is the simultaneous renaming when no new name is an old one or a word (todo_step); invariant over the loop: the meaning of each table so far, no forward references, where words come from (inv_step) |
| C83 | M_SqlChangeList: ChangeRaw as the merged table of the children, ChangeBase, the pairing of the last columns by position, JOIN USING, WHERE. M_OpList for pandas | every column of ChangeRaw has the rows of the metric alone (as C80), the join row by row is the join of each column (C62's change_step), the columns are put together by key and compared with C74's frame |
| C84 | M_SqlDistList: DistributionRaw as the merged table of the children, one SELECT with value / SUM(value) OVER (PARTITION BY split_by) per column. M_OpList for pandas | every column of DistributionRaw has the rows of the metric alone (as C80), the window of a column is C62's partition, the columns are put together by key and compared with C74's frame |
| C85 | M_RankCorr: Series.corr with spearman (np.corrcoef of average ranks) and kendall (tau-b from the numbers of discordant and tied pairs) | both are C / (sqrt A * sqrt B) for sums over rows and over pairs of rows with C^2 <= A B (Cauchy-Schwarz); ranks and signs depend on comparisons only; the join by the new index is the identity |

## 5. What is modelled and what is not, by file of /repo

* **metrics.py** modelled: `Metric.compute_on`, caching, `compute_slices`, `split_data`, `where`,
  `to_sql`, MetricList (pandas; names; SQL at the root), mixed mode of `compute_on_sql`, CompositeMetric (pandas; merged SQL and FULL JOIN), Ratio, SimpleMetric, Count,
  Sum, Dot, Mean, Max, Min, Nth, Quantile (one slice), Variance, StandardDeviation, CV, Correlation
  (all methods), Cov.  Not: Beam (`compute_on_beam`), `to_dot`/`visualize`, pickling,
  `compute_on_sql`'s engine dispatch, MetricList SQL below operations other than comparisons, Distribution and MH, the value columns of
  several metrics in one composite.
* **operations.py** modelled: Distribution, CumulativeDistribution, PercentChange, AbsoluteChange (over one metric and over a MetricList), MH (over one ratio and over a MetricList of ratios),
  CUPED and PrePostChange with one or more covariates, MetricWithCI (SE, CI, base values), Jackknife,
  Bootstrap, PoissonBootstrap (data frames and queries); SQL of Distribution, CumulativeDistribution,
  PercentChange, AbsoluteChange (over one metric, or a MetricList of leaf metrics), Distribution over the same, PrePostChange and CUPED (one covariate, leaf metrics), MH (over one ratio, or a MetricList of ratios of leaf metrics), Jackknife (both paths), Bootstrap (with preaggregation of Sum and Count leaves, and without), PoissonBootstrap (same two); mixed mode of these and of Jackknife and Bootstrap (2029-2044, 2695-2740) with any batch size.  Multi-covariate PrePostChange and CUPED (pandas only; LinearRegression is an oracle, its choice among several solutions and rounding are not modelled).  Not:
  `LogTransform`-style helpers, display wrappers.
* **diversity.py** all four metrics (pandas and SQL).  **models.py** linear, ridge, lasso, elastic net, logistic in
  magic mode; sklearn itself is not modelled.
* **sql.py** aliases, Column arithmetic, Columns, Filters, Datasources, `Sql.merge`; the meaning of SELECT, GROUP BY, JOIN USING and
  windows (M_SqlOps), `Datasources.extend` and nested WITH clauses (M_SqlExtend); not `Join` rendering.
* **utils.py** fingerprints/keys, filters, melt/unmelt, equivalents, auxiliary columns,
  `adjust_slices_for_loo`, `apply_name_tmpl`; not the Beam/file helpers.
* **confidence_interval_display.py** MetricFormatter, pre-aggregation, wide table, control rows; not the
  dimension cells, headers, sorting by the user's keys, JavaScript.

## 6. Axioms of each theorem (generated)

<!-- assumptions -->
**no axioms (closed under the global context)** (121 theorems):

C01_cache_is_transparent_partial, C01_children_return_dataframe_refuted, C01_filtered_ratio_refuted, C01_hash_refuted, C01_split_again_refuted, C01_sum_times_count_refuted, C01_user_operators_refuted, C02_filtered_composite_refuted, C02_fingerprint_sound_partial, C02_sum_times_count_refuted, C03_equal_keys_partial, C03_minus_one_refuted, C04_nothing_left_behind, C05_after_keyed_call_refuted, C05_calls_are_independent_partial, C06_part_computed_later_refuted, C06_split_then_unsplit_refuted, C06_user_keys_partial, C07_at_most_twice_partial, C07_names_refuted, C07_other_name_refuted, C07_repeated_one_level, C07_repeated_several_levels, C07_sql_mixed_mode, C08_list_isolates_failures, C08_list_never_raises, C09_clean_unchanged, C09_idempotent, C09_no_leading_digit, C09_no_special_character, C09_raises_iff, C09_total_refuted, C10_add, C10_add_all, C10_without_alias_refuted, C11_alias_resolves_partial, C11_alias_resolves_refuted, C12_add, C12_merge, C12_suffixes_never_repeat, C13_literal_changed_refuted, C13_order_irrelevant, C13_pandas_query, C13_reading_is_unique, C13_sql_where_partial, C13_sql_where_refuted, C14_global_and_local_filters, C14_no_condition_twice, C14_rows_used, C18_offset_partial, C18_offset_refuted, C22_leaf_one_row_per_slice, C22_no_other_slices, C22_slices_independent_partial, C23_filter_is_prefilter_partial, C23_filter_order, C23_filters_are_a_conjunction, C23_filters_compose, C32_binary64_refuted, C34_samples, C39_bootstrap, C39_poisson, C39_reuse_is_right, C42_batches, C42_hashed_batches_refuted, C42_own_draws, C43_no_rows_refuted, C43_round_trip_partial, C43_sub_columns_refuted, C44_columns_are_kept, C44_prefix_is_fresh, C45_contents_partial, C45_nested_function_refuted, C45_number_refuted, C45_spaces_refuted, C45_square_refuted, C46_invalid_filter_refuted, C46_only_leaves_filtered, C46_push_filters_partial, C47_from_the_end_partial, C47_missing_key_refuted, C47_order_statistic, C47_other_direction, C47_out_of_range, C47_query_partial, C47_query_refuted, C47_slices, C47_unique, C51_one_instance_partial, C51_second_instance, C51_stale_base_refuted, C51_two_instances_refuted, C52_names_partial, C54_concatenation_refuted, C54_equal_widths_partial, C63_nested_diversity_refuted, C65_no_other_samples, C65_samples, C69_nth, C76_filter_frame, C76_filter_on_first_result_refuted, C76_filter_on_result, C76_later_statements, C76_own_name_refuted, C76_pipeline, C76_template_as_metric_refuted, C77_deepcopy, C77_equivalent_tree, C77_fully_expanded, C77_independent, C77_jackknife_fast, C77_preaggregated_tree, C77_push_filters, C82_base_table_refuted, C82_keeps, C82_meaning, C82_nested, C82_nested_from_refuted, C82_new_name_taken_refuted, C82_shared_text_refuted, C82_whole_words.

**`ClassicalDedekindReals.sig_forall_dec`** (6 theorems):

C19_expansion_ends, C19_only_sum_and_count, C26_absolute_change, C34_loo_slices, C34_loo_units, C40_shared_replicates_refuted.

**`ClassicalDedekindReals.sig_forall_dec`, `FunctionalExtensionality.functional_extensionality_dep`** (106 theorems):

C15_text_evaluates_to_value, C15_value_is_unique, C16_conditions_on_known_values, C16_negation_refuted, C16_positive_conditions, C17_interior_knot_refuted, C17_interpolation, C17_knots, C17_missing_weight_refuted, C17_points, C17_same_quantile_partial, C17_single_value_refuted, C19_mean, C19_variance, C20_variance_nonnegative, C22_emptied_slice_refuted, C22_missing_baseline_refuted, C22_top_k_refuted, C24_proportional, C24_same_index, C24_sums_to_one, C24_zero_total, C25_custom_order, C25_custom_order_labels, C25_incomplete_order_refuted, C25_sorted, C26_baseline_row_is_zero, C26_index, C26_no_baseline_in_slice, C26_percent_change, C26_raises_iff, C27_common_factor, C27_mantel_haenszel, C27_missing_numerator_refuted, C27_one_stratum, C27_raises_iff, C29_bounds, C29_definition, C29_scale_invariant, C31_all_contributors, C31_k_largest, C31_monotone, C31_no_better_choice, C32_least_number, C33_leave_one_out_partial, C33_null_unit_refuted, C33_point_estimate, C33_sum_and_count, C36_missing, C36_wider, C37_emptied_slice_refuted, C37_null_label_refuted, C37_preaggregation_partial, C37_unsplit, C37_without_filters, C38_poisson_preaggregation_partial, C38_weights_are_repetitions, C38_which_columns, C39_other_unit_refuted, C39_weights_as_units_refuted, C40_distinct_refuted, C40_null_unit_refuted, C40_replicates_partial, C40_totals_partial, C48_linear_regression_minimizes, C48_ridge_minimizes, C48_ridge_unique, C49_proximal_map, C49_zero_iff, C50_bad, C50_good, C50_missing, C50_neutral, C52_names_refuted, C53_by_row, C53_by_unit, C53_every_draw_is_possible, C53_null_unit_refuted, C53_rand_zero_refuted, C60_each_result_once, C60_missing_slice_refuted, C60_nothing_else, C60_repeated_result_refuted, C60_unlisted_experiment_refuted, C61_agreement, C61_filled_partial, C61_inconsistent_accepted_refuted, C61_warning, C62_sorts_exist, C69_quantile, C70_every_draw_is_a_sample, C70_sample_is_a_draw, C73_own_equivalent_refuted, C75_cuped_change, C75_cuped_same_span, C75_cuped_variance, C75_prepost_determined_refuted, C75_prepost_interaction_model, C75_prepost_is_regression, C75_prepost_same_span, C75_prepost_undetermined, C75_raises_iff, C75_regression_exists, C78_every_draw_is_a_sample, C78_same_text_refuted, C78_sample_is_a_draw.

**`ClassicalDedekindReals.sig_forall_dec`, `ClassicalDedekindReals.sig_not_dec`** (1 theorems):

C63_distribution_of_comparison_refuted.

**`ClassicalDedekindReals.sig_forall_dec`, `ClassicalDedekindReals.sig_not_dec`, `FunctionalExtensionality.functional_extensionality_dep`** (91 theorems):

C16_always_fits, C16_cov_refuted, C16_division_by_zero_refuted, C16_empty_sum_refuted, C16_leaf_without_rows_refuted, C16_null_label_refuted, C16_one_row_per_group, C16_same_value, C16_sum_fits, C16_whole_result, C19_correlation, C19_cov, C19_cov_aweights, C19_cov_both_weights, C19_cov_fweights, C19_cv, C19_ddof_too_large, C19_dot, C19_same_value, C19_standard_deviation, C19_weighted_correlation, C19_weighted_mean, C19_weighted_variance, C20_correlation_affine, C20_correlation_bounds, C20_cov_self_is_variance, C20_cov_symmetric_partial, C20_cov_symmetric_refuted, C20_standard_deviation_nonnegative, C20_weighted_correlation_affine, C20_weighted_correlation_bounds, C20_weighted_cov_self_refuted, C20_weighted_variance_nonnegative, C21_correlation_equivalent_refuted, C21_correlation_pairwise, C21_cov_pairwise_partial, C21_cov_pairwise_refuted, C21_mean_and_variance, C21_weighted_mean_refuted, C28_covariate_shift, C28_cuped_arm_shift_refuted, C28_cuped_change, C28_cuped_query, C28_prepost_arm_shift, C28_prepost_interaction_model, C28_prepost_is_regression, C28_prepost_query, C35_mean, C35_missing_replicates, C35_stderr_formula, C35_too_few, C35_zero, C36_centered, C41_filter_refuted, C41_one_unit_refuted, C41_same_result_partial, C48_normalized_linear_regression, C48_normalized_ridge, C55_cdf_is_poisson, C55_probabilities, C55_weight, C56_elastic_net_rate, C56_l1_ratio_zero_refuted, C56_lasso_converges, C56_normalized_elastic_net_rate, C56_tolerance_refuted, C57_hessian, C57_newton_system_regular, C57_stable_sigmoid, C58_fista_slices_alone, C58_newton_slices_alone, C58_slices_together_or_not, C65_fast_samples, C65_se_formula, C65_se_nulls, C65_se_too_few, C70_se_formula, C75_missing_refuted, C75_one_covariate, C85_agreement, C85_bounds, C85_defined, C85_increasing, C85_no_reset_refuted, C85_order_only, C85_pairwise, C85_reversed, C85_row_order, C85_slices, C85_symmetric, C85_weighted.

**`ClassicalDedekindReals.sig_forall_dec`, `Classical_Prop.classic`, `FunctionalExtensionality.functional_extensionality_dep`** (3 theorems):

C73_built_in, C73_fast_path_iff, C73_first_check_refuted.

**`ClassicalDedekindReals.sig_forall_dec`, `ClassicalDedekindReals.sig_not_dec`, `Classical_Prop.classic`** (7 theorems):

C63_comparison_in_composite_refuted, C63_composite_in_composite_refuted, C63_well_formed, C64_two_names_scope_refuted, C64_well_formed, C66_well_formed, C80_shared_metrics.

**`ClassicalDedekindReals.sig_forall_dec`, `ClassicalDedekindReals.sig_not_dec`, `Classical_Prop.classic`, `FunctionalExtensionality.functional_extensionality_dep`** (88 theorems):

C22_operation_trees, C22_operation_trees_no_other_slices, C22_operations_add_no_slices, C22_slicewise_operations, C30_bounds, C30_definition, C30_scale_invariant, C57_gradient, C57_other_labels_refuted, C57_zero_gradient_minimizes, C59_logistic_fista_rate, C59_logistic_fista_rate_slices, C62_any_database, C62_diversity_in_composite_refuted, C62_incomplete_order_refuted, C62_missing_baseline_refuted, C62_null_label_refuted, C62_null_value_refuted, C62_same_rows, C62_ties_refuted, C62_zero_baseline_refuted, C64_same_name_refuted, C64_same_rows, C64_two_names_refuted, C65_fast_diversity_refuted, C65_fast_null_value_refuted, C65_fast_same_bounds, C65_fast_same_rows, C65_null_units_refuted, C65_one_unit_refuted, C65_same_bounds, C65_same_rows, C66_cancel_refuted, C66_no_baseline_refuted, C66_same_rows, C66_zero_baseline_refuted, C67_both_modes, C67_failing_child_refuted, C67_mixed_list, C67_mixed_mh, C67_mixed_mode, C67_sum_of_nulls_refuted, C68_any_batch, C68_both_modes, C68_failing_sample_refuted, C68_no_split, C68_null_unit_raises, C68_null_unit_refuted, C68_one_unit_refuted, C68_same, C69_jackknife, C69_mh, C69_pandas, C69_sql, C69_ties_refuted, C70_pandas_as_query, C70_query_as_pandas, C71_pandas_as_query, C71_query_as_pandas_partial, C71_separate_queries_refuted, C72_pandas_as_query, C72_query_as_pandas, C74_columns, C74_missing_slice_refuted, C74_no_baseline, C74_order_iff, C74_order_refuted, C74_own_result, C74_raises_iff, C78_empty_sample_refuted, C78_pandas_as_query, C78_query_as_pandas, C79_pandas_as_query, C79_query_as_pandas, C79_same_as_unpreaggregated, C80_each_alone, C80_one_raises, C80_same_rows, C80_two_names_refuted, C81_same_rows, C83_each_alone, C83_no_baseline, C83_same_rows, C83_two_names_refuted, C84_each_alone, C84_rows_kept, C84_same_rows, C84_two_names_refuted.
<!-- end assumptions -->

{
 "C01": {
  "note": "Proved for trees of leaves, composites, MetricLists, one-child Operations and sliced user metrics, with arbitrary pandas semantics, when composites of Sum(v) and Count(v) are unfiltered divisions, children_return_dataframe is left alone, keys are compared without hash collisions and no column is split by twice. Each restriction is necessary: one _refuted theorem per restriction. Jackknife/Bootstrap/MH are not nodes of this tree.",
  "status": "partial"
 },
 "C02": {
  "note": "Proved under the same restriction on Sum/Count composites; refuted without it (operator and own filter of the composite are dropped from the fingerprint).",
  "status": "partial"
 },
 "C03": {
  "note": "Refuted for every hash function (hash(-1) == hash(-2)); proved when strings/tuples/fractions do not collide and integers hash to themselves.",
  "status": "partial"
 },
 "C04": {
  "note": "For every tree, computation and key equality, whether the call returns or raises; also that no other object is touched.",
  "status": "proved"
 },
 "C05": {
  "note": "Proved for all histories of calls without cache_key; refuted when a call with a cache_key on an ancestor came before (C05_after_keyed_call_refuted).",
  "status": "partial"
 },
 "C06": {
  "note": "Proved for histories where no part of an earlier metric and no previously split metric is computed afterwards; refuted otherwise (the object keeps split_by and filters of the earlier call).",
  "status": "partial"
 },
 "C07": {
  "note": "False in general (C07_names_refuted): a cache hit renames the cached frame in place, so an operation used three times gets its template applied again. C07_repeated_one_level / _several_levels say exactly which names appear for any number of repetitions over a leaf; C07_at_most_twice_partial: right names for any trees where no operation is used more than twice (or is only used in long format); C07_other_name_refuted: names are not part of the cache key; C07_sql_mixed_mode: right for any number of uses in SQL mixed mode. Heap-of-frames model of column names only; MetricLists with name_tmpl/rename_columns and CompositeMetric are not in it.",
  "status": "partial"
 },
 "C08": {
  "note": "Same restrictions on trees as C01 for 'as computed alone'; that a MetricList never raises because of a child holds without any.",
  "status": "proved"
 },
 "C09": {
  "note": "Sanitizing itself proved for all strings; totality is refuted: the code raises IndexError when nothing but underscores is left, and C09_raises_iff says exactly when.",
  "status": "partial"
 },
 "C10": {
  "note": "For columns with a usable alias; without alias (auto_alias=False) duplicates occur, C10_without_alias_refuted.",
  "status": "proved"
 },
 "C11": {
  "note": "Refuted in general (defect: get_alias returns alias_raw without the suffix); proved when existing and added column have the same suffix.",
  "status": "partial"
 },
 "C12": {
  "note": "add and merge. Column objects of the merged query are assumed not to be shared with tables already present.",
  "status": "proved"
 },
 "C13": {
  "note": "Proved when every OR in a condition is surrounded by plain spaces (the only form the code parenthesises); refuted for an OR next to a newline and for '==' inside a string literal.",
  "status": "partial"
 },
 "C14": {
  "note": "Conditions are opaque strings (as in the code); a row passes WHERE and the leaf's IF iff it passes every filter on the path, for every tree of classes.",
  "status": "proved"
 },
 "C15": {
  "note": "Exact arithmetic; leaves are column/function texts that are a single operand (as the code produces by aggregating).",
  "status": "proved"
 },
 "C16": {
  "status": "partial",
  "note": "For every table with NULLs, every supported leaf metric (Sum, Count, Count distinct, Mean with or without weight, Dot, Max, Min, Variance, StandardDeviation, CV, Cov with any weights and ddof, Correlation) and every arithmetic expression of them with filters anywhere in the tree: SQL and pandas give the same value for each group in which every leaf has rows, provided no sum is over NULLs only and nothing but 0 is divided by 0 (the exact differences: pandas sum of nothing is 0 / inf, SQL NULL, refuted otherwise). Whole-result equality for a single leaf with non-null labels. Conditions without negation, or on known values, select the same rows; != and NOT on NULL do not (refuted). NULL labels and Cov with NULLs in different rows differ (refuted). The query is modelled after parsing (its text is C09-C15). Missing: infinities, Quantile and Nth (see C17, C18, C47) (MetricList and operations are C62-C68)."
 },
 "C17": {
  "note": "Proved when q is not the cumulative position of a distinct value other than the first or last (then the query counts two terms: C17_interior_knot_refuted, e.g. the median of 1,2,3 is 4), nor that of the only value (C17_single_value_refuted), and weights are present and positive (C17_missing_weight_refuted). C17_points, C17_knots, C17_interpolation spell out what the value is. Exact reals; one slice; np.interp modelled by its specification for increasing knots.",
  "status": "partial"
 },
 "C18": {
  "note": "int(100*q) computed in binary64 (SpecFloat) for every q = k/100: equal to k except for k = 29, 57, 58 (C18_offset_refuted). Other q are not percentiles. APPROX_QUANTILES itself is not modelled.",
  "status": "partial"
 },
 "C19": {
  "note": "Exact arithmetic (reals with NaN/inf). Native = expanded for every leaf where the property claims it; Variance/SD/CV without weights for ddof 0 or 1 and no infinities, Correlation on complete rows (with missing values it is refuted, see C21). Spearman correlation and binary64 rounding are not modelled.",
  "status": "proved"
 },
 "C20": {
  "note": "Nonnegativity, Correlation bounds and affine invariance proved. Symmetry of Cov holds when both columns have equally many present values; refuted otherwise (although Cov(x,y) and Cov(y,x) share a fingerprint). Cov(x,x)=Variance proved without weights, refuted with weights (aweights against frequency weights). Exact arithmetic only.",
  "status": "partial"
 },
 "C21": {
  "note": "Correlation, Mean and Variance use complete observations; Cov only if both columns are missing in the same rows; refuted in general, as are the weighted mean and the equality of Correlation with its equivalent in presence of missing values.",
  "status": "partial"
 },
 "C22": {
  "status": "partial",
  "note": "C22_operation_trees: every tree of Distribution, CumulativeDistribution (stable sort by any preorder, or an explicit order), PercentChange, AbsoluteChange, HHI, Entropy, TopK, Nxx and arithmetic (also between metrics with different index columns) over leaf metrics, with filters anywhere: the slice's rows in the whole result are the result on the slice alone, whatever the other slices hold, when the filters and operations leave rows in the slice at every node and the metric does not raise on it. C22_operation_trees_no_other_slices: rows only for slices that occur; C22_leaf_one_row_per_slice. C22_slices_independent_partial: the same for arbitrary leaf functions and operations that are slicewise. Each restriction is necessary: C22_emptied_slice_refuted, C22_missing_baseline_refuted, C22_top_k_refuted (a slice with total 0)."
 },
 "C23": {
  "note": "Same restrictions as C01 (through the cache); conjunction, order and composition of filters without restriction.",
  "status": "partial"
 },
 "C24": {
  "note": "Exact arithmetic; NaN, infinities and zero totals as in numpy.",
  "status": "proved"
 },
 "C25": {
  "note": "Proved for every way of sorting and for custom orders containing every label; an incomplete custom order loses the missing labels' share (C25_incomplete_order_refuted).",
  "status": "partial"
 },
 "C26": {
  "note": "Index key = split_by ++ condition columns ++ levels added by the child, any number of each. KeyError iff the baseline occurs nowhere.",
  "status": "proved"
 },
 "C27": {
  "note": "Proved for numerators and denominators without missing values; refuted when a numerator is missing but its denominator is not.",
  "status": "partial"
 },
 "C28": {
  "note": "Numbers (no missing values) in the split and a covariate that is not constant. The branch for several covariates (sklearn) is not modelled; uniqueness of the least squares line shows any correct solver agrees for one covariate. CUPED's one-arm shift is refuted by a counterexample.",
  "status": "proved"
 },
 "C29": {
  "note": "Exact arithmetic.",
  "status": "proved"
 },
 "C30": {
  "note": "Exact arithmetic; contributors with value 0 allowed.",
  "status": "proved"
 },
 "C31": {
  "note": "Exact arithmetic; k = 0 with split_by yields an empty frame and is excluded.",
  "status": "proved"
 },
 "C32": {
  "note": "Proved in exact arithmetic; refuted in binary64 (ten equal contributors, share 1: answer 11).",
  "status": "partial"
 },
 "C33": {
  "note": "Leaf level: Sum/Count (no infinities, exact arithmetic), any filters, any operation levels, no null units. Tree level: arithmetic, filters and slicewise operations, when the filters leave rows in the leave-one-out data. Null units are refuted (rows with a null unit are lost even from the point estimate). Which trees can_precompute accepts: C73.",
  "status": "partial"
 },
 "C34": {
  "note": "For the precomputed index (with and without operation levels) and for the samples used without precomputation. Index entries with a null label are left out of the model.",
  "status": "proved"
 },
 "C35": {
  "note": "Exact arithmetic; also an end-to-end theorem for Mean with one row per unit, with and without precomputation.",
  "status": "proved"
 },
 "C36": {
  "note": "scipy.stats.t.ppf is a parameter assumed to be the quantile function of a symmetric distribution (hypothesis of the theorem; instance shown for one degree of freedom).",
  "status": "proved"
 },
 "C37": {
  "note": "Proved for every metric tree over Sum/Count/Max/Min, every table and every draw when no inner filter empties a slice of the resample, column names do not collide and grouping columns have no null; unconditional without inner filters (C37_without_filters) and without split_by/operations (C37_unsplit). Refuted: an emptied slice gives 0 instead of no row; rows with a null operation label are dropped for sibling metrics.",
  "status": "partial"
 },
 "C38": {
  "note": "Weighting preaggregated rows equals repeating them, unconditionally (C38_weights_are_repetitions); the whole preaggregation under the conditions of C37.",
  "status": "partial"
 },
 "C39": {
  "note": "Proved for one Bootstrap or PoissonBootstrap, any draws, any right cache. Refuted for caches shared by two bootstraps with different units, or a Bootstrap and a PoissonBootstrap with integer units: the key has neither the unit column nor the kind.",
  "status": "partial"
 },
 "C40": {
  "note": "Proved: the totals that the Jackknife pre-computation stores under the sibling key are the true totals when no entry is a Count(distinct) split by split_by+[unit] and no unit is null. C40_replicates_partial: the replicates it stores are the leave-one-out results (when there are none for this unit yet). Refuted by concrete witnesses: a Count(distinct) sibling is poisoned; leave-one-out results are shared between Jackknifes whose filters sit at different places; null units lose rows. Missing: the statement for the whole cached tree rather than for the table of leaf entries.",
  "status": "partial"
 },
 "C41": {
  "note": "Same result proved with at least two units, no null labels and populated leave-one-out data; refuted for one unit (exception against NaN), for leaf filters satisfied by one unit only (different standard errors) and for null units (C33_null_unit_refuted).",
  "status": "partial"
 },
 "C42": {
  "note": "Counts and separate draws proved for every n and batch size. C42_hashed_batches_refuted proves that with PoissonBootstrap with a unit all full batches are identical resamples.",
  "status": "partial"
 },
 "C43": {
  "note": "Proved for result frames: at least one row and metric, distinct metric names, every metric with the same sub-columns, named split columns or the single row 0. Without rows unmelt raises (C43_no_rows_refuted); with different sub-columns per metric columns of missing values appear (C43_sub_columns_refuted). pd.concat, loc, droplevel, stack modelled by their documented behaviour on such frames.",
  "status": "partial"
 },
 "C44": {
  "note": "The while loop terminates (fuel proved sufficient) and returns the shortest fresh prefix; add_auxiliary_cols keeps every column for arbitrary expressions and operators.",
  "status": "proved"
 },
 "C45": {
  "note": "Proved for every sequence of requests whose user columns have plain names (no space, parenthesis, comma) that are not numerals, with functions outermost only; fails otherwise (C45_spaces_refuted, C45_number_refuted, C45_nested_function_refuted), and a product of a computed expression with itself raises (C45_square_refuted). Assumes df[c] returns the same cached object twice (pandas < 3 without copy-on-write) and str() of equal numbers is equal.",
  "status": "partial"
 },
 "C46": {
  "note": "Proved for trees without user metrics that slice the data and with valid filters; refuted for an invalid filter on a MetricList.",
  "status": "partial"
 },
 "C47": {
  "note": "The statement (other direction, out of range) is proved in full; 'counts from the other end' of the sorted order is proved when no sort key is missing (C47_from_the_end_partial) and fails otherwise because pandas puts missing keys last in both directions (C47_missing_key_refuted). Sorting is a relation (any sorted permutation), the key order arbitrary and total. C47_query_partial/_refuted: the SQL form, NULLs first when ascending.",
  "status": "partial"
 },
 "C48": {
  "note": "models.py ridge/OLS from sufficient statistics, with and without intercept and normalization; np.linalg.solve is a relation (any exact solution); no NULLs, exact reals.",
  "status": "proved"
 },
 "C49": {
  "note": "soft_thresholding over the reals; uniqueness and the zero set.",
  "status": "proved"
 },
 "C50": {
  "note": "On the HTML string that MetricFormatter returns, for every finite interval lo <= hi, both settings of flip_color; C50_missing for missing numbers. Infinite bounds are not modelled. C60 carries this to the whole table.",
  "status": "proved"
 },
 "C51": {
  "note": "False for equal but distinct instances (C51_two_instances_refuted); C51_second_instance says exactly when the second of two equal instances fails: split_by, outer filter, slice or user cache_key present. C51_one_instance_partial: any MetricList where equal CI metrics are one instance gives every use its own result and base. C51_stale_base_refuted: one instance called with a user's dict split by a, b, a gets the base values of b at the third call. The point estimates and intervals themselves are an arbitrary function of the key here.",
  "status": "partial"
 },
 "C52": {
  "note": "Proved for unfiltered metrics on ordinary column names; refuted with the filters 'a | b' and 'a & b'.",
  "status": "partial"
 },
 "C53": {
  "note": "Proved for random numbers in (0,1] and non-null units: every slice, draws uniform intervals, all draws possible. The two edge cases where the English claim fails (NULL units counted as candidates; RAND()=0) are proved as _refuted. GENERATE_ARRAY and column renaming not modelled.",
  "status": "proved"
 },
 "C54": {
  "note": "Proved for labels of equal widths; refuted in general (labels are concatenated without a separator).",
  "status": "partial"
 },
 "C55": {
  "note": "Cutoff literals read as exact decimals; exp(-1) bounded by its alternating series inside Coq.",
  "status": "proved"
 },
 "C56": {
  "note": "O(1/N^2) rate of the loop as coded, for any lam bounding the quadratic form (np.linalg.eigvals(...).max() is not computed in the model). Refuted: stopping by tol bounds no distance; l1_ratio=0 refused.",
  "status": "proved"
 },
 "C57": {
  "note": "Exact reals, no NULLs. Gradient and Hessian columns are derivatives of the loss; zero gradient iff minimizer; with l2 Newton's system is regular. Convergence of Newton itself is not claimed (the code has no line search). _refuted: any two labels pass the check, but the queries need 0/1.",
  "status": "proved"
 },
 "C58": {
  "note": "Newton and the proximal iteration, given the same initial guess per slice; the linear solver is an arbitrary function.",
  "status": "proved"
 },
 "C59": {
  "note": "Exact reals; lam is any bound of the quadratic form X'X/n (the code takes the largest eigenvalue).",
  "status": "proved"
 },
 "C60": {
  "note": "C60_each_result_once and C60_nothing_else for complete tables (no missing slice value, experiment or control id) with distinct (slice, experiment, metric); false without that: C60_missing_slice_refuted (a slice with a missing value is dropped by groupby); C60_repeated_result_refuted (two results for one cell are averaged) and C60_unlisted_experiment_refuted (an experiment not in the control dict disappears). Dimension cells, headers and descriptions are not modelled.",
  "status": "partial"
 },
 "C61": {
  "note": "False as stated: the tolerance 1**-5 is 1 (C61_inconsistent_accepted_refuted). C61_filled_partial and C61_warning say exactly when a value is filled and when the warning is printed; C61_agreement: right when all values are equal.",
  "status": "partial"
 },
 "C62": {
  "note": "C62_same_rows: for every tree of these operations and of arithmetic on them (CompositeMetric, also with constants and with operands of different index columns) over any C16 metric, with filters anywhere, every table on which the leaves agree and no operation divides a nonzero number by zero, misses its baseline, has a missing value or has ties, and for any sorting by database and pandas; C62_any_database: the result does not depend on the database's order. False otherwise: C62_zero_baseline_refuted, C62_missing_baseline_refuted, C62_null_label_refuted, C62_incomplete_order_refuted, C62_null_value_refuted, C62_ties_refuted, C62_diversity_in_composite_refuted (HHI times a Distribution is the square of one share). Missing: CUPED and Bootstrap (MH is C66, Jackknife C65); the distribution of a metric with its own index columns (C63); two cumulative distributions in one composite.",
  "status": "partial"
 },
 "C63": {
  "note": "C63_well_formed for all trees in which a distribution or diversity metric is over a metric without index columns of its own (a diversity metric over a leaf), the operands of arithmetic have the same index columns or the smaller one is a distribution or leaf, with distinct column names. False otherwise: C63_distribution_of_comparison_refuted (the index column is divided), C63_nested_diversity_refuted (HHI of HHI selects a column that is not there), C63_comparison_in_composite_refuted and C63_composite_in_composite_refuted (arithmetic on operations with different index columns).",
  "status": "partial"
 },
 "C64": {
  "status": "partial",
  "note": "C64_same_rows and C64_well_formed for lists whose children are trees of C62, have the same index columns and different names, and no two of which have the same query but for the name. The list is the root (rename_columns and name_tmpl None); two queries with an ordered window are joined rather than merged in the model. False otherwise: C64_two_names_refuted (the same metric under two names gives one column), C64_two_names_scope_refuted (next to a child that cannot be merged the query refers to a column that does not exist), C64_same_name_refuted (of two different metrics with the same name only the first is selected)."
 },
 "C65": {
  "status": "proved",
  "note": "C65_same_rows and C65_same_bounds: the query whose samples are made by a join (get_jackknife_data_general: enable_optimization=False, or a leaf that cannot be precomputed such as Max or Count distinct). C65_fast_same_rows and C65_fast_same_bounds: the default query, made of precomputed sums (get_jackknife_data_fast). Any child of C62; the Jackknife is the root, one value column; the column with the baseline that display() uses is not modelled; in the fast query the names of the columns are arbitrary functions of the leaf and its filters, different for different leaves. C65_samples, C65_no_other_samples, C65_fast_samples: the rows of the samples; C65_se_formula, C65_se_too_few, C65_se_nulls: the standard error of the query. False otherwise: C65_null_units_refuted (rows without unit are in no sample of the query, pandas has them in every sample), C65_one_unit_refuted (one unit: pandas raises, the query gives NULL), C65_fast_null_value_refuted (without filters and index columns the fast query subtracts NULL for a unit without values, and drops that replicate), C65_fast_diversity_refuted (the same for HHI, Entropy, TopK, Nxx when a unit has no row in some group)."
 },
 "C66": {
  "status": "proved",
  "note": "C66_same_rows: MH at the root, over one ratio (not a MetricList of ratios) of two C62 metrics with the same index columns and different names; the baseline must occur, denominators of a stratum must not cancel (a + b = 0 only if both are 0) and pandas must not give an infinity. C66_well_formed: the table MHRaw. False otherwise: C66_no_baseline_refuted (pandas raises, the query gives NULL), C66_cancel_refuted, C66_zero_baseline_refuted (pandas gives infinity, the query NULL). Together with C27 the query computes the textbook estimate."
 },
 "C67": {
  "status": "proved",
  "note": "C67_mixed_mode: any tree of Distribution, CumulativeDistribution, PercentChange, AbsoluteChange, HHI, Entropy, TopK, Nxx and CompositeMetric over C16 leaf metrics, no restriction on nesting, zero division or baselines; equality of the frames incl. order and exceptions. C67_mixed_mh: MH. C67_mixed_list: a MetricList at the root whose metrics do not raise. C67_both_modes: default and mixed mode agree under C62's conditions. Conditions on the data are those of C16 for each leaf metric. False otherwise: C67_failing_child_refuted (a metric that raises is left out by compute_on and raises in mixed mode), C67_sum_of_nulls_refuted."
 },
 "C68": {
  "status": "proved",
  "note": "C68_same: any child of C62, any batch size, any split_by, any order of the database; C68_any_batch: batch size and database do not matter; C68_both_modes: same rows as the default mode (C65). C68_no_split: without split_by and with batch size 1, any tree whatever (no condition on nesting, names or division), if the child raises on no sample. Conditions on the data are those of C16/C62 on the table and on every sample with rows; one value column; the Jackknife is the root. C68_null_unit_raises: with batches of two or more a NULL unit makes an invalid query. False otherwise: C68_failing_sample_refuted (a sample on which the child raises is skipped by compute_on and raises in mixed mode), C68_one_unit_refuted, C68_null_unit_refuted. Not modelled: the text of the unit in the condition (it is not escaped)."
 },
 "C69": {
  "status": "proved",
  "note": "compute_on (operation trees, MH, Jackknife, weighted quantiles): the same frame for every permutation of the rows, no other condition; SQL: same rows for any two databases under the conditions of C62 on one of the tables. Exact real arithmetic (floating-point sums may differ in the last digits). Nth: the set of values it may return is the same; with ties which one is returned depends on the sort (C69_ties_refuted shows that a metric that looks at the order is outside)."
 },
 "C70": {
  "status": "proved",
  "note": "C70_query_as_pandas: for all random numbers there are draws of df.sample with the same result; C70_pandas_as_query: for all draws there are random numbers; C70_sample_is_a_draw and C70_every_draw_is_a_sample: the samples alone, without conditions on the metric. Conditions as in C65: the child agrees (C62) on the table and on each slice of each sample. The path without preaggregation; Bootstrap is the root; one value column; the resampled table is computed once although the query may name it several times; RAND() = 0 and NULL units are excluded (C53_rand_zero_refuted, C53_null_unit_refuted). C70_se_formula: the standard error of both."
 },
 "C71": {
  "status": "partial",
  "note": "Every outcome of pandas is an outcome of mixed mode, for any child (C71_pandas_as_query). The converse holds when all leaf metrics of the child are the same query (C71_query_as_pandas_partial) and is false of the code otherwise: every leaf metric is a separate query which draws its own RAND(), so numerator and denominator of a ratio use different resamples; Ratio of two equal columns has standard error 0 in pandas and a positive one in mixed mode (C71_separate_queries_refuted). Bootstrap is the root, one value column; equal leaf metrics with the same filters in one batch share one query through the cache; Bootstrap's where is applied to the table first. unstack's error on duplicate labels is not modelled."
 },
 "C72": {
  "status": "proved",
  "note": "Both directions, for all random numbers and all draws, on data where the child agrees (C62) on the raw table and on the raw rows of the drawn units. The tree is expanded to Sum/Count leaves (C19); Max/Min leaves are not in this model; column names of the summed table are an arbitrary function injective on the tree's leaves (C52 says when the code's names are)."
 },
 "C73": {
  "status": "proved",
  "note": "For all trees and all user-defined equivalents, except a metric declared to be its own equivalent (C73_own_equivalent_refuted). C73_first_check_refuted: can_precompute() alone accepts too much (an equivalent that is a single metric is not looked at); the code asks again after the expansion, which repairs it. Metric comparison is equality of trees (fingerprints: C02); filters and names are left out."
 },
 "C74": {
  "status": "partial",
  "note": "True, and proved (C74_own_result), for every operation except: CumulativeDistribution with a custom order, where a row with a missing share of any metric is dropped for all of them and its share is lost from their running sums (C74_order_refuted; C74_order_iff says exactly when); ties when sorting by values (hypothesis). At keys where only other metrics have data the column has NaN, but HHI and Entropy have 0 and Nxx 1 (part of C74_own_result; C74_missing_slice_refuted). The operation raises iff it raises for every metric (C74_raises_iff); a metric without the baseline gets NaN instead of an exception (C74_no_baseline). Metrics of the list have the same index columns and different names."
 },
 "C75": {
  "status": "proved",
  "note": "sklearn's LinearRegression is an oracle, any function that returns a least squares solution (C75_regression_exists: there is one). C75_cuped_change needs no rank condition; C75_prepost_interaction_model needs both arms to determine the intercept, and C75_prepost_undetermined shows that without it another least squares solver gives another result (C75_prepost_determined_refuted: a covariate that is constant in each arm). C75_missing_refuted: a missing covariate raises with several covariates although it is skipped with one."
 },
 "C76": {
  "status": "partial",
  "note": "Heap of objects with sharing; deep copies with the memo of copy.deepcopy. C76_pipeline and C76_later_statements: all programs of constructors and pipes have value semantics. C76_filter_on_result: add_where on a result is local if the operation had been used before or was built with its child; refuted for the first result of a childless operation, because Operation.__call__ returns the operation itself (C76_filter_on_first_result_refuted). Also refuted: piping a template into itself raises; an operation keeps its own name. set_name and rename_columns are the same kind of write as add_where and left out; Model.__call__ (x, y attributes) is not modelled."
 },
 "C77": {
  "status": "proved",
  "note": "Object heap as for C76. Equivalents, preaggregated and leave-one-out labels are arbitrary functions (their meaning is C19, C52, C65). C77_independent: arbitrary later writes to the result leave all earlier metrics alone. The equivalent of a single leaf metric can be the object itself, so C77_equivalent_tree asks for a metric with children, which MetricWithCI always is."
 },
 "C78": {
  "status": "partial",
  "note": "C78_query_as_pandas and C78_pandas_as_query: the two directions; C78_sample_is_a_draw and C78_every_draw_is_a_sample: the samples alone. Conditions as in C70, and: no sample is empty (C78_empty_sample_refuted: the Sum of an empty sample is 0 in pandas, the query leaves the replicate out), the hashed texts differ (C78_same_text_refuted: units '1' and '11' with 11 replicates), weights up to 18 (the query knows no others, C55). Partial because of these: without them the English claim is false of the code. The path without preaggregation; PoissonBootstrap is the root; one value column."
 },
 "C79": {
  "status": "proved",
  "note": "C79_query_as_pandas (with the query's own weights, query_weights), C79_pandas_as_query, C79_same_as_unpreaggregated (the hash path, leaves below an operation with split columns). Conditions as in C72 and C78: samples not empty, texts differ where the hash is used, weights up to 18; the columns of the table of sums are called sum_... or count_..., the labels are not (a split column or unit of such a name would be multiplied too; not modelled). Sum and Count leaves; PoissonBootstrap is the root; one value column."
 },
 "C80": {
  "status": "proved",
  "note": "pandas side for ratios of any C62 metrics (each column is the MH of the ratio alone; raises exactly when one of them raises). SQL side for ratios of leaf metrics, where MHRaw is one merged query; ratios of operations make MHRaw a join, which is not modelled for a list. Two ratios with the same expressions under different names lose a column in SQL (C80_two_names_refuted) and are excluded by the statement."
 },
 "C81": {
  "status": "proved",
  "note": "Child and covariate are leaf metrics of C16 with different names; where one of them is missing for a combination of labels is excluded (adj_fits), as are slices without the baseline and adjusted baselines of 0 for PrePostChange."
 },
 "C82": {
  "status": "proved",
  "note": "Names are words and the texts are plain strings cut as \\b does. Proved under the exact no-capture conditions; each condition has a refuted theorem (chained renaming, base table of the same name, shared text, FROM not renamed along when the outer query already has NoNameTable)."
 },
 "C83": {
  "status": "proved",
  "note": "For any list of leaf metrics (C16) with different names: SQL rows = pandas over the list (C83_same_rows), every column = the comparison of that metric alone (C83_each_alone), no baseline row without include_base (C83_no_baseline). The same metric under two names loses a column (C83_two_names_refuted)."
 },
 "C84": {
  "status": "proved",
  "note": "For any list of leaf metrics (C16) with different names: SQL rows = pandas over the list (C84_same_rows), every column = the distribution of that metric alone (C84_each_alone), the rows are those of the children (C84_rows_kept). The same metric under two names loses a column (C84_two_names_refuted)."
 },
 "C85": {
  "status": "proved",
  "note": "Both rank methods on arbitrary rows: bounds (C85_bounds), exactly when NaN (C85_defined), symmetry of all three unweighted methods (C85_symmetric), invariance (C85_order_only, C85_increasing), reversal (C85_reversed), +-1 (C85_agreement), pairwise rows, row order, refusal of weights. scipy's clipping against rounding is left out; reals do not round. C85_slices: pandas joins a slice with the whole other column by the index, and reset_index makes that join pair every row with itself; C85_no_reset_refuted shows the wrong result without it."
 }
}
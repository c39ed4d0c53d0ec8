{"id": "C01", "title": "Caching is transparent to the numbers", "statement": "metric.compute_on(df, split_by) returns the same numbers as computing every sub-metric afresh: sharing one cache across the metric tree never changes a value.", "quantifier": "every metric tree of built-in metrics, every data frame, every split_by", "why_tests_cant": "the cache is shared by every node of an arbitrary tree; which entries collide depends on the whole set of sub-metrics, not on any one sample", "anchors": ["metrics.py:Metric._compute_with_caching_and_postprocessing", "metrics.py:Metric.wrap_cache_key", "utils.py:CacheKey"]}
{"id": "C02", "title": "Equal fingerprints mean equal results", "statement": "Two metrics with the same get_fingerprint() compute to the same numbers on the same data (as its docstring promises).", "quantifier": "every pair of metrics, every data frame and split_by", "why_tests_cant": "a statement about all pairs of metrics", "anchors": ["metrics.py:Metric.get_fingerprint", "metrics.py:CompositeMetric.get_fingerprint", "metrics.py:Ratio.get_fingerprint", "metrics.py:Dot.get_fingerprint"]}
{"id": "C03", "title": "Cache keys distinguish what they encode", "statement": "Two cache entries are the same entry only if metric fingerprint, user key, split_by, slice value, filters and extra info are all equal.", "quantifier": "every pair of cache keys, every string hash and tuple hash function", "why_tests_cant": "equality is decided by comparing hashes; tests only ever see a few keys", "anchors": ["utils.py:CacheKey.__eq__", "utils.py:CacheKey.__hash__"]}
{"id": "C04", "title": "A top-level compute_on leaves no state behind", "statement": "When compute_on without cache_key returns or raises, the cache is empty and no metric in the tree keeps a cache_key.", "quantifier": "every metric tree, every data frame, every point at which a sub-computation may raise", "why_tests_cant": "must hold for every crash point inside the computation", "anchors": ["metrics.py:Metric._compute_with_caching_and_postprocessing", "metrics.py:Metric.clean_up_cache"]}
{"id": "C05", "title": "Top-level calls do not influence each other", "statement": "The result of compute_on without cache_key does not depend on which compute_on calls (successful or raising) were made on the same metric objects before.", "quantifier": "every finite history of top-level calls", "why_tests_cant": "ranges over all histories", "anchors": ["metrics.py:Metric.clean_up_cache", "metrics.py:Metric.wrap_cache_key"]}
{"id": "C06", "title": "User cache keys are separated by split_by and filters", "statement": "With a shared cache and the same user cache_key and data, computing with a different split_by or different filters never returns the other computation's result.", "quantifier": "every history of calls that share a cache and a cache_key", "why_tests_cant": "depends on the history of calls made on the same objects", "anchors": ["metrics.py:Metric.wrap_cache_key", "utils.py:CacheKey.__init__"]}
{"id": "C07", "title": "Column names do not depend on cache hits", "statement": "The output column names of an Operation are its name template applied once to its child's names, however many times an equal Operation was computed before in the same round.", "quantifier": "every number of repetitions of an Operation inside a MetricList or with a shared cache", "why_tests_cant": "needs arbitrary repetition and aliasing of the cached object", "anchors": ["metrics.py:Metric.manipulate", "metrics.py:Metric.get_cached", "utils.py:apply_name_tmpl"]}
{"id": "C08", "title": "MetricList isolates failing children", "statement": "A child that raises is skipped with a warning; every other child's columns are the same as without the failing child, in order.", "quantifier": "every list of children and every subset of them that fails", "why_tests_cant": "quantifies over all failure patterns", "anchors": ["metrics.py:MetricList.compute_slices"]}
{"id": "C09", "title": "SQL aliases are sanitized", "statement": "An alias in generated SQL never contains a special character, clean aliases are unchanged, sanitizing is idempotent, and never starts with a digit once sanitized.", "quantifier": "every string", "why_tests_cant": "ranges over all strings", "anchors": ["sql.py:escape_alias"]}
{"id": "C10", "title": "A SELECT list never has two columns with the same alias or the same expression", "statement": "After any sequence of Columns.add calls, aliases are pairwise distinct, expressions are pairwise distinct, every expression that was added is present and columns added earlier keep their alias; add terminates.", "quantifier": "every sequence of added columns", "why_tests_cant": "uniqueness by retrying suffixes must terminate and hold for all name collisions", "anchors": ["sql.py:Columns.add", "sql.py:Column.alias", "sql.py:Column.add_suffix"]}
{"id": "C11", "title": "A column merged into a SELECT list is looked up under the right alias", "statement": "After adding a column whose expression is already present, its alias (set in place) names the column of that list that has the same expression.", "quantifier": "every existing list and every added column", "why_tests_cant": "needs particular collision histories", "anchors": ["sql.py:Columns.add", "sql.py:Columns.get_alias", "sql.py:Datasources.merge"]}
{"id": "C12", "title": "WITH tables keep unique names and their meaning", "statement": "Adding or merging a datasource terminates, never renames or drops an existing WITH table, never changes an existing column, and returns the alias of a table that provides what was added.", "quantifier": "every sequence of add / merge calls", "why_tests_cant": "ranges over all histories of additions", "anchors": ["sql.py:Datasources.add", "sql.py:Datasources.merge", "sql.py:add_suffix", "sql.py:Sql.merge"]}
{"id": "C13", "title": "A WHERE clause means the conjunction of the filters", "statement": "The generated condition, read with SQL precedence (NOT > AND > OR), is equivalent to the conjunction of the individual filters; the same for the string passed to df.query.", "quantifier": "every list of filters, every truth assignment", "why_tests_cant": "ranges over all boolean expressions", "anchors": ["sql.py:Filter.__str__", "sql.py:Filters.__str__", "metrics.py:Metric.where"]}
{"id": "C14", "title": "Splitting filters into global and local loses nothing", "statement": "For every leaf metric of a tree, the WHERE clause (global filter) together with the inline IF (local filter) is exactly the conjunction of all filters on the path from the root to that leaf.", "quantifier": "every metric tree with arbitrary filters at every node", "why_tests_cant": "ranges over all trees and placements of filters", "anchors": ["utils.py:get_global_filter", "sql.py:Filters.remove", "metrics.py:SimpleMetric.get_sql_and_with_clause"]}
{"id": "C15", "title": "Arithmetic on SQL columns keeps precedence", "statement": "The text generated for an arithmetic combination of metrics, parsed with SQL precedence, evaluates to the combination of the operands' values; division by zero gives NULL.", "quantifier": "every arithmetic expression tree over columns and constants", "why_tests_cant": "string generation with conditional parentheses over unbounded nesting", "anchors": ["sql.py:Column.__add__", "sql.py:add_parenthesis_if_needed", "sql.py:SAFE_DIVIDE"]}
{"id": "C16", "title": "SQL and pandas agree on leaf metrics", "statement": "For every group that has at least one row passing the metric's filters, the generated SQL and compute_on give the same value for Sum, Count, Count distinct, Mean, Dot, Max, Min, Variance, Cov.", "quantifier": "every table (with NULLs), every filter, every grouping", "why_tests_cant": "ranges over all tables", "anchors": ["metrics.py:Sum", "metrics.py:Count", "metrics.py:Dot", "metrics.py:Mean", "sql.py:Column.expression"]}
{"id": "C17", "title": "SQL weighted quantile equals the pandas one", "statement": "The SQL generated for a weighted Quantile gives np.interp of the quantile over the normalized cumulative weights, as compute_on does.", "quantifier": "every set of weighted values and every quantile in [0, 1]", "why_tests_cant": "boundary cases of interpolation at knots", "anchors": ["metrics.py:Quantile.compute_slices", "metrics.py:Quantile.get_sql_and_with_clause"]}
{"id": "C18", "title": "SQL quantile k/100 reads the k-th percentile", "statement": "For quantile k/100 the generated query reads OFFSET(k) of APPROX_QUANTILES(., 100).", "quantifier": "k in 0..100, binary64 arithmetic", "why_tests_cant": "float truncation only fails for particular literals", "anchors": ["metrics.py:Quantile.get_sql_columns"]}
{"id": "C19", "title": "Equivalent metrics are equivalent", "statement": "The expanded form of Mean, weighted Mean, Dot, Variance, StandardDeviation, CV, Cov, Correlation over Sum and Count computes the textbook value.", "quantifier": "every list of observations without missing values, every ddof and weights", "why_tests_cant": "algebraic identity over all data", "anchors": ["metrics.py:Mean.get_equivalent_without_filter", "metrics.py:Variance.get_equivalent_without_filter", "metrics.py:Cov.get_equivalent_without_filter", "metrics.py:Correlation.get_equivalent_without_filter"]}
{"id": "C20", "title": "Sanity bounds of dispersion metrics", "statement": "Variance and StandardDeviation are nonnegative, Cov is symmetric and Cov(x,x) is Variance(x), Correlation lies in [-1,1] and is invariant under positive affine maps.", "quantifier": "every data set", "why_tests_cant": "inequalities over all reals", "anchors": ["metrics.py:Variance", "metrics.py:Cov", "metrics.py:Correlation"]}
{"id": "C21", "title": "Missing values are ignored pairwise in Cov", "statement": "With missing values Cov(x,y) equals the covariance of the rows where both are present.", "quantifier": "every data set with missing values", "why_tests_cant": "depends on the pattern of missing values", "anchors": ["metrics.py:Cov.get_equivalent_without_filter", "metrics.py:Dot.compute_slices"]}
{"id": "C22", "title": "Slices are independent", "statement": "The row of compute_on(df, split_by) for a slice value equals compute_on of the rows of that slice alone, and there is exactly one row per slice value that occurs.", "quantifier": "every data frame, split_by, and metric tree of vectorized metrics", "why_tests_cant": "ranges over all partitions of all tables", "anchors": ["metrics.py:Metric.compute_slices", "metrics.py:Metric.split_data", "metrics.py:Metric.group"]}
{"id": "C23", "title": "A filter is the same as filtering the data first", "statement": "metric with where=f computed on df equals the metric without the filter computed on df.query(f); several filters are their conjunction in any order, nested filters compose.", "quantifier": "every metric tree, filter and data frame", "why_tests_cant": "ranges over all trees", "anchors": ["metrics.py:Metric.compute_through", "metrics.py:Metric.where", "metrics.py:Metric.add_where"]}
{"id": "C24", "title": "A Distribution is normalized", "statement": "Within each split_by group the values of Distribution sum to 1 and are proportional to the child's values whenever the total is nonzero.", "quantifier": "every child result and grouping", "why_tests_cant": "algebra over all data", "anchors": ["operations.py:Distribution.compute_on_children"]}
{"id": "C25", "title": "A CumulativeDistribution is a cumulative distribution", "statement": "For nonnegative child values it is nondecreasing in the chosen order, every prefix value is the share of the prefix, and the last value is 1.", "quantifier": "every child result, order, direction", "why_tests_cant": "ranges over all data and orders", "anchors": ["operations.py:CumulativeDistribution.compute_on_children"]}
{"id": "C26", "title": "Change operations compare with the baseline of the same slice", "statement": "AbsoluteChange is value - base and PercentChange is (value/base - 1)*100 with the base taken from the same split_by slice; the baseline row is absent unless include_base, in which case it is 0; slices without baseline give missing values.", "quantifier": "every child result, number of condition columns, split_by", "why_tests_cant": "ranges over all index structures", "anchors": ["operations.py:PercentChange.compute_on_children", "operations.py:AbsoluteChange.compute_on_children"]}
{"id": "C27", "title": "MH is the Mantel-Haenszel estimator", "statement": "MH equals the textbook weighted estimator over the strata present in both arms; with one stratum it is the percent change of the ratio; if the ratio is the same in all strata up to a factor f it is (f-1)*100.", "quantifier": "every stratified table", "why_tests_cant": "algebra over all tables", "anchors": ["operations.py:MH.compute_mh"]}
{"id": "C28", "title": "CUPED and PrePost adjust by the regression coefficient", "statement": "With one covariate: PrePost's adjusted value of an arm is the intercept of the least squares line of the child on the covariate centered over the split, its percent change is b1/b0 of the documented interaction model; CUPED's change is the difference of the means of child - theta * covariate with theta the least squares slope over the split; shifting the covariate changes nothing; PrePost's value of an arm moves by exactly the constant added to that arm (CUPED's does not in general); the SQL queries compute the same changes.", "quantifier": "every table with one covariate, any split_by, conditions and strata; numbers in the split's rows, covariate not constant", "why_tests_cant": "algebra over all data", "anchors": ["operations.py:CUPED.adjust_value", "operations.py:PrePostChange.adjust_value"]}
{"id": "C29", "title": "HHI bounds", "statement": "For nonnegative values with positive total HHI lies between 1/n and 1 and does not change when all values are scaled.", "quantifier": "every nonnegative vector", "why_tests_cant": "inequality over all vectors", "anchors": ["diversity.py:HHI.compute_on_children"]}
{"id": "C30", "title": "Entropy bounds", "statement": "For positive values Entropy is between 0 and ln n and scale invariant.", "quantifier": "every positive vector", "why_tests_cant": "inequality over all vectors", "anchors": ["diversity.py:Entropy.compute_on_children"]}
{"id": "C31", "title": "TopK is the share of the k largest", "statement": "TopK equals the sum of the k largest shares, is nondecreasing in k and equals 1 for k >= number of contributors.", "quantifier": "every vector and k", "why_tests_cant": "ranges over all vectors and k", "anchors": ["diversity.py:TopK.compute_on_children"]}
{"id": "C32", "title": "Nxx is the least number of contributors reaching the share", "statement": "Nxx(x) is the least n such that the n largest shares sum to at least x.", "quantifier": "every nonnegative vector and share in (0,1]", "why_tests_cant": "minimality over all subsets", "anchors": ["diversity.py:Nxx.nxx_for_one_col"]}
{"id": "C33", "title": "The Jackknife shortcut equals leave-one-out", "statement": "For Sum and Count (and trees over them) the leave-one-out results derived from bucket totals equal computing the metric on the data without that unit.", "quantifier": "every table, unit column, split_by, operation levels, leaf filters", "why_tests_cant": "ranges over sparse tables of every shape", "anchors": ["operations.py:Jackknife.precompute_sum_or_count_for_jackknife", "utils.py:adjust_slices_for_loo"]}
{"id": "C34", "title": "Leave-one-out slices are exactly those that remain", "statement": "(split, unit, slice) appears in the leave-one-out index iff the unit occurs in the split and the slice still occurs in the split without that unit.", "quantifier": "every sparse table", "why_tests_cant": "ranges over all sparsity patterns", "anchors": ["utils.py:adjust_slices_for_loo"]}
{"id": "C35", "title": "Jackknife standard error formula", "statement": "Jackknife SE equals sqrt((n-1)/n * sum (theta_i - mean)^2); for Mean it equals the usual standard error of the mean; it is zero iff all replicates agree.", "quantifier": "every list of replicates", "why_tests_cant": "algebra over all data", "anchors": ["operations.py:Jackknife.get_stderrs", "operations.py:MetricWithCI.get_stderrs"]}
{"id": "C36", "title": "Confidence intervals are centered and ordered", "statement": "CI-lower <= point <= CI-upper, symmetric around the point estimate, wider for higher confidence.", "quantifier": "every estimate, standard error, dof, confidence", "why_tests_cant": "ranges over reals", "anchors": ["operations.py:MetricWithCI.compute_ci", "operations.py:MetricWithCI.get_ci_width"]}
{"id": "C37", "title": "Bootstrap preaggregation is sound", "statement": "For every resample of units, Sum/Count/Max/Min on the resampled preaggregated data equals the metric on the resampled raw rows.", "quantifier": "every table, every resample (multiset of units), every leaf filter", "why_tests_cant": "ranges over all random draws", "anchors": ["operations.py:get_preaggregated_data", "operations.py:get_preaggregated_metric"]}
{"id": "C38", "title": "Poisson weights equal repeating rows", "statement": "Multiplying the preaggregated sums by the weight gives the sum over rows repeated by the weight; Max/Min are unaffected by weights > 0 and units with weight 0 are dropped.", "quantifier": "every weight vector", "why_tests_cant": "ranges over all random draws", "anchors": ["operations.py:PoissonBootstrap.get_samples"]}
{"id": "C39", "title": "Repeated bootstrap samples reuse a correct result", "statement": "When a resample is drawn again the cached result returned is the one computed for the same resample, and exactly n_replicates estimates are produced if no computation fails.", "quantifier": "every sequence of draws", "why_tests_cant": "ranges over all random histories", "anchors": ["operations.py:Bootstrap.get_samples", "operations.py:MetricWithCI.compute_on_samples"]}
{"id": "C40", "title": "Jackknife precomputation does not disturb other metrics", "statement": "Values cached by Jackknife's precomputation for other metrics of the same round equal what those metrics would compute.", "quantifier": "every set of metrics sharing a cache with a Jackknife", "why_tests_cant": "needs particular combinations of siblings", "anchors": ["operations.py:Jackknife.compute_slices", "metrics.py:Metric.find_all_in_cache_by_metric_type"]}
{"id": "C41", "title": "Optimization does not change Jackknife's verdict", "statement": "Jackknife with and without enable_optimization accept the same data and give the same standard errors.", "quantifier": "every table", "why_tests_cant": "corner cases such as a single unit", "anchors": ["operations.py:Jackknife.get_samples", "operations.py:Jackknife.compute_children"]}
{"id": "C42", "title": "Mixed-mode bootstrap draws n_replicates resamples", "statement": "For every n_replicates and batch_size the batches add up to exactly n_replicates resamples, each with its own draw.", "quantifier": "every n_replicates and batch size", "why_tests_cant": "ranges over all integers", "anchors": ["operations.py:Bootstrap.compute_children_sql", "operations.py:PoissonBootstrap.get_resampled_data_sql"]}
{"id": "C43", "title": "melt and unmelt are inverse", "statement": "unmelt(melt(df)) gives back df (same columns, rows, values) for frames with distinct metric names.", "quantifier": "every wide result frame", "why_tests_cant": "ranges over all shapes", "anchors": ["utils.py:melt", "utils.py:unmelt"]}
{"id": "C44", "title": "Temporary columns never clash with user columns", "statement": "The prefix for auxiliary columns is a prefix of no existing column; adding auxiliary columns leaves every existing column unchanged.", "quantifier": "every set of column names", "why_tests_cant": "termination and freshness for all name sets", "anchors": ["utils.py:get_unique_prefix", "utils.py:add_auxiliary_cols"]}
{"id": "C45", "title": "Auxiliary column names identify their contents", "statement": "Two auxiliary columns with the same generated name have the same contents.", "quantifier": "every pair of auxiliary column expressions and column names", "why_tests_cant": "ranges over all column names", "anchors": ["utils.py:parse_auxiliary_col"]}
{"id": "C46", "title": "Pushing filters to leaves preserves results", "statement": "push_filters_to_leaf(m) without resampling inside computes the same as m.", "quantifier": "every metric tree with filters", "why_tests_cant": "ranges over all trees", "anchors": ["utils.py:push_filters_to_leaf"]}
{"id": "C47", "title": "Nth with negative n counts from the other end", "statement": "Nth(var, -k-1, sort_by, ascending) is Nth(var, k, sort_by, not ascending); out of range gives missing.", "quantifier": "every integer n and data set", "why_tests_cant": "ranges over integers and data", "anchors": ["metrics.py:Nth.__init__", "metrics.py:Nth.compute_slices"]}
{"id": "C48", "title": "Magic-mode ridge solves the normal equations", "statement": "Ridge coefficients computed from sufficient statistics minimize the penalized least squares objective.", "quantifier": "every data set with k regressors", "why_tests_cant": "optimization over reals", "anchors": ["models.py:compute_ridge_coefs", "models.py:get_sufficient_stats_elements"]}
{"id": "C49", "title": "soft_thresholding is the proximal map of the L1 penalty", "statement": "soft_thresholding(x, t) is the unique minimizer of (z-x)^2/2 + t*|z|.", "quantifier": "every real x and t >= 0", "why_tests_cant": "optimization over reals", "anchors": ["models.py:soft_thresholding"]}
{"id": "C50", "title": "display highlights exactly the significant changes", "statement": "A change is shown as positive iff the whole interval is above zero, negative iff below, and neutral otherwise (colors exchanged by flip_color).", "quantifier": "every interval", "why_tests_cant": "boundary cases over reals", "anchors": ["confidence_interval_display.py:MetricFormatter.__call__"]}
{"id": "C51", "title": "A metric with confidence interval can be used twice", "statement": "Computing a MetricList (or one round with a shared cache) in which two equal metrics with a confidence level occur gives both results, whatever split_by and filters are.", "quantifier": "every tree with repeated equal CI metrics, every split_by and filter", "why_tests_cant": "Depends on which of several equal instances happened to be computed first and on the state it left behind.", "anchors": ["operations.py: MetricWithCI.manipulate, compute_change_base", "metrics.py: Metric._compute_with_caching_and_postprocessing"]}
{"id": "C52", "title": "Preaggregated columns identify their metric", "statement": "In the data Bootstrap preaggregates, two leaf metrics share a column only if they are the same metric with the same filter.", "quantifier": "every set of leaf metrics, column names and filter texts", "why_tests_cant": "Ranges over all column names and filter texts; collisions come from sanitizing text.", "anchors": ["operations.py: get_preaggregated_metric_var, get_preaggregated_data", "sql.py: escape_alias"]}
{"id": "C53", "title": "The SQL bootstrap draws with replacement inside each slice", "statement": "When no random number is exactly 0 and no unit is NULL, the query for Bootstrap replaces every slice of n rows (or units), in every resample, by n rows (units) of the same slice, one for each random number and uniformly; the global filter is applied before drawing. (A NULL unit, or RAND() = 0, makes the resample smaller.)", "quantifier": "every table, every split_by and filter, all random numbers in (0, 1]", "why_tests_cant": "The random numbers are universally quantified; tests check the text or moments.", "anchors": ["operations.py: bootstrap_by_row, bootstrap_by_unit"]}
{"id": "C54", "title": "Units get separate random numbers", "statement": "In the SQL of PoissonBootstrap with a unit, different (group, unit, resample) triples hash different texts.", "quantifier": "every set of labels and resample numbers", "why_tests_cant": "A collision needs special labels; tests use a few.", "anchors": ["operations.py: PoissonBootstrap.get_resampled_data_sql"]}
{"id": "C55", "title": "The SQL Poisson weights follow Poisson(1)", "statement": "The CASE expression maps a uniform random number to k with the probability of Poisson(1) up to 1e-15 for every k, and each number gets exactly one weight.", "quantifier": "every uniform number in [0, 1]", "why_tests_cant": "A statement about all reals in [0, 1].", "anchors": ["operations.py: PoissonBootstrap.get_resampled_data_sql"]}
{"id": "C56", "title": "Magic-mode lasso and elastic net converge to the minimizer", "statement": "The coefficients Lasso/ElasticNet return in magic mode have a penalized loss (the one sklearn minimizes) within 2*|start - optimum|^2*lambda/((1-1e-6)*(N+1)^2) of the minimum, N being the number of iterations done (max_iter when tol is 0).", "quantifier": "every data set, number of regressors, alpha >= 0, l1_ratio in (0,1], intercept/normalize setting, initial guess and iteration count", "why_tests_cant": "a convergence rate over all data, guesses and iteration counts", "anchors": ["models.py:fista_for_elastic_net", "models.py:compute_coef_for_elastic_net", "models.py:center_x", "models.py:compute_normalized_coef"]}
{"id": "C57", "title": "Magic-mode logistic regression queries the true gradient and Hessian", "statement": "The gradient and Hessian columns of the logistic regression query are the first and second derivatives of the average logistic loss plus the l2 penalty; the numerically stable SQL forms equal the sigmoid formulas on both branches.", "quantifier": "every data set, number of regressors, coefficient vector, C > 0, intercept setting", "why_tests_cant": "derivatives over all reals and sizes; both branches of the stable form", "anchors": ["models.py:LogisticRegression.compute_on_sql_magic_mode", "models.py:sig_minus_b"]}
{"id": "C58", "title": "Solving all slices in one query equals solving each slice alone", "statement": "Newton's method over all slices at once, where one query serves the slices that have not converged, gives each slice the coefficients it would get alone.", "quantifier": "every number of slices, data, pattern and order of convergence", "why_tests_cant": "every history of convergence across slices", "anchors": ["models.py:newtons_method", "models.py:LogisticRegression.compute_on_sql_magic_mode"]}
{"id": "C59", "title": "Magic-mode logistic regression with an l1 or elasticnet penalty converges", "statement": "For penalty l1 or elasticnet the coefficients LogisticRegression returns in magic mode have a penalized logistic loss (the one sklearn minimizes, per row) within 2*|start - optimum|^2*lambda/(3.999999*(N+1)^2) of the minimum after N iterations, in every slice; N is max_iter unless the slice stopped on tol.", "quantifier": "every data set, number of regressors, C > 0, l1_ratio in [0,1], intercept setting, initial guess, iteration count and set of slices", "why_tests_cant": "a convergence rate over all data, guesses and iteration counts", "anchors": ["models.py:fista_for_logistic_regression", "models.py:LogisticRegression.compute_on_sql_magic_mode"]}
{"id": "C60", "title": "The display shows every result exactly once", "statement": "In the table of .display()/get_formatted_df every row of the result that is not a hidden control appears in exactly one cell, in the row of its slice and experiment and the column of its metric, with its own value, change and interval (no change for controls), and no other cell has numbers.", "quantifier": "every long table with distinct (slice, experiment, metric), every control setting, every sort order, metric order and flip_color", "why_tests_cant": "ranges over all tables, control dictionaries and orders; pivoting may merge or lose rows", "anchors": ["confidence_interval_display.py: _pre_aggregate_df, _sorted_long_to_wide, get_formatted_df", "operations.py: get_display_fn"]}
{"id": "C61", "title": "Control values are filled in only when the experiments agree", "statement": "With auto_decide_control_vals a missing control row gets the control value its experiments report if they agree (up to rounding); otherwise a warning is printed and the row is skipped.", "quantifier": "every list of reported control values", "why_tests_cant": "boundary of a tolerance over all real values", "anchors": ["confidence_interval_display.py: add_control_rows"]}
{"id": "C62", "title": "SQL and pandas agree on operations", "statement": "For a metric built from Distribution, CumulativeDistribution, PercentChange, AbsoluteChange, HHI, Entropy, TopK, Nxx and arithmetic on such metrics, compute_on_sql(table, split_by) returns the same rows (index and value) as compute_on(df, split_by) on the same data.", "quantifier": "every such tree over any arithmetic on leaf metrics with filters anywhere, every table, every split_by, every way the database and pandas order rows", "why_tests_cant": "ranges over all trees, tables with NULLs and zero totals, and over the freedom a database has in ordering rows", "anchors": ["operations.py: Distribution.get_sql_and_with_clause, CumulativeDistribution.get_sql_and_with_clause, Comparison.get_sql_and_with_clause", "diversity.py: get_sql_and_with_clause", "metrics.py: Metric.to_sql, Metric.compute_on_sql, CompositeMetric.get_sql_and_with_clause, CompositeMetric.compute_on_children"]}
{"id": "C63", "title": "The generated query for operations is well formed", "statement": "Every column that the SQL of a tree of operations and arithmetic on them mentions, at every level of its nested queries, is a column of the source it is selected from, and the columns of the result are exactly split_by, the index columns of the operations and the value.", "quantifier": "every tree of operations, every split_by, for any data", "why_tests_cant": "ranges over all ways operations can be nested", "anchors": ["operations.py: get_sql_and_with_clause of each operation", "diversity.py: get_sql_and_with_clause", "sql.py: Sql, Columns", "utils.py: get_extra_idx"]}
{"id": "C64", "title": "SQL and pandas agree on a MetricList", "statement": "compute_on_sql of a MetricList returns the same columns (one per metric of the list, in order) and the same rows as compute_on on the same data: a row for every key of any child, with that child's value, and a missing value where the child has no such key. Every column the generated query mentions exists in its source.", "quantifier": "every list of metrics and operations with the same index columns, with filters on the list and anywhere below, every table, every split_by, every way the database and pandas order rows", "why_tests_cant": "ranges over all lists, over which of the children's queries are merged into one and which are joined, and over all tables", "anchors": ["metrics.py: MetricList.get_sql_and_with_clause, MetricList.compute_slices, MetricList.to_dataframe", "sql.py: Datasources.merge, Sql.merge, is_compatible, Columns.add, Join"]}
{"id": "C65", "title": "SQL and pandas agree on a Jackknife", "statement": "compute_on_sql of a Jackknife returns the same rows as compute_on on the same data: the same index, point estimate and standard error, and with a confidence level the same bounds. Sample x of a slice is the rows of the slice whose unit is not x, for every unit that the slice has, and the standard error in SQL is sqrt((n - 1) / n * sum((replicate - mean)^2)) over the replicates that are not NULL, NULL if there are fewer than two.", "quantifier": "every child (operations, arithmetic on them, leaf metrics), with filters on the Jackknife and below, every table, every split_by, every unit column, every way the database and pandas order rows, every quantile function", "why_tests_cant": "ranges over all metric trees, tables and numbers of units, including slices in which a unit or all but one unit is absent, or has no value", "anchors": ["operations.py: MetricWithCI.to_sql, MetricWithCI.get_sql_and_with_clause, get_se_sql, get_jackknife_data_general, Jackknife.get_samples, Jackknife.compute_slices, MetricWithCI.compute_on_sql_sql_mode, get_jackknife_data_fast, modify_descendants_for_jackknife_fast, get_preaggregated_metric_tree, utils.push_filters_to_leaf"]}
{"id": "C66", "title": "SQL and pandas agree on the Mantel-Haenszel ratio", "statement": "compute_on_sql of MH over a ratio returns the same rows as compute_on on the same data: a row for every slice and condition (the baseline only with include_base), with the same Mantel-Haenszel percent change, also when a stratum is missing in the baseline or in the condition or has no value. The query mentions only columns that its tables have.", "quantifier": "every numerator and denominator (operations, arithmetic on them, leaf metrics with the same index), filters on the MH, the ratio and below, every number of condition columns and strata, every split_by, every table, every way the database and pandas order rows", "why_tests_cant": "ranges over all metric trees, tables and sets of strata, including strata present on one side only and strata with zero or missing denominators", "anchors": ["operations.py: MH.get_sql_and_with_clause, MH.compute_children, MH.compute_mh", "metrics.py: MetricList.get_sql_and_with_clause"]}
{"id": "C67", "title": "Mixed mode gives exactly the result of compute_on", "statement": "compute_on_sql(table, split_by, mode='mixed'), which computes only the leaf metrics in SQL and the rest in Python, returns exactly what compute_on returns on the same data: the same rows in the same order with the same values (infinities and NaN included), whatever order the database returns its rows in, and raises where compute_on raises. This holds for operations and arithmetic nested in any way, for MH and for a MetricList none of whose metrics raises.", "quantifier": "every tree of operations, arithmetic and leaf metrics with filters anywhere, every split_by, every table, every order in which the database returns rows", "why_tests_cant": "ranges over all metric trees, tables and row orders of the database", "anchors": ["metrics.py: Metric.compute_through_sql, compute_on_sql_sql_mode, compute_on_sql_mixed_mode, compute_children_sql, MetricList.compute_children_sql, CompositeMetric.compute_on_children", "operations.py: Operation.compute_on_sql_mixed_mode, MH.compute_children_sql"]}
{"id": "C68", "title": "Jackknife in mixed mode gives the result of compute_on, whatever the batch size", "statement": "compute_on_sql(table, split_by, mode='mixed', batch_size=b) of a Jackknife returns exactly what compute_on returns on the same data: the same index, values, standard errors and degrees of freedom, in the same order, for every batch size and whatever order the database returns rows and units in; a slice does not get a replicate for a unit that it does not have.", "quantifier": "every child metric (operations, arithmetic, leaf metrics with filters), every unit column, where, split_by and batch size, every table whose rows have a unit, every order of the rows of every query", "why_tests_cant": "ranges over all metric trees, tables, sets of units and ways to cut them into batches", "anchors": ["operations.py: Jackknife.compute_children_sql, MetricWithCI.compute_on_sql_mixed_mode, MetricWithCI.compute_on_children", "metrics.py: Metric.compute_child_sql"]}
{"id": "C69", "title": "The order of the rows of the data does not matter", "statement": "compute_on and compute_on_sql return the same result when the rows of the data frame or the table are in another order: the same frame, values, standard errors and degrees of freedom (and compute_on raises on both or neither). The only metric that may look at the order is Nth when rows tie.", "quantifier": "every tree of operations, comparisons, diversity metrics, arithmetic and leaf metrics with filters, MH and Jackknife of such trees, weighted quantiles, every split_by, every data frame and every permutation of its rows", "why_tests_cant": "ranges over all metric trees, all data and all permutations of the rows", "anchors": ["metrics.py: Metric.compute_on, Metric.split_data, Metric.compute_on_sql, Quantile, Nth", "operations.py: Operation.compute_on_children, Jackknife.get_samples, MH"]}
{"id": "C70", "title": "Bootstrap in SQL and in pandas have the same results", "statement": "compute_on_sql of a Bootstrap draws, for every replicate and slice, as many rows (or units, each with all its rows) as the slice has, with replacement; everything pandas can draw the query can draw and the other way round, and on the same samples compute_on and compute_on_sql return the same index, point estimates, standard errors and confidence bounds.", "quantifier": "every child metric (operations, arithmetic, leaf metrics with filters), with or without a unit, every where, split_by and number of replicates, every table whose rows have a unit, all random numbers in (0, 1], every order in which the database numbers the rows, every outcome of df.sample", "why_tests_cant": "ranges over all metric trees, tables, random numbers and row orders; both sides are random, so a test can only compare approximate standard errors", "anchors": ["operations.py: Bootstrap.get_samples, Bootstrap.get_resampled_data_sql, bootstrap_by_row, bootstrap_by_unit, get_se_sql, MetricWithCI.get_sql_and_with_clause, MetricWithCI.compute_on_samples, MetricWithCI.get_stderrs"]}
{"id": "C71", "title": "Bootstrap in mixed mode has the results of pandas, for every batch size", "statement": "compute_on_sql(mode='mixed') of a Bootstrap, with any batch_size and n_replicates (n_replicates need not be a multiple of batch_size), has exactly n_replicates resamples; its index, point estimates, standard errors and degrees of freedom are those compute_on has for some possible outcome of its own sampling, and every outcome compute_on can have is an outcome of mixed mode.", "quantifier": "every child metric tree, unit or none, where, split_by, batch size, number of replicates, table whose rows have a unit, all random numbers in (0, 1], every order in which the database numbers or returns rows", "why_tests_cant": "ranges over all trees, tables, batch sizes, random numbers and row orders; a test compares two random standard errors approximately and would not see that the leaf metrics of one replicate come from different resamples", "anchors": ["operations.py: Bootstrap.compute_children_sql, Bootstrap.get_resampled_data_sql, MetricWithCI.compute_on_sql_mixed_mode, bootstrap_by_row, bootstrap_by_unit", "metrics.py: Metric.compute_through_sql, CompositeMetric.compute_children_sql"]}
{"id": "C72", "title": "Bootstrap's preaggregated SQL has the results of pandas on the raw data", "statement": "When a Bootstrap has a unit and its child needs only sums and counts, the SQL first sums the table per unit (and split_by and operation columns) and resamples the summed table, by row when each unit has one row. Its index, point estimates, standard errors, bounds are those compute_on has on the raw rows for some possible draw of units, and every draw of units compute_on can make is an outcome of the query.", "quantifier": "every child tree over Sum and Count with any filters, unit, where, split_by, number of replicates, table whose rows have a unit, all random numbers in (0, 1], every order in which the database numbers rows", "why_tests_cant": "the two sides sample different tables (rows of sums against rows of the data) with different generators; a test compares two random standard errors approximately", "anchors": ["operations.py: MetricWithCI.to_sql, get_preaggregated_metric_tree, get_preaggregated_metric_var, Bootstrap.get_resampled_data_sql, bootstrap_by_row, bootstrap_by_unit, Bootstrap.get_samples"]}
{"id": "C73", "title": "Jackknife and Bootstrap precompute exactly when every leaf is a sum", "statement": "Jackknife and Bootstrap (compute_on and SQL) use the precomputed path if and only if enable_optimization is set (and a Bootstrap has a unit), every leaf of the fully expanded child is Sum or non-distinct Count (or, for Bootstrap, Max or Min), and no metric with confidence intervals is inside; so a Quantile, Nth or Count(distinct) anywhere in the tree, also behind equivalents declared by user-defined metrics, is never precomputed.", "quantifier": "every metric tree of any depth, every get_equivalent of user-defined metrics, both kinds of resampling, all options", "why_tests_cant": "ranges over all trees and all user-defined equivalents (which may nest)", "anchors": ["operations.py: is_metric_precomputable, Jackknife.can_precompute, Bootstrap.can_precompute, Jackknife.compute_slices, Bootstrap.compute_slices, MetricWithCI.to_sql", "utils.py: get_fully_expanded_equivalent_metric_tree, get_equivalent_metric_tree"]}
{"id": "C74", "title": "An operation over a MetricList gives every metric its own result", "statement": "Distribution, CumulativeDistribution, PercentChange, AbsoluteChange, HHI, Entropy, TopK or Nxx over a MetricList returns one column per metric that can be computed, and each column has, at every key, the value the operation over that metric alone would have; adding a metric to the list changes nothing for the others.", "quantifier": "every operation and its options, every list of metric trees (with their own filters, so that they may have different groups), every data frame, split_by and sorting", "why_tests_cant": "whether another metric interferes depends on which groups, missing values and baselines each metric of the list has; only all lists and all data show it", "anchors": ["operations.py: Distribution.compute_on_children, CumulativeDistribution.compute_on_children, PercentChange.compute_on_children, AbsoluteChange.compute_on_children", "diversity.py: HHI, Entropy, TopK, Nxx compute_on_children", "metrics.py: MetricList.compute_slices, MetricList.to_dataframe"]}
{"id": "C75", "title": "PrePostChange and CUPED with several covariates", "statement": "With several covariates CUPED's change is the difference of the arms' means of the child minus that of its least squares prediction from the covariates over the whole split, for every least squares solution, and depends only on the affine span of the covariates. PrePostChange's is that of the interaction model of its class doc (b1 / b0 * 100), wherever the baseline and the arm determine the fitted value at the mean covariates; where they do not, the result depends on the solver. With one covariate both agree with the Cov / Var formula. They raise exactly if the child or a covariate has a missing or infinite value in any row, or no row has the baseline.", "quantifier": "every table of child and covariate values, split_by, conditions, number of covariates, and every regression that returns some least squares solution", "why_tests_cant": "a test fits a few full-rank tables with one solver; collinear covariates, arms with few rows and other solvers decide whether the result is that of the documented model", "anchors": ["operations.py: PrePostChange.adjust_value (Adjust.compute)", "operations.py: CUPED.adjust_value (Adjust.compute)", "operations.py: PercentChange.compute_on_children, AbsoluteChange.compute_on_children", "metrics.py: Metric.compute_slices"]}
{"id": "C76", "title": "Pipelines of operations behave like values", "statement": "x | op is a metric with op's parameters over x, whatever op was used for before; building further metrics, also with the same op, never changes a metric built earlier; a filter added to a result of op does not show up in other metrics.", "quantifier": "every program of constructors, pipes and add_where, any nesting and sharing of children, any number of uses of each operation", "why_tests_cant": "operations are mutable objects that are copied or reused depending on whether they already have a child; whether two results share an object depends on the whole history of uses", "anchors": ["operations.py: Operation.__call__", "metrics.py: Metric.__or__, Metric.__deepcopy__, Metric.add_where", "utils.py: get_name"]}
{"id": "C77", "title": "Rewriting a metric leaves the user's metric alone", "statement": "The rewrites made for SQL, preaggregation and fast Jackknife (pushing filters to leaves, replacing metrics by equivalents, preaggregated and leave-one-out metrics, deep copies) write to no object that existed before, return the rewritten tree, and the result shares no object with any earlier metric, so what is done to it afterwards cannot change the user's metrics.", "quantifier": "every heap of metric objects with any sharing, every metric in it, every equivalence and every renaming of leaves", "why_tests_cant": "shallow and deep copies are mixed; an alias shows only for trees that share objects, and a later write to it need not be in the same call", "anchors": ["utils.py: push_filters_to_leaf, get_equivalent_metric_tree, get_fully_expanded_equivalent_metric_tree", "operations.py: get_preaggregated_metric_tree, modify_descendants_for_jackknife_fast", "metrics.py: Metric.__deepcopy__, Metric.add_where"]}
{"id": "C78", "title": "PoissonBootstrap in SQL agrees with pandas", "statement": "For every outcome of the query's random numbers or hash function there is a draw of Poisson weights with which compute_on on a DataFrame gives the same index, point estimates, standard errors and confidence bounds as compute_on_sql, and for every draw of weights up to 18 there are random numbers or a hash function with which the query gives the pandas result; provided that no sample is empty and that the texts hashed for different units and samples differ.", "quantifier": "every supported child metric, split_by, unit or none, filter, number of replicates, data, random numbers, hash function and draw of weights", "why_tests_cant": "both sides are random and draw with different generators; agreement is a statement about all draws, and the exceptions (empty samples, equal hash texts) have small probability in tests", "anchors": ["operations.py: PoissonBootstrap.get_samples, get_resampled_data_sql, get_sql_for_jackknife_or_bootstrap", "sql.py: Sql"]}
{"id": "C79", "title": "PoissonBootstrap over preaggregated sums", "statement": "With a unit and Sum/Count leaves the query first sums the table per unit and multiplies the sums by the weights; it gives the same index, point estimates, standard errors and bounds as pandas on the raw rows with some draw of weights, every draw of weights up to 18 is the outcome of some random numbers or hash function, and with the same hash function it gives the same result as the query that does not preaggregate.", "quantifier": "every supported child metric whose leaves are Sum and Count, split_by, filter, number of replicates, data, random numbers, hash function and draw of weights", "why_tests_cant": "the fast path is a different query on a different table with other random numbers; agreement has to hold for all of them", "anchors": ["operations.py: MetricWithCI.to_sql, PoissonBootstrap.get_resampled_data_sql, get_preaggregated_metric_tree"]}
{"id": "C80", "title": "MH over several ratios at once", "statement": "Column j of an MH over a MetricList of ratios is what the MH of ratio j alone (with the filters of the list) gives, named after it, NaN where only other ratios have data, and it raises exactly when one of the MHs alone raises; when the ratios are of leaf metrics and no two of them are the same ratio under two names, its SQL has the same columns and the same rows, also when ratios share metrics or have metrics with the same name and different filters.", "quantifier": "every list of ratios with any filters on ratios, list and MH, conditions, baselines, strata, split_by and data that fits each ratio", "why_tests_cant": "the columns of all ratios live in one merged query whose aliases depend on which metrics and filters the ratios share; a wrong alias silently uses another ratio's column", "anchors": ["operations.py: MH.compute_children, MH.compute_on_children, MH.get_sql_and_with_clause", "metrics.py: MetricList.get_sql_and_with_clause", "sql.py: Sql.merge, Columns.add"]}
{"id": "C81", "title": "SQL of PrePostChange and CUPED, end to end", "statement": "The query of PrePostChange or CUPED with one covariate, run on the user's table (the table of the child and the covariate, its centered copy or its theta table, the adjusted table, the comparison with the baseline), gives exactly the rows, labels and values that pandas gives on the same data: the same slices and conditions, the baseline shown only with include_base, percent change for PrePostChange and absolute change for CUPED.", "quantifier": "every child and covariate that are leaf metrics with different names, every condition columns and baselines, strata, split_by, filters, include_base, way of sorting, and data in which child and covariate have a number for every combination of labels that occurs", "why_tests_cant": "pandas fits the line on aligned frames while the query chains three or four nested tables whose columns are found by position; agreement must hold for all data, also when a covariate is constant or a slice has one row", "anchors": ["operations.py: PrePostChange.compute_children, compute_on_children, get_sql_and_with_clause", "operations.py: CUPED.compute_children, compute_on_children, get_sql_and_with_clause", "operations.py: Comparison.get_sql_and_with_clause", "metrics.py: MetricList.get_sql_and_with_clause"]}
{"id": "C82", "title": "Merging one WITH clause into another keeps what every table means", "statement": "Extending a WITH clause by another one terminates, keeps every table that was there, uses no name twice, and every table of the other clause means under its new name what it meant before (its text with all referenced tables put in place), provided no name is captured; a query with a WITH clause used as the FROM of another query reads the table that means the inner query. Where a name is captured the meaning changes silently.", "quantifier": "every two WITH clauses with any names, texts and references, any length", "why_tests_cant": "names are rewritten in the texts one table after the other, so an error shows only for particular combinations of names, equal texts and references", "anchors": ["sql.py: Datasources.extend", "sql.py: Datasources.add", "sql.py: Sql.__init__"]}
{"id": "C83", "title": "PercentChange and AbsoluteChange over a MetricList in SQL", "statement": "The SQL generated for a comparison over a MetricList of leaf metrics has the same rows and columns as compute_on: one column for every metric, called after it, whose values are those of the comparison over that metric alone, whatever the other metrics of the list are. Without include_base no row of the baseline is shown.", "quantifier": "every list of leaf metrics, any split_by, any condition columns and baseline, any filters, every table that fits", "why_tests_cant": "numerators and baselines are paired by the position of the columns of two tables, so a wrong pairing shows only for particular numbers of index columns and metrics", "anchors": ["operations.py: Comparison.get_sql_and_with_clause", "metrics.py: MetricList.get_sql_and_with_clause", "operations.py: Comparison.compute_on_children"]}
{"id": "C84", "title": "Distribution over a MetricList in SQL", "statement": "The SQL generated for Distribution over a MetricList of leaf metrics has the same rows and columns as compute_on: one column for every metric, called after it, whose values are the distribution of that metric alone, whatever the other metrics of the list are. No row of the children is lost or added.", "quantifier": "every list of leaf metrics, any split_by, any columns to normalize over, any filters, every table that fits (no nonzero value over a zero total)", "why_tests_cant": "one query computes all the columns with one window per column, so a wrong partition or a wrong pairing of value and total shows only for particular data and lists", "anchors": ["operations.py: Distribution.get_sql_and_with_clause", "metrics.py: MetricList.get_sql_and_with_clause", "operations.py: Distribution.compute_on_children"]}
{"id": "C85", "title": "Rank correlations depend on the order only", "statement": "Correlation with method 'spearman' or 'kendall' gives, on every slice, a number in [-1, 1], or NaN exactly when one of the columns is constant over the rows where both are present; it is symmetric in the two columns (for every method, which the cache relies on), unchanged by strictly increasing functions of a column, negated when a column is reversed, 1 when both columns order the rows alike and -1 when oppositely; rows with a missing value and the order of the rows do not matter; with weights it is refused. With split_by, every slice gets the correlation of its own rows, whatever the index of the data frame.", "quantifier": "every list of rows, with ties, infinities and missing values, and every two columns", "why_tests_cant": "ties, missing values and infinities combine in unboundedly many ways, and the bounds are inequalities over all data", "anchors": ["metrics.py: Correlation.compute_slices", "metrics.py: Correlation.get_fingerprint", "metrics.py: Correlation.compute_slices (reset_index)"]}

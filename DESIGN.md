# Formal model of Kaysera/teacher in Rocq (Coq 8.16.1)

## 1. What is modelled and how

The model is a set of total Gallina functions that mirror the Python functions
branch by branch (one definition per Python function or loop, each with a comment
citing `file:lines` of /repo/src/teacher).  Conventions:

* **Numbers.** Data values, peaks, membership degrees, weights and thresholds are
  exact rationals `Qc` (canonical rationals, Leibniz equality).  Python uses IEEE
  binary64: rounding, overflow, infinities and NaN inputs are *not* modelled
  (except the numpy `0/0` results, which are modelled as `None` or an error value where
  the code can produce them).  Entropies, gains and Euclidean distances use the classical
  reals `R` (`log2 x = ln x / ln 2`, `sqrt`), injected by `qr : Qc -> R`.
* **Comparisons of square roots** (standard deviations, z-scores) with rationals are made on the squares.
* **Exceptions are values**: `res A := Ok a | Err exn`, one constructor of `exn` per Python
  exception class the code raises or lets through.
* **dict** = association list in insertion order; **set** = list without duplicates
  whose iteration order is an oracle argument constrained to be a permutation;
  `max(key=)`, `sorted`, `np.unique`, `np.argmax` are modelled with their tie rules.
* **Loops** are structural recursion/folds; unbounded recursion (tree growing,
  discretisation, sampling rounds) uses fuel whose exhaustion is a distinguished error that is proved
  unreachable for the fuel the public function passes.
* **Mutation** is state passing (explainer, neighbourhood, ID3 `num_leaf`, FDT root
  across refits, FBDT heap of `ignored` arrays).
* **Randomness** (np.random, random) is an arbitrary oracle stream, so theorems hold for every outcome
  of the random choices; **black boxes**, distance callbacks, `is` identity and `float()` of names are
  arbitrary function arguments.
* Exogenous libraries are not modelled as code but by the elementary behaviour the repository
  relies on; these readings are part of the trusted base (section 4).
* **Refuted claims.** Where the natural expectation about the API is false of the code, the
  property states what really holds, and a theorem (`…_refuted`, `…_fails`, `…_lost`) exhibits the
  counterexample.

Layout (`rocq/theories`): `Prelude` (Python builtins, rationals), one `M_*.v` model file per
Python module, `S_*.v` small independent specifications (the vocabulary of the statements),
`P_*.v` proofs, and `Properties_*.v` with the theorems `Cxx_name` of MANIFEST.json,
their `Print Assumptions`, and `Example`s showing that a concrete case meets the hypotheses.
`tools/` holds the generators of properties.jsonl and MANIFEST.json, the mutation harness
(`mutate.py`, `mutlog.py`; results in `seeded/LOG.jsonl`) and `coverage.py`, which lists the
functions of the source that no model comment cites.

## 2. Properties: what is modelled, how it is proved

| id | model | proof idea |
|----|-------|-----------|
| C01 | `FuzzyContinuousSet.membership` (trimf): `tri` | case analysis, linear arithmetic over Q |
| C02 | `get_fuzzy_continuous_sets` + membership over all sets | induction on the peak list |
| C03 | `get_fuzzy_continuous_sets`, `_point_set` | induction / index characterisation |
| C04 | the same with repeated peaks; `FuzzyVariable.membership` dict; `_equal_freq` fallback | induction + dict collapse |
| C05 | `alpha_cut` | arithmetic |
| C06 | `intersection`, `_line_intersect` | upper bound + attained point by cases |
| C07-C09 | `simmilarity`, `jaccard_similarity`, `merge` | arithmetic; witnesses for the refuted parts |
| C10 | discrete sets | list induction |
| C11, C12 | `get_fuzzy_variables`, `dataset_membership` | dict/list induction |
| C13 | `_fuzzy_entropy`, `_weighted_fuzzy_entropy` over R | Gibbs inequality (`ln x <= x-1`); equal to the written-out formula of S_Discretize.v |
| C14, C15, C76 | `_fuzzy_discretization` recursion over R-valued gain | well-founded size argument; invariant on the recursion tree; witness for the lost maximum; C76 against the relation `divided` of S_Discretize.v (best gain, first of ties, required gain), for every threshold, with uniqueness |
| C16-C22 | `Rule`: matching, multi-value matching, simplify, weighted_vote, crisp cut, map_rule_variables, to_json | list induction |
| C23-C25, C27, C28 | `FDT` fit/predict with set-order oracle | invariants over the growing recursion; fuel = number of features + 1 |
| C26 | FDT prediction versus its rules | tree induction relating leaf votes to rule totals; witnesses for ties and a root leaf |
| C29 | refit on an existing root | execution of the second fit on the first tree; witness |
| C30 | choice of the feature | argmax over any permutation |
| C31, C32 | `FBDT` splits, growth and termination | invariants; complement of degrees |
| C33 | FBDT prediction versus its simplified rules (rows `partitioned`: degrees of each variable sum to 1; proved for every variable built by this library's constructors, refuted for overlapping sets) | tree induction |
| C34 | the heap of `ignored` arrays (first use shares the array, in-place marking) | simulation of the heap model by a pure one; witnesses |
| C35 | public `to_rule_based_system(verbose, simplify)` of the three trees | the flags are positional: computation + general statements |
| C36-C39 | `ID3` with class- and feature-order oracles | invariants over the growing recursion; witnesses |
| C40 | `score` of the three trees | counting |
| C41-C43 | rule metrics | counting lemmas |
| C44-C47 | counterfactual metrics | arithmetic over lists |
| C48-C51 | factual methods | sortedness + prefix reasoning |
| C52-C58 | counterfactual methods | sorted search = argmin; literal distances bounded by induction |
| C59-C61, C80-C82 | explainer state machines (`fdt_fit`, `fbdt_fit`, `fid3_fit`), F1 fidelity | induction over operation histories; composition of the theorems on trees and methods |
| C62, C83 | neighbourhood state (`fit`, `fuzzify`, accessors) | induction over histories; composition with C11/C12 |
| C63 | `SimpleNeighborhood` | direct |
| C64, C65 | fast sampling with random oracle | loop invariants, variant 100*size + 1 rounds |
| C66-C68 | genetic algorithm, `get_oversample` | invariants over all random streams |
| C69-C71 | distance functions | list induction, Cauchy-like inequality for the variance ratio |
| C72-C75, C84-C87 | `util.py`, `generate_dataset`, 'mixed' distance | list/dict induction; specification of argsort as any sorting permutation |
| C77-C79 | ID3 pruning, structure, gain | invariants |
| C88, C89 | FBDT split choice, category order | invariants with a sort oracle |
| C90 | the four LORE fitness functions | arithmetic with NaN as `None` |
| C91 | `generate_data` with deap's eaSimple/varAnd | invariants over all draws |
| C92 | `calculate_feature_values` | fold invariant |
| C93 | `genetic_neighborhood` | composition |
| C94 | `_smooth_neighborhood` | masks and squares; Chebyshev's inequality for the rows lost |
| C95 | `LoreNeighborhood.fit` | composition of all the above |
| C96 | `generate_random_data` | fold over columns |
| C97 | `real_data`, `closed_real_data`, `random_neighborhood` | composition with label encoding |
| C98 | `get_feature_values` and the initialisers using it | direct, composition with C67 |
| C99 | the loaders that rearrange a table, with `generate_dataset` (C86) | column lemmas, composition with C86's round trip |
| C100 | `load_adult`; value_counts().index[0] = any most frequent value | induction on columns |
| C101 | `load_compas` up to `generate_dataset`; missing values as `None`; times read by an oracle into seconds | direct, column by column |
| C102 | `__eq__` of the three trees, dictionaries compared regardless of order | tree induction; class order recovered from the sorted class lists of trained trees |
| C103 | `Rule.__eq__`, `__hash__`, `matching` of one rule type with both kinds of literal; hash() = any function of the tuple, TypeError on a list | direct; non-empty antecedents by tree induction |
| C104 | dataclass `__eq__`, `__lt__` on point lists, `__hash__` | lexicographic order lemmas |
| C105 | `freedman_diaconis`, `struges`, `estimate_nbr_bins`; numpy percentile (linear interpolation) over Qc, cube root and log2 in R | sorted-list lemmas, monotonicity of cube and log |
| C106 | `best_fit_distribution` over an oracle giving each fit's parameters and error, `get_distr_values` over an oracle of quantiles | induction over the list of distributions |
| C107 | `calculate_feature_values` with both flags | induction over the columns, equality with the plain version |
| C108 | `generate_artificial_features` as a state transformer of the caller's lists | direct; injectivity of the decimal names |
| C109 | `generate_dataset(normalize=True)` with the caller's table as state; deviation of a column = any positive number | the result is the plain dataset of the standardised table (C86), rebuilt by C75 |
| C110 | `fit` of the three trees on reordered and repeated rows (`rows_times`), trees compared without their per-row arrays | simulation: all arrays are read at one list of positions; induction on fuel. FBDT through the private-marks semantics of C34; ID3 by permutation invariance of every table function |
| C111 | `entropy_points` on a converted, renamed, permuted column | transport of the specification `divided` of C76 and its uniqueness |
| C112 | two FDT or two FBDT trainings over variables of the same names | `fit` of the second = `fit` of the first with the stored variables exchanged; degrees of triangles are invariant under `k*x+b` |
| C113 | `Rule.__str__`; Python's `str` of classes and weights as functions | injectivity: the separators cannot occur in the parts, so the text can be cut uniquely |
| C114 | `TreeFDT.__str__` | lines by tree induction on well-formed trees (C23); unique reading of the text by induction, indentation included |
| C115 | `TreeFBDT.__str__`, in which indexing the sets by a list raises and is swallowed | lines by tree induction; the refutation trains two trees explicitly |
| C116 | `TreeID3.__str__` | totality and unique reading by tree induction on trained trees |
| C117 | `gpdatagenerator.mutate` and `random_init`, draws as functions of the position | fold invariants over the positions |
| C118 | `genetic_neighborhood_old` | the two functions run the same `generate_data`; C91; a witness run of 1000 individuals evaluated by the kernel |
| C119 | `dataframe2explain`, Python's negative indices | C75 and C86 |
| C120 | `bt_fit` on a fitted root (children appended, root dictionary of ignored rows stays empty) | the refitted tree is the merge of both trees; leaves are concatenated; supports add |
| C121 | FDT and FBDT training, prediction, rules on labels renamed by an injective / increasing map (`relabel`) | the training functions commute with renaming (equation including exceptions); supports are equal, so `best_class` is carried over |
| C122 | ID3 training/prediction/rules and `_fuzzy_discretization` on renamed labels | induction over the recursion; entropy is a sum over classes, invariant under permutation |
| C123 | FDT, FBDT and ID3 training, predictions and rules with variables and sets under other names (`rename`, `brename`, `rename_id3`) | the training functions commute with injective renaming (equation including exceptions): dictionaries are looked up under renamed keys; ID3 trees contain no names |
| C124 | `fit` of FDT, FBDT and ID3 with the tree as it is when an exception leaves the call (`fit_st`, `bt_fit_st`, `id3_fit_st`, the assignments in program order) | the stateful models have the results of the models used everywhere else (induction over the recursion); all-or-nothing from the totality theorems C25, C32, C39; witnesses for threshold 0 and for pruning |
| C125 | FDT and ID3 training, prediction and rules on tables whose columns are moved by a bijection; FBDT witness | trees mention columns by position: training on the moved table gives the renumbered tree (induction over the recursion, dictionaries looked up by name); without ties C30 removes the hypothesis on set orders; refutation by two equal columns |
| C126 | `_equal_width`, `_equal_freq`, `get_fuzzy_points` with `pandas.cut`/`qcut` spelled out (`_round_frac`, `_infer_precision`, `_bins_to_cuts`, linear quantiles) in exact arithmetic | rounding shown monotone, idempotent and within half a unit; quantiles unique and monotone; coverage from C02; witnesses for the refuted parts |
| C127 | `fuzzify` with `equal_width`/`equal_freq`, the pandas calls of C126 as the oracle of M_Neighborhood; FDT on the result | as C83, with the points of C126 in place of the entropy points; coverage from C02/C126; repeated quantiles by C126_equal_freq_repeated and a concrete training run |
| C128 | `SamplingNeighborhood.fit` with its computations spelled out (decoding of instance, table and outcomes, generation, predictions) and the fuzzify that follows | the decoding loop over the encoders by induction (each column is decoded once); generation by C64; fuzzify by C83_succeeds; the degrees of the last row by commuting memberships with taking the last element |
| C129 | `FDTExplainer.fit` as in M_Explainer, with training, rule extraction, prediction, the factual methods and i_/f_counterfactual | exact success condition: every step shown total on a prepared call (C25, C26, C27, C48-C50, search totality by induction over distances), converse from C80; class coverage and the firing bound by descending to a leaf the row is covered by and counting leaves |
| C130 | `FBDTExplainer.fit` as in M_Explainer, with binary training, rule extraction, prediction and the factual methods | as C129: every step total on a prepared call (C32, C33, C48-C50); a covered row descends to a leaf along the groups that hold its sets (induction over the tree, with the marks of C34); leaves counted by the combinations of sets they divide between them |
| C131 | fuzzify('entropy') of M_Neighborhood followed by the explainers of M_Explainer | two points by induction over `divided` along the leftmost sides; degree 1/2 from sum 1 and at most two neighbouring positive degrees; preparedness from C83 and success from C129/C130; the lost values by building `divided` for 1..n (induction over the right side) and uniqueness (C76) |
| C132 | `FDTExplainer.fit` with `d_counterfactual` (M_Explainer, M_Counterfactual, moth of M_Metrics); `mixed` and `float` are parameters | as C129, with: the applied memberships keep their keys, so every strongest set is a set of its variable and its name is read; moth is total by induction over the pairs; after fuzzify the order and names come from C83 |
| C133 | fuzzify by equal width or equal frequency (M_Neighborhood with `pandas_cut` of M_Cut2) followed by the explainers of M_Explainer | number of sets from the points of C126; degree 1/2 as in C131; rows between the peaks from the degrees of C127; preparedness and success from C127, C129, C130, C132 |
| C134 | `ID3.fit` on any previous tree (M_ID3), iterated | the root decision depends on the previous tree only through the recorded number of leaves (case analysis of one call); score = 1 - recorded error (C37); induction over the number of refits, and the archimedean property for the collapse |
| C135 | `fit` of M_FDT and M_FBDT folded over a list of data sets | induction from the end of the history: the root keeps all children; leaves, supports and rules of the concatenated children split up by data set; prediction from C27/C33; order from invariance of sums and maxima under permutation |
| C136 | `fit`, `predict`, rule extraction and score of both trees (M_FDT, M_FBDT) | simulation: at corresponding nodes the two searches for the best split run in step (induction over the variables), induction over the depth; predictions and rules by induction over the pair of trees; simplification by distinct features on a path (C24) |
| C137 | `fit`, `predict`, `score` of M_FDT on rows with degrees 0 and 1 | induction over the tree: the children of a node are all sets of one variable (C24), so exactly one child continues the row; leaf weights are counts (C23); the training score by summing over the leaves |
| C138 | `bt_fit`, `bpredict`, `bt_score` of M_FBDT on rows with degrees 0 and 1 | the two branches of a node split the available sets of one variable (C32), so exactly one continues a crisp row; the heap of marks is never written on crisp rows (C34); leaf weights are counts; the training score by summing over the leaves |
| C139 | `fit`, `predict` of M_FDT and `id3_fit`, `id3_tree_predict` of M_ID3 on one table | the fuzzy entropy of 0/1 degrees is the Shannon entropy of the rows at the node (C137), so both criteria coincide; by induction along the path both trees test the same column (C30, C79); at the leaf both answer the least most frequent class (C37) |
| C140 | `id3_fit`, `id3_tree_predict`, `id3_score` of M_ID3 with as many levels as features | every known row reaches a leaf at depth = number of features (C78), so the rows of a leaf agree on all features and the leaf's majority class (C37) is optimal for that group; summing over the groups by induction on the table |
| C141 | S_Depth: the same parameters with another limit, cut-off relations of the three kinds of trees (no reference to training), height | induction on the recursion of both fits in lockstep (for the FBDT on the version with private arrays of P_FBDT5, then transferred); the score by grouping the training rows by the tests and the majority of every leaf; beyond the number of features refuted with the dead ends of C39 |
| C142 | S_Stricter: pairs of parameter sets of which one is stricter; the cut-off relations of S_Depth | induction on the recursion of both fits in lockstep: a stop test that fires for the weaker parameters fires for the stricter ones; the score of ID3 as in C141 |
| C143 | S_Collapse: the same parameters without pruning and a relation between trees that does not mention training | induction on the recursion of both fits in lockstep; the score by comparing the two trees node by node, a collapsed node being a majority leaf; beyond the number of features refuted with the dead ends of C39 |
| C144 | `fdt_fit`, `fbdt_fit` of M_Explainer and `fuzzy_vars`/`fuzzify_of` of M_Neighborhood with the rows permuted | training by C110, predictions row by row (C27, C33), F1 by invariance of counts under permutations; fuzzify by C111 and the invariance of minima, sorted values and quantiles; with categorical columns refuted |

No property of the list is inexpressible in the model; none is only partially proved
(a theorem that covers only part of its property would be named `…_partial`).

## 3. Trusted base

* Coq 8.16.1's kernel (including `vm_compute`), and the standard library.  No other library, no plugin,
  no axiom of our own, no functor or module type, no kernel check switched off.
* The standard library's axioms of the classical reals for theorems that mention `R`; section 5 says which theorems.
* The reading of the Python code (no extraction; nothing was run) and of the libraries it calls (section 4).
* The specification files `S_*.v` and the statements in `Properties_*.v`.

### Parts of the code that are modelled
`fuzzy/` completely; `tree/` completely (verbose output excepted); `metrics/` completely
(for the `mixed` distance the metrics 'euclidean' and 'jaccard', ratio_cont=None, agg=None);
`explanation/` completely; `neighbors/` and `utils/` and `datasets/` except for the list below.

### Parts that are not modelled
* the numerical fitting of the 14 scipy distributions (`best_fit_distribution`) and their quantile functions: any outcome of the fits.
* `neighbor_generator.random_oversampling`, `random_instance_selection` (imblearn; `fit_sample` and
  `return_indices` are gone from the current release).
* the numerical value of the deviation computed by StandardScaler (any positive number), the scaler object itself.
* mean and deviation of the normal draws (a draw is any number).
* `get_closest_diffoutcome` for a ratio above 1; infinite values; NaN in input data.
* `FuzzySet`/`FuzzyVariable` `__str__` and `__repr__`, plotting, printing with verbose (printed rules and trees are modelled: C113-C116).
* reading the files (`pd.read_csv`): the loaders are modelled from the table on; `generate_dataset` on a table with missing values.

## 4. How library calls are read

* **numpy**: arrays are lists; boolean masks filter; `np.unique` sorts and removes duplicates (a mixed column of
  numbers and text raises TypeError); `np.argmax`/`max` return the first maximum; `np.argsort` is any function that returns
  a permutation of the positions sorting the values, NaN last (oracle, `stable_sorts` shows that one exists);
  `np.round` rounds halves to even; `astype(int)` truncates towards zero; the mean or variance of an empty array, and `0/0`, are NaN;
  comparisons with NaN are false; length-1 broadcasting is not modelled (arrays of different lengths raise ValueError);
  `np.random.choice(a, size, p)` passes `p` as `replace` (third positional parameter); `np.random.choice` of no value raises ValueError;
  `np.concatenate` of no array raises ValueError; `np.max` of no value raises ValueError.
* **pandas** (< 3): a DataFrame is a dictionary of columns; chained in-place assignments write into the frame; `std()` has ddof=1;
  `unique()` keeps the order of first appearance; `cut`/`qcut` are oracles in M_Neighborhood and computed as in pandas' tile.py in M_Cut; `dtypes` is a function of the column.
* **scikit-fuzzy** `trimf`: as in `M_Fuzzy.tri`: ValueError-like rejection of unordered points, closed triangle, peak 1.
* **scikit-learn**: `check_X_y`/`check_array` reject empty or inconsistent arrays with ValueError; `LabelEncoder.classes_` are the sorted
  distinct values, `transform` of an unseen value and `inverse_transform` of a number that is no position raise ValueError;
  `f1_score` 'binary' needs pos_label 1 among two labels and at most two labels, 'weighted' weighs by support, 0/0 is 0.
* **scipy**: `stats.entropy(pk, base=2)` normalises and reads `0 log 0` as 0; `zscore` has ddof=0 and is NaN on a constant column;
  `cdist(…, 'jaccard')` on numbers is the share of differing positions among those where one is non-zero, 0 if there is none.
* **deap**: `eaSimple` = evaluate, then `ngen` times select, `varAnd` (mating of pairs, then mutation), evaluate;
  `cxTwoPoint` as in `two_point` (fewer than two genes: ValueError); tournament selection = any choice of members;
  `HallOfFame` = any choice of at most its size of the evaluated individuals (size 0: IndexError at its first update).
* **Python**: `max`/`sorted`/`dict`/`zip`/`enumerate` as in Prelude; iterating a `set` gives any order;
  in the recursion of the discretisation `tuple == numpy scalar` compares elementwise.

## 5. `Print Assumptions`

Every `Properties_*.v` prints the assumptions of each of its theorems when it is compiled.  The following answers occur:

* `ClassicalDedekindReals.sig_forall_dec`, `ClassicalDedekindReals.sig_not_dec`, `Classical_Prop.classic`, `FunctionalExtensionality.functional_extensionality_dep` (275 theorems):
  C102_fbdt, C102_fdt, C102_variables_refuted, C103_fbdt_unhashable, C105_bins, C105_common_value, C105_equal_quartiles, C105_few, C106_spread, C106_total, C107_default, C107_estimation_fails, C107_values, C110_fbdt_repeated_rows, C110_fbdt_row_order, C110_fdt_refit_row_order, C110_fdt_repeated_rows, C110_fdt_row_order, C110_id3_row_order, C111_discretisation_in_other_units, C112_fbdt_only_degrees_matter, C112_fbdt_units_of_measure, C112_only_degrees_matter, C112_units_of_measure, C114_lines, C114_same_text_same_tree, C115_lines, C115_same_text_refuted, C116_prints, C116_same_text_same_tree, C120_refit_differs_from_fresh, C120_refit_keeps_old_subtrees, C120_refit_same_data, C120_refit_votes, C121_fbdt_increasing, C121_fbdt_renaming, C121_fbdt_training, C121_fdt_increasing, C121_fdt_renaming, C121_fdt_training, C121_ties_refuted, C122_discretisation, C122_entropy, C122_id3_new_tree, C122_id3_training, C123_fbdt, C123_fdt, C123_id3, C124_fbdt_all_or_nothing, C124_fbdt_failed_fit, C124_fdt_all_or_nothing, C124_fdt_failed_fit, C124_id3_all_or_nothing, C124_id3_failed_fit, C124_id3_pruning_refuted, C124_same_results, C124_zero_threshold_refuted, C125_fbdt_refuted, C125_fdt, C125_fdt_without_ties, C125_id3, C126_get_fuzzy_points, C126_get_fuzzy_points_rejects, C127_degrees, C127_pipeline, C127_ready_for_explainer, C127_repeated_quantiles_confuse_the_tree_refuted, C127_repeated_quantiles_share_a_name, C127_succeeds, C127_variables, C128_fuzzify, C129_every_class_has_a_rule, C129_exactly_when, C129_explained_class_fires, C129_leaf_count, C129_root_splits, C129_succeeds, C130_every_class_has_a_rule, C130_exactly_when, C130_explained_class_fires, C130_leaf_count, C130_root_splits, C130_succeeds, C131_fbdt_prepared, C131_fbdt_succeeds, C131_fdt_prepared, C131_fdt_succeeds, C131_half, C131_repeated_maximum, C131_rows_among, C131_two_points, C131_two_sets, C131_values_lost, C132_exactly_when, C132_fuzzified_follows, C132_fuzzified_measurable, C132_mixed_never_succeeds, C132_other_distances, C132_pipeline, C132_succeeds, C133_d_succeeds, C133_fbdt_prepared, C133_fbdt_succeeds, C133_fdt_prepared, C133_fdt_succeeds, C133_follows, C133_half, C133_measurable, C133_rows_among, C133_sets, C133_two_sets, C134_alternates, C134_repeated, C134_with_pruning, C134_without_pruning, C135_fbdt_leaf_forgets, C135_fbdt_order, C135_fbdt_prediction, C135_fbdt_split_recalls, C135_fdt_leaf_forgets, C135_fdt_order, C135_fdt_prediction, C135_fdt_split_recalls, C136_same_classifier, C136_same_classifier_from_binary, C137_majority, C137_one_leaf, C137_settings, C137_training_score, C138_majority, C138_memberships, C138_one_leaf, C138_settings, C138_training_score, C139_agree, C139_choice, C139_gain, C139_part_of_id3, C139_stopping_differs, C13_entropy_bounds, C13_entropy_formula, C13_entropy_row_order, C13_entropy_scale, C13_entropy_zero_iff_pure, C13_weighted_entropy_bounds, C13_weighted_formula, C140_consistent, C140_optimal, C141_fbdt, C141_fbdt_unchanged, C141_fdt, C141_fdt_unchanged, C141_id3, C141_id3_score, C141_id3_score_beyond_features_refuted, C142_fbdt, C142_fdt, C142_id3, C142_id3_score, C143_pruning_prunes, C143_score, C143_score_beyond_features_refuted, C144_categories_refuted, C144_fbdt, C144_fdt, C144_fuzzify, C144_pipeline, C14_constant_column, C14_discretisation, C14_single_row_without_threshold, C15_repeated_maximum_kept, C15_single_maximum_refuted, C23_leaf_distribution, C24_children, C24_paths, C25_no_stuck_node, C25_nonpositive_threshold, C25_root_key_error, C25_training_total, C26_root_leaf_rules_fail, C26_strict_winner, C26_tie_disagreement, C26_votes_equal_rule_totals, C27_leaves_are_leaf_nodes, C27_predict_maximal_vote, C27_predict_rowwise, C27_variable_without_sets, C28_node_memberships, C28_tnorm_never_influences_training, C29_refit_differs_from_fresh, C29_refit_keeps_old_subtrees, C29_refit_same_data, C29_refit_votes, C30_gain_optimal_choice, C30_order_irrelevant_without_ties, C30_ties_depend_on_order, C31_nested, C31_split, C32_depth, C32_leaf_distribution, C32_nonpositive_threshold, C32_training_total, C33_leaves_are_leaf_nodes, C33_overlapping_sets_refuted, C33_predict_maximal_vote, C33_root_leaf_rules_fail, C33_strict_winner, C33_votes_equal_rule_totals, C34_crisp_rows_unaffected, C34_first_use_shares_exactly, C34_partly_left_counts_fully_right, C34_reuse_marks_before_the_right_side, C34_sharing_is_not_observable, C35_fbdt_threshold_zero, C35_fbdt_verbose_returns_nothing, C35_fdt_threshold_zero, C35_fdt_verbose_returns_nothing, C36_known_rows_classified, C36_known_rows_classified_shallow, C36_none_iff_unseen, C36_only_training_labels, C36_predict_known, C36_unseen_value, C37_error_is_training_error, C37_majority_class, C37_unreached_node, C38_exactly_one_rule, C39_constant_column_fails, C39_dead_ends, C39_only_zero_division, C39_success, C59_explain_fbdt, C59_explain_fdt, C59_hit, C60_argument_errors_change_nothing, C60_failed_fit, C60_mixed_state, C60_stale_prediction, C61_write_explanation_fbdt_never, C61_write_explanation_fdt, C62_X_membership_history, C62_argument_errors, C62_fuzzify_needs_fit, C62_get_X, C62_get_y, C62_mixed_after_failure, C62_stale_membership, C62_successful_fuzzify, C76_cuts_are_gain_optimal, C76_points_unique, C77_beats_majority, C77_kept_splits, C77_refit_can_lose_accuracy, C78_inner_nodes, C78_paths, C79_best_gain, C80_successful_fit, C80_superfluous_arguments, C81_encoded_instance_refuted, C81_explained_class_is_supported, C82_fbdt_needs_binary_labels, C82_fdt_two_classes_need_one, C82_fid3_never_explains, C82_fidelity, C83_degrees, C83_one_row_fails, C83_peaks, C83_pipeline, C83_ready_for_explainer, C83_succeeds, C83_variables, C88_chosen_split_is_best, C88_leaf_reason_and_weights, C88_unreached_leaf_takes_parents_weights, C89_categories_split_by_share.

* **Closed under the global context** (no axiom) (286 theorems):
  C01_membership_monotone, C01_membership_shape, C01_unordered_points_rejected, C02_strong_partition, C03_generation, C03_point_and_errors, C03_sorted_peaks_valid, C04_default_labels_collapse, C04_equal_freq_fallback_repeats, C04_repeated_first_peak, C05_alpha_cut_exact, C05_alpha_cut_nested, C05_alpha_cut_rejects, C05_alpha_cut_zero_one, C06_intersection_is_height, C06_intersection_laws, C07_degree_refuted, C07_location_refuted, C07_simmilarity_bounds, C07_simmilarity_self, C07_simmilarity_shift_blind, C07_simmilarity_symmetric, C08_jaccard_laws, C08_jaccard_self, C08_jaccard_value, C09_merge_algebra, C09_merge_covers, C100_dataset, C100_fails, C100_no_unknown_left, C100_table, C100_unknown_stays, C101_dataset, C101_fails, C101_rounding, C101_table, C101_total, C102_equivalence, C102_fbdt_equivalence, C102_id3, C102_id3_identical, C103_compared, C103_equal_rules, C103_fdt_hashable, C103_flag_refuted, C103_matching, C103_name_in_multi_rule, C103_unequal_rules, C104_compared, C104_discrete, C104_equal, C104_listed_in_order, C104_names, C104_order, C104_unequal, C105_quartiles, C106_best_fit, C106_perfect_fit_refuted, C108_artificial, C108_class_missing, C108_repeat_refuted, C109_integer_lost, C109_normalized, C109_nothing_to_scale, C109_rebuild, C109_standardised, C10_discrete_degree, C10_discrete_intersection, C10_discrete_partition, C112_sets_of_converted_points, C113_blanks_refuted, C113_same_text_same_binary_rule, C113_same_text_same_rule, C117_mutate, C117_mutate_defined, C117_order_refuted, C117_random_init, C117_random_init_total, C117_random_row, C117_zero_probability_refuted, C118_agrees, C118_one_outcome_refuted, C118_rows, C119_gives_table_back, C119_out_of_range, C119_table, C11_default_labels, C11_unknown_name_raises, C11_variables_at_their_columns, C122_id3_predictions_and_rules, C123_degrees_and_votes, C126_constant_column_refuted, C126_equal_freq_points, C126_equal_freq_repeated, C126_equal_width_covers, C126_equal_width_points, C126_maximum_uncovered_refuted, C126_minimum_counted_twice_refuted, C126_quantile_shares, C126_quantiles, C127_calls, C129_sum_covers, C12_dataset_membership, C137_categories, C144_pandas_order_blind, C16_matching_empty_raises, C16_matching_is_minimum, C16_matching_order_irrelevant, C16_matching_unit_interval, C16_matching_unknown_is_zero, C17_multi_matching_is_minimum_of_sums, C17_multi_matching_monotone, C17_multi_matching_unit_interval, C17_multi_matching_unknown_is_zero, C18_simplify_keeps_matching, C18_simplify_shortest_literal, C19_empty_antecedent_raises, C19_empty_rule_list_raises, C19_vote_is_first_maximal_class, C20_bad_cut_raises, C20_crisp_defined, C20_crisp_iff_matching_at_cut, C21_different_universes_raise, C21_mapping_identity, C21_mapping_picks_best_set, C21_unknown_map_function_raises, C22_json_lists_the_literals, C22_json_multi_lists_the_literals, C22_json_unknown_name_raises, C22_lookup_found, C22_lookup_sound, C22_lookup_unknown, C27_voting_names, C28_activation_is_minimum, C33_built_variables_are_partitioned, C35_id3_public_rules_fail, C40_fbdt_score, C40_fdt_score, C40_id3_score, C41_coverage, C41_coverage_monotone, C41_not_the_union_refuted, C42_precision, C42_precision_errors, C43_fidelity, C43_rule_fidelity, C44_distance_formula, C44_pseudometric, C45_empty_instances, C45_sparsity, C46_implausibility, C47_instability, C48_m_factual, C48_nothing_fired, C49_mr_factual, C49_single_class, C50_c_factual, C50_monotone, C50_nothing_fired, C51_FID3_factual, C52_apply_changes, C52_others_untouched, C52_wanted_set_is_strongest_afterwards, C53_i_counterfactual, C54_distance_zero_never_considered_refuted, C54_f_counterfactual, C55_d_counterfactual, C56_multiclass, C57_FID3_counterfactual, C57_distance, C58_distance_bounds, C58_distance_of_rules, C58_distance_to_instance, C58_equal_names_distinct_objects_refuted, C58_literal_distance, C58_single_set_raises, C62_fit_keeps_memberships, C63_copies, C63_failing_black_box, C66_population, C66_replacement, C66_succeeds, C67_crossover, C67_crossover_succeeds, C67_genes, C67_mutation, C67_tournament, C68_oversample, C68_threshold_unique, C68_too_small, C69_mad_metric, C69_mad_short, C69_mad_value, C69_simple_match, C69_simple_match_metric, C70_bounds, C70_continuous_only, C70_convex, C70_undefined, C71_normalized, C71_opposite, C71_single, C71_square, C72_both_given, C72_class, C72_continuous_given, C72_discrete_given, C72_neither_given, C73_codes, C73_duplicate_refuted, C73_reencode, C73_rejects, C73_round_trip, C73_unseen, C74_closest, C74_continuous_only, C74_fails, C74_records, C75_class_elsewhere, C75_class_first, C75_columns, C75_total, C82_fid3_training_rows, C85_answer, C85_duplicates_refuted, C85_share_refuted, C85_shared, C86_class_elsewhere_fails, C86_class_elsewhere_refuted, C86_describes, C86_outcome_order_refuted, C86_rejects, C86_round_trip, C86_total, C86_types, C87_general, C87_other, C87_single, C90_default_distance, C90_distance_order, C90_outcome_first, C90_range, C90_record_itself, C90_undefined, C91_constant_blackbox_fails, C91_default_needs_22, C91_rows, C91_small_runs_fail, C91_total, C91_undefined_distance_fails, C92_errors, C92_feature_values, C92_no_new_categories, C93_continuous_only, C93_few_continuous_fails, C93_small_population_fails, C93_two_outcomes, C94_constant_column_loses_all, C94_few_rows_lost, C94_outliers_remain_refuted, C94_smoothed, C94_text_encoder_fails, C95_decoded, C95_fit, C95_instance_outcome, C95_outcomes_of_labels_refuted, C95_text_encoder_fails, C95_text_feature_fails, C96_rejects, C96_rows, C96_total, C96_uniform_ignored, C97_closed_real_data, C97_random_neighborhood, C97_real_data, C97_real_data_total, C98_generators, C98_informed_individual, C98_population, C98_random_individual, C99_basket, C99_dropped, C99_last, C99_moved, C99_no_class, C99_plain.

* `ClassicalDedekindReals.sig_forall_dec`, `ClassicalDedekindReals.sig_not_dec`, `FunctionalExtensionality.functional_extensionality_dep` (13 theorems):
  C128_fit, C128_other_methods, C128_succeeds, C128_unknown_code, C64_fast_sampling, C64_slow_raises, C64_succeeds, C64_terminates, C65_constant_column, C65_distributions, C65_invalid_range, C84_closest_mixed, C84_mixed_distance.

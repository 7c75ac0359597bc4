| C99 | the loaders that rearrange a table, with `generate_dataset` (C86) | column lemmas, composition with C86's round trip |
| C100 | `load_adult`; value_counts().index[0] = any most frequent value | induction on columns |
| C101 | `load_compas` up to `generate_dataset`; missing values as `None`; times read by an oracle into seconds | direct, column by column |
| C102 | `__eq__` of the three trees, dictionaries compared regardless of order | tree induction; class order recovered from the sorted class lists of trained trees |
| C103 | `Rule.__eq__`, `__hash__`, `matching` of one rule type with both kinds of literal; hash() = any function of the tuple, TypeError on a list | direct; non-empty antecedents by tree induction |
| C104 | dataclass `__eq__`, `__lt__` on point lists, `__hash__` | lexicographic order lemmas |
| C105 | `freedman_diaconis`, `struges`, `estimate_nbr_bins`; numpy percentile (linear interpolation) over Qc, cube root and log2 in R | sorted-list lemmas, monotonicity of cube and log |
| C106 | `best_fit_distribution` over an oracle giving each fit's parameters and error, `get_distr_values` over an oracle of quantiles | induction over the list of distributions |
| C107 | `calculate_feature_values` with both flags | induction over the columns, equality with the plain version |
| C108 | `generate_artificial_features` as a state transformer of the caller's lists | direct; injectivity of the decimal names |
| C109 | `generate_dataset(normalize=True)` with the caller's table as state; deviation of a column = any positive number | the result is the plain dataset of the standardised table (C86), rebuilt by C75 |
| C110 | `fit` of the three trees on reordered and repeated rows (`rows_times`), trees compared without their per-row arrays | simulation: all arrays are read at one list of positions; induction on fuel. FBDT through the private-marks semantics of C34; ID3 by permutation invariance of every table function |
| C111 | `entropy_points` on a converted, renamed, permuted column | transport of the specification `divided` of C76 and its uniqueness |
| C112 | two FDT or two FBDT trainings over variables of the same names | `fit` of the second = `fit` of the first with the stored variables exchanged; degrees of triangles are invariant under `k*x+b` |
| C113 | `Rule.__str__`; Python's `str` of classes and weights as functions | injectivity: the separators cannot occur in the parts, so the text can be cut uniquely |
| C114 | `TreeFDT.__str__` | lines by tree induction on well-formed trees (C23); unique reading of the text by induction, indentation included |
| C115 | `TreeFBDT.__str__`, in which indexing the sets by a list raises and is swallowed | lines by tree induction; the refutation trains two trees explicitly |
| C116 | `TreeID3.__str__` | totality and unique reading by tree induction on trained trees |
| C117 | `gpdatagenerator.mutate` and `random_init`, draws as functions of the position | fold invariants over the positions |
| C118 | `genetic_neighborhood_old` | the two functions run the same `generate_data`; C91; a witness run of 1000 individuals evaluated by the kernel |
| C119 | `dataframe2explain`, Python's negative indices | C75 and C86 |
| C120 | `bt_fit` on a fitted root (children appended, root dictionary of ignored rows stays empty) | the refitted tree is the merge of both trees; leaves are concatenated; supports add |
| C121 | FDT and FBDT training, prediction, rules on labels renamed by an injective / increasing map (`relabel`) | the training functions commute with renaming (equation including exceptions); supports are equal, so `best_class` is carried over |
| C122 | ID3 training/prediction/rules and `_fuzzy_discretization` on renamed labels | induction over the recursion; entropy is a sum over classes, invariant under permutation |
| C123 | FDT, FBDT and ID3 training, predictions and rules with variables and sets under other names (`rename`, `brename`, `rename_id3`) | the training functions commute with injective renaming (equation including exceptions): dictionaries are looked up under renamed keys; ID3 trees contain no names |
| C124 | `fit` of FDT, FBDT and ID3 with the tree as it is when an exception leaves the call (`fit_st`, `bt_fit_st`, `id3_fit_st`, the assignments in program order) | the stateful models have the results of the models used everywhere else (induction over the recursion); all-or-nothing from the totality theorems C25, C32, C39; witnesses for threshold 0 and for pruning |
| C125 | FDT and ID3 training, prediction and rules on tables whose columns are moved by a bijection; FBDT witness | trees mention columns by position: training on the moved table gives the renumbered tree (induction over the recursion, dictionaries looked up by name); without ties C30 removes the hypothesis on set orders; refutation by two equal columns |
| C126 | `_equal_width`, `_equal_freq`, `get_fuzzy_points` with `pandas.cut`/`qcut` spelled out (`_round_frac`, `_infer_precision`, `_bins_to_cuts`, linear quantiles) in exact arithmetic | rounding shown monotone, idempotent and within half a unit; quantiles unique and monotone; coverage from C02; witnesses for the refuted parts |
| C127 | `fuzzify` with `equal_width`/`equal_freq`, the pandas calls of C126 as the oracle of M_Neighborhood; FDT on the result | as C83, with the points of C126 in place of the entropy points; coverage from C02/C126; repeated quantiles by C126_equal_freq_repeated and a concrete training run |
| C128 | `SamplingNeighborhood.fit` with its computations spelled out (decoding of instance, table and outcomes, generation, predictions) and the fuzzify that follows | the decoding loop over the encoders by induction (each column is decoded once); generation by C64; fuzzify by C83_succeeds; the degrees of the last row by commuting memberships with taking the last element |
| C129 | `FDTExplainer.fit` as in M_Explainer, with training, rule extraction, prediction, the factual methods and i_/f_counterfactual | exact success condition: every step shown total on a prepared call (C25, C26, C27, C48-C50, search totality by induction over distances), converse from C80; class coverage and the firing bound by descending to a leaf the row is covered by and counting leaves |
| C130 | `FBDTExplainer.fit` as in M_Explainer, with binary training, rule extraction, prediction and the factual methods | as C129: every step total on a prepared call (C32, C33, C48-C50); a covered row descends to a leaf along the groups that hold its sets (induction over the tree, with the marks of C34); leaves counted by the combinations of sets they divide between them |
| C131 | fuzzify('entropy') of M_Neighborhood followed by the explainers of M_Explainer | two points by induction over `divided` along the leftmost sides; degree 1/2 from sum 1 and at most two neighbouring positive degrees; preparedness from C83 and success from C129/C130; the lost values by building `divided` for 1..n (induction over the right side) and uniqueness (C76) |
| C132 | `FDTExplainer.fit` with `d_counterfactual` (M_Explainer, M_Counterfactual, moth of M_Metrics); `mixed` and `float` are parameters | as C129, with: the applied memberships keep their keys, so every strongest set is a set of its variable and its name is read; moth is total by induction over the pairs; after fuzzify the order and names come from C83 |
| C133 | fuzzify by equal width or equal frequency (M_Neighborhood with `pandas_cut` of M_Cut2) followed by the explainers of M_Explainer | number of sets from the points of C126; degree 1/2 as in C131; rows between the peaks from the degrees of C127; preparedness and success from C127, C129, C130, C132 |
| C134 | `ID3.fit` on any previous tree (M_ID3), iterated | the root decision depends on the previous tree only through the recorded number of leaves (case analysis of one call); score = 1 - recorded error (C37); induction over the number of refits, and the archimedean property for the collapse |
| C135 | `fit` of M_FDT and M_FBDT folded over a list of data sets | induction from the end of the history: the root keeps all children; leaves, supports and rules of the concatenated children split up by data set; prediction from C27/C33; order from invariance of sums and maxima under permutation |
| C136 | `fit`, `predict`, rule extraction and score of both trees (M_FDT, M_FBDT) | simulation: at corresponding nodes the two searches for the best split run in step (induction over the variables), induction over the depth; predictions and rules by induction over the pair of trees; simplification by distinct features on a path (C24) |
| C137 | `fit`, `predict`, `score` of M_FDT on rows with degrees 0 and 1 | induction over the tree: the children of a node are all sets of one variable (C24), so exactly one child continues the row; leaf weights are counts (C23); the training score by summing over the leaves |
| C138 | `bt_fit`, `bpredict`, `bt_score` of M_FBDT on rows with degrees 0 and 1 | the two branches of a node split the available sets of one variable (C32), so exactly one continues a crisp row; the heap of marks is never written on crisp rows (C34); leaf weights are counts; the training score by summing over the leaves |
| C139 | `fit`, `predict` of M_FDT and `id3_fit`, `id3_tree_predict` of M_ID3 on one table | the fuzzy entropy of 0/1 degrees is the Shannon entropy of the rows at the node (C137), so both criteria coincide; by induction along the path both trees test the same column (C30, C79); at the leaf both answer the least most frequent class (C37) |
| C140 | `id3_fit`, `id3_tree_predict`, `id3_score` of M_ID3 with as many levels as features | every known row reaches a leaf at depth = number of features (C78), so the rows of a leaf agree on all features and the leaf's majority class (C37) is optimal for that group; summing over the groups by induction on the table |
| C141 | S_Depth: the same parameters with another limit, cut-off relations of the three kinds of trees (no reference to training), height | induction on the recursion of both fits in lockstep (for the FBDT on the version with private arrays of P_FBDT5, then transferred); the score by grouping the training rows by the tests and the majority of every leaf; beyond the number of features refuted with the dead ends of C39 |
| C142 | S_Stricter: pairs of parameter sets of which one is stricter; the cut-off relations of S_Depth | induction on the recursion of both fits in lockstep: a stop test that fires for the weaker parameters fires for the stricter ones; the score of ID3 as in C141 |
| C143 | S_Collapse: the same parameters without pruning and a relation between trees that does not mention training | induction on the recursion of both fits in lockstep; the score by comparing the two trees node by node, a collapsed node being a majority leaf; beyond the number of features refuted with the dead ends of C39 |
| C144 | `fdt_fit`, `fbdt_fit` of M_Explainer and `fuzzy_vars`/`fuzzify_of` of M_Neighborhood with the rows permuted | training by C110, predictions row by row (C27, C33), F1 by invariance of counts under permutations; fuzzify by C111 and the invariance of minima, sorted values and quantiles; with categorical columns refuted |

{"id": "C01", "title": "Triangular membership is a degree with the documented shape", "statement": "For a triangular set with points a<=b<=c, the membership of any value lies in [0,1], equals 1 exactly at the peak b, is 0 for every other value outside the open interval (a,c), is (x-a)/(b-a) strictly between a and b and (c-x)/(c-b) strictly between b and c, so it never decreases towards the peak. Points that are not ordered a<=b<=c are rejected with an error instead of producing degrees.", "quantifier": "all rational triangles (a,b,c) and all values x", "why_tests_cant": "the value and the three points range over a continuum; tests sample a handful", "anchors": ["src/teacher/fuzzy/fuzzy_set.py:FuzzyContinuousSet.membership (skfuzzy.trimf)"]}
{"id": "C02", "title": "Fuzzy variables built from increasing peaks are strong partitions", "statement": "For two or more strictly increasing peaks, every value between the first and last peak has membership degrees over the generated sets that sum to exactly 1, with at most two sets (adjacent ones) active; a value strictly below the first or above the last peak has degree 0 in every set.", "quantifier": "all strictly increasing peak lists of any length >= 2 and all values", "why_tests_cant": "needs every partition size and every value, including the peaks themselves", "anchors": ["src/teacher/fuzzy/_base.py:get_fuzzy_continuous_sets", "src/teacher/fuzzy/fuzzy_set.py:FuzzyContinuousSet.membership"]}
{"id": "C03", "title": "Continuous set generation preserves number, order, names and peaks", "statement": "From n>=2 (label, peak) pairs exactly n triangles are built, the i-th carrying the i-th label, peaking at the i-th peak, reaching down to the neighbouring peaks (to its own peak at both ends); sorted peaks give valid triangles. One pair gives a single point set that is 1 at the point and 0 elsewhere; an empty list and an unknown point-set method raise.", "quantifier": "all division lists of any length", "why_tests_cant": "list length and contents are unbounded", "anchors": ["src/teacher/fuzzy/_base.py:get_fuzzy_continuous_sets", "src/teacher/fuzzy/_base.py:_point_set"]}
{"id": "C04", "title": "Repeated peaks destroy the strong partition", "statement": "If a peak is repeated (which the equal-frequency fallback always produces at the first peak) the degrees of that value over the generated sets sum to more than 1; with default labels the duplicated label collapses in the membership dictionary so that fewer entries than sets remain.", "quantifier": "all sorted peak lists whose first two peaks coincide", "why_tests_cant": "the defect only shows for peak lists with ties, for every list size", "anchors": ["src/teacher/fuzzy/_discretize.py:_equal_freq", "src/teacher/fuzzy/_base.py:get_fuzzy_variables", "src/teacher/fuzzy/fuzzy_variable.py:FuzzyVariable.membership"]}
{"id": "C05", "title": "alpha_cut returns exactly the values whose membership reaches the cut", "statement": "For a<=b<=c and a cut in (0,1], x lies in the returned closed interval iff membership(x) >= cut; for cut 0 the interval is the support hull [a,c]; cuts are nested (higher cut, smaller interval), cut 1 is the peak; a cut outside [0,1] raises ValueError.", "quantifier": "all triangles, all cuts, all values", "why_tests_cant": "continuum of cuts and values", "anchors": ["src/teacher/fuzzy/fuzzy_set.py:FuzzyContinuousSet.alpha_cut"]}
{"id": "C06", "title": "intersection is the height of the fuzzy intersection", "statement": "For two valid continuous sets, intersection(A,B) is the maximum over all x of min(mu_A(x), mu_B(x)): no x exceeds it and some x attains it. Hence it lies in [0,1], is symmetric and is 1 for a set with itself (and exactly when the peaks coincide); mixing continuous and discrete sets raises ValueError.", "quantifier": "all pairs of valid triangles, including degenerate (vertical-edge and point) ones", "why_tests_cant": "geometric case analysis over a continuum of triangle pairs", "anchors": ["src/teacher/fuzzy/fuzzy_set.py:FuzzyContinuousSet.intersection", "src/teacher/fuzzy/fuzzy_set.py:FuzzyContinuousSet._line_intersect"]}
{"id": "C07", "title": "simmilarity is a symmetric degree but not reflexive and not location aware", "statement": "simmilarity is symmetric and at most 1; it can be negative (always above -1), lying in [0,1] whenever both left half-widths are at most the right ones. It depends only on the two half-widths of each triangle: shifting a set does not change it, sets with disjoint supports can get simmilarity 1, and a set whose left half-width is at least its right one has simmilarity 0 with itself.", "quantifier": "all pairs of valid triangles", "why_tests_cant": "universal law plus existence of witnesses", "anchors": ["src/teacher/fuzzy/fuzzy_set.py:FuzzyContinuousSet.simmilarity"]}
{"id": "C08", "title": "jaccard_similarity is a symmetric degree, 1 on identical proper sets, 0 on disjoint supports", "statement": "For valid triangles jaccard_similarity is symmetric, within [0,1], 0 whenever the supports share no open interval, 1 for a set of positive support against itself - and 0 (not 1) for a point set against itself.", "quantifier": "all pairs of valid triangles", "why_tests_cant": "continuum of pairs", "anchors": ["src/teacher/fuzzy/fuzzy_set.py:FuzzyContinuousSet.jaccard_similarity"]}
{"id": "C09", "title": "merge covers both inputs", "statement": "Merging two valid triangles whose names are printed numbers (any other name raises ValueError) yields a valid triangle whose support is the smallest interval containing both supports and whose peak is the midpoint of both peaks; merging is commutative and idempotent on the points.", "quantifier": "all pairs of valid triangles", "why_tests_cant": "continuum of pairs", "anchors": ["src/teacher/fuzzy/fuzzy_set.py:FuzzyContinuousSet.merge"]}
{"id": "C10", "title": "Discrete variables are crisp partitions", "statement": "A discrete set has degree 1 exactly for its value and 0 otherwise; over a discrete variable with pairwise distinct values the degrees of any value sum to 1 if it is one of them and to 0 otherwise. Intersection/simmilarity of discrete sets is 1 iff name and value agree.", "quantifier": "all discrete variables and all values", "why_tests_cant": "unbounded number of values", "anchors": ["src/teacher/fuzzy/fuzzy_set.py:FuzzyDiscreteSet", "src/teacher/fuzzy/_base.py:get_fuzzy_discrete_sets"]}
{"id": "C11", "title": "get_fuzzy_variables puts every variable at its column", "statement": "With injective in-range column positions, the i-th returned variable is the one whose position is i, built from its own points (continuous) or values (discrete) and labels; default labels are the printed points; a column given both ways ends up discrete; a column given neither way stays None; a name without position raises KeyError.", "quantifier": "all dictionaries of points, values, positions and labels", "why_tests_cant": "unbounded dictionaries", "anchors": ["src/teacher/fuzzy/_base.py:get_fuzzy_variables"]}
{"id": "C12", "title": "dataset_membership is column- and row-wise", "statement": "For variables with distinct names and sets with distinct names, the result has exactly one entry per variable and per set, and the degree of row r in set s of variable i is the membership of cell (r,i) in s: other rows and columns have no influence.", "quantifier": "all datasets and variable lists", "why_tests_cant": "unbounded tables", "anchors": ["src/teacher/fuzzy/_base.py:dataset_membership", "src/teacher/fuzzy/fuzzy_variable.py:FuzzyVariable.membership"]}
{"id": "C13", "title": "Fuzzy entropy is a proper entropy", "statement": "For non-negative membership degrees, the fuzzy entropy is the entropy in bits of the classes' shares of the membership mass; it is between 0 and log2 of the number of classes, is 0 iff at most one class has positive membership mass, does not depend on the order of the rows and is unchanged when all degrees are scaled by a positive factor; the weighted fuzzy entropy of a partition lies between 0 and (total mass / rows) * log2(number of classes).", "quantifier": "all membership vectors and labelings of any length", "why_tests_cant": "real-valued inequality (Gibbs) over unbounded vectors", "anchors": ["src/teacher/fuzzy/_discretize.py:_fuzzy_entropy", "src/teacher/fuzzy/_discretize.py:_weighted_fuzzy_entropy"]}
{"id": "C14", "title": "Entropy discretisation terminates with increasing points taken from the data", "statement": "On a column with at least two distinct values, for every threshold and depth limit, entropy discretisation terminates without error and returns a strictly increasing list of points, all values of the column, whose first element is the column minimum. With depth limit d>0 at most 2^d + 1 points are returned. A constant column of two or more rows returns its value twice; a single row raises ValueError when no threshold is given.", "quantifier": "all columns, labelings, thresholds and depth limits", "why_tests_cant": "recursion depth and data are unbounded", "anchors": ["src/teacher/fuzzy/_discretize.py:_fuzzy_discretization", "src/teacher/fuzzy/_base.py:get_fuzzy_points"]}
{"id": "C15", "title": "Entropy discretisation may lose the maximum of the column", "statement": "If the column maximum occurs at least twice the last returned point is the maximum, so the fuzzy variable covers the column's whole range. If the maximum occurs once this is false: for [1,2,3] with labels [0,0,1] and threshold 0 the points are [1,2], and the value 3 has degree 0 in every set.", "quantifier": "all columns; counterexample for singleton maxima", "why_tests_cant": "needs a universal coverage argument and a concrete witness", "anchors": ["src/teacher/fuzzy/_discretize.py:_fuzzy_discretization"]}
{"id": "C16", "title": "Rule matching is the minimum of the literal degrees", "statement": "matching of a rule with a non-empty antecedent whose literals all exist in the instance is the smallest of the literal degrees (so it is one of them, bounded by each, in [0,1] when they are, and independent of literal order); if any feature or set is unknown the matching is 0; an empty antecedent raises ValueError.", "quantifier": "all rules and all instance memberships", "why_tests_cant": "unbounded antecedents and memberships", "anchors": ["src/teacher/tree/rule.py:Rule.matching"]}
{"id": "C17", "title": "Multi-value rule matching is the minimum of the per-feature sums", "statement": "For rules with several sets per feature, matching is the minimum over features of the summed degrees; unknown names give 0; over a strong partition the result stays in [0,1] and adding a set to a literal never lowers it.", "quantifier": "all multi-value rules and memberships", "why_tests_cant": "unbounded", "anchors": ["src/teacher/tree/rule.py:Rule.matching"]}
{"id": "C18", "title": "simplify keeps one shortest literal per feature", "statement": "simplify keeps exactly the features of the antecedent in first-occurrence order, each with the first of its shortest values; simplifying twice changes nothing. If the literals of each feature are nested along the rule and degrees are non-negative, the matching of every instance is unchanged.", "quantifier": "all rules, all instances", "why_tests_cant": "unbounded antecedents", "anchors": ["src/teacher/tree/rule.py:Rule.simplify"]}
{"id": "C19", "title": "weighted_vote returns a class with maximal weighted support", "statement": "weighted_vote returns a consequent of the rule list whose total matching*weight is maximal among all consequents, the first-occurring one in case of ties; an empty rule list raises ValueError, and so does any rule with an empty antecedent.", "quantifier": "all rule lists and instances", "why_tests_cant": "unbounded rule bases", "anchors": ["src/teacher/tree/rule.py:Rule.weighted_vote"]}
{"id": "C20", "title": "Crisp rules agree with fuzzy rules at the cut", "statement": "For a cut in (0,1], an instance satisfies every literal of to_crisp(cut) (value in the interval / equal to the set's category) iff the fuzzy matching of the original rule is at least the cut; consequent and weight are kept; cuts outside [0,1] raise ValueError as soon as a continuous literal occurs.", "quantifier": "all rules over well-formed variables, all cuts, all instances", "why_tests_cant": "continuum of instances", "anchors": ["src/teacher/tree/rule.py:Rule.to_crisp"]}
{"id": "C21", "title": "map_rule_variables picks the best overlapping set per literal", "statement": "Mapping keeps features, their order, consequent and weight, and replaces each set by the first destination set with maximal intersection (or simmilarity); with identical strong-partition variables the intersection mapping is the identity; different universes or an unknown map function raise ValueError.", "quantifier": "all rules and variable lists", "why_tests_cant": "unbounded", "anchors": ["src/teacher/tree/rule.py:Rule.map_rule_variables"]}
{"id": "C22", "title": "to_json describes exactly the literals of the rule", "statement": "to_json returns the antecedent dictionary, consequent, weight, and one entry per literal (feature, set name, points for continuous sets) in rule order; names unknown to the variables raise KeyError.", "quantifier": "all rules and variables", "why_tests_cant": "unbounded", "anchors": ["src/teacher/tree/rule.py:Rule.to_json"]}
{"id": "C23", "title": "Every leaf of a fitted FDT holds a class distribution", "statement": "After fitting on a non-empty dataset every leaf assigns to every training class a weight in [0,1], the weights summing to 1; they are the class shares of the membership mass of the training rows at that leaf (at its parent if no training row reaches it).", "quantifier": "all datasets, variables, parameters and set iteration orders", "why_tests_cant": "all fit executions", "anchors": ["src/teacher/tree/fdt_tree.py:FDT._get_class_value", "src/teacher/tree/fdt_tree.py:FDT._partial_fit"]}
{"id": "C24", "title": "FDT structure respects its limits", "statement": "No path of a fitted FDT tests the same feature twice, path length is at most max_depth and at most the number of features, every inner node has exactly one child per fuzzy set of its feature, in set order.", "quantifier": "all datasets, variables, parameters and set iteration orders", "why_tests_cant": "all fit executions", "anchors": ["src/teacher/tree/fdt_tree.py:FDT._partial_fit", "src/teacher/tree/fdt_tree.py:FDT._stop_met"]}
{"id": "C25", "title": "FDT training terminates without error for positive thresholds", "statement": "With fuzzy_threshold > 0 fitting a consistent non-empty dataset always terminates normally, whatever the data and iteration orders; with fuzzy_threshold <= 0 fitting raises KeyError as soon as an impure node above the depth and size limits has no feature with positive gain.", "quantifier": "all datasets and iteration orders", "why_tests_cant": "absence of errors over all inputs", "anchors": ["src/teacher/tree/fdt_tree.py:FDT.fit", "src/teacher/tree/fdt_tree.py:FDT._get_max_f_gain"]}
{"id": "C26", "title": "FDT prediction and its rule system agree on the votes", "statement": "For every instance, the per-class totals used by predict (aggregated vote) equal the per-class totals of weighted matching over the extracted rules; so whenever one class has the strictly largest total, predict and Rule.weighted_vote on to_rule_based_system return the same class. On ties they can disagree.", "quantifier": "all fitted trees and all instances", "why_tests_cant": "equivalence of two evaluation procedures for all trees and inputs", "anchors": ["src/teacher/tree/fdt_tree.py:TreeFDT.predict", "src/teacher/tree/fdt_tree.py:TreeFDT.to_rule_based_system", "src/teacher/tree/rule.py:Rule.weighted_vote", "src/teacher/tree/_voting.py:_aggregated_vote"]}
{"id": "C27", "title": "FDT prediction is row-wise and returns a training class of maximal vote", "statement": "predict on a table returns for each row the class with the largest vote for that row alone (first in class order on ties); every predicted class is a training class; predicting rows together or separately gives the same answers. With 'max_match' the vote of a class is its largest weight*activation over leaves.", "quantifier": "all fitted trees, tables and rows", "why_tests_cant": "unbounded tables", "anchors": ["src/teacher/tree/fdt_tree.py:TreeFDT.predict", "src/teacher/tree/_voting.py:_aggregated_vote", "src/teacher/tree/_voting.py:_maximum_matching", "src/teacher/tree/base_decision_tree.py:BaseDecisionTree.predict"]}
{"id": "C28", "title": "FDT node memberships are path activations", "statement": "In a fitted FDT the membership vector stored at each node is, for every training row, the minimum of the degrees of the row in the sets on the path, i.e. exactly the activation predict computes for that row with the default t-norm; the t_norm argument never influences training.", "quantifier": "all datasets and fitted trees", "why_tests_cant": "all executions", "anchors": ["src/teacher/tree/fdt_tree.py:FDT._get_max_f_gain", "src/teacher/tree/fdt_tree.py:TreeFDT._partial_predict"]}
{"id": "C29", "title": "Refitting an FDT does not replace the old tree", "statement": "Fitting a second time on the same data leaves predictions unchanged but duplicates the rules when the root is split; fitting the same object on different data keeps the subtrees of the first data, so predictions can differ from a fresh tree fitted on the second data.", "quantifier": "all fit histories; witness history", "why_tests_cant": "history-dependent behaviour", "anchors": ["src/teacher/tree/fdt_tree.py:FDT.fit", "src/teacher/tree/fdt_tree.py:FDT._partial_fit"]}
{"id": "C30", "title": "Feature choice is gain-optimal for every set iteration order", "statement": "At each node the chosen feature has maximal fuzzy information gain among the remaining features and that gain is positive; if the maximum is unique the choice does not depend on the (unspecified) iteration order of the feature set, and with ties it does.", "quantifier": "all nodes and iteration orders", "why_tests_cant": "nondeterministic set ordering", "anchors": ["src/teacher/tree/fdt_tree.py:FDT._get_max_f_gain"]}
{"id": "C31", "title": "FBDT binary splits are complementary and nested", "statement": "Each FBDT split divides the sets still available for the chosen feature into two non-empty complementary groups (contiguous for continuous features); along a path the groups of a feature are strictly nested, and every inner node has exactly two children.", "quantifier": "all datasets and fitted trees", "why_tests_cant": "all executions", "anchors": ["src/teacher/tree/fdt_binary_tree.py:FBDT._get_binary_partitions", "src/teacher/tree/fdt_binary_tree.py:FBDT._partial_fit"]}
{"id": "C32", "title": "FBDT leaves hold class distributions and training terminates", "statement": "With fuzzy_threshold > 0 FBDT training terminates normally on consistent data and every leaf holds class weights in [0,1] summing to 1; depth is at most max_depth.", "quantifier": "all datasets", "why_tests_cant": "all executions", "anchors": ["src/teacher/tree/fdt_binary_tree.py:FBDT._partial_fit", "src/teacher/tree/fdt_binary_tree.py:FBDT._get_class_value"]}
{"id": "C33", "title": "FBDT prediction and its (simplified) rule system agree on the votes", "statement": "With the minimum t-norm and added votes, for every instance whose degrees in the sets of each variable add up to at most 1 (which variables built by get_fuzzy_variables from increasing points or distinct values guarantee for every instance) and every tree that is not a single leaf, the per-class totals of predict equal those of the extracted multi-value rules, with or without simplification, so a strict winner is the same for both. With sets that overlap more the totals can differ; a tree that is a single leaf gives rules without conditions, whose vote raises ValueError.", "quantifier": "all fitted trees and instances", "why_tests_cant": "equivalence for all inputs", "anchors": ["src/teacher/tree/fdt_binary_tree.py:TreeFBDT.predict", "src/teacher/tree/fdt_binary_tree.py:TreeFBDT.to_rule_based_system", "src/teacher/tree/rule.py:Rule.simplify"]}
{"id": "C34", "title": "FBDT 'ignored' arrays: sharing is harmless, in-place marking is not", "statement": "The ignored-membership arrays are updated in place while candidate splits are scored and are shared between a node, its children and siblings. (a) The sharing is not observable: fit gives exactly the tree (and the exceptions) that training with a private copy of the arrays in every node gives; growing a left subtree never changes what its right sibling is grown from. (b) The in-place marking is observable: where a feature is split for the first time on a path, each training row goes to both children with the minimum of its weight and its degree in the child's group; where it is split again, a row the left group holds partly is counted with its full weight in the right child (so its weights may add up to more than its weight in the node, and swapping the groups changes the children), while rows lying completely in or out of every group of sets are never affected.", "quantifier": "all trees and data sets", "why_tests_cant": "aliasing across recursive calls", "anchors": ["src/teacher/tree/fdt_binary_tree.py:FBDT._get_max_f_gain", "src/teacher/tree/fdt_binary_tree.py:TreeFBDT.update_ignored"]}
{"id": "C35", "title": "Public to_rule_based_system flags reach the wrong parameters", "statement": "Through the public method, FDT/FBDT rules are extracted with threshold 0 (every positive-weight rule, in particular weights below 0.0001) and verbose=True turns the threshold into 1, returning no rule at all; on ID3 the public method always raises TypeError.", "quantifier": "all fitted trees", "why_tests_cant": "argument binding for every tree", "anchors": ["src/teacher/tree/base_decision_tree.py:BaseDecisionTree.to_rule_based_system", "src/teacher/tree/fdt_tree.py:TreeFDT.to_rule_based_system", "src/teacher/tree/id3_tree.py:TreeID3.to_rule_based_system"]}
{"id": "C36", "title": "ID3 classifies every row made of known values", "statement": "After fit, a row whose value in every feature occurred in that training column gets a class of the training labels; a row reaching a node with an unseen value gets None.", "quantifier": "all datasets, fitted trees and rows (pruning on, or max_depth at most the number of features)", "why_tests_cant": "all executions and inputs", "anchors": ["src/teacher/tree/id3_tree.py:TreeID3.predict", "src/teacher/tree/id3_tree.py:ID3._partial_fit"]}
{"id": "C37", "title": "ID3 leaves carry a majority class", "statement": "Every node's class is a most frequent class of the training rows reaching it (parent's class if none), with the recorded counts and error, for every iteration order of the class set.", "quantifier": "all datasets and set orders", "why_tests_cant": "nondeterministic set ordering", "anchors": ["src/teacher/tree/id3_tree.py:ID3._partial_fit"]}
{"id": "C38", "title": "ID3 rules are a decision list equivalent to the tree", "statement": "For every row of known values exactly one extracted ID3 rule has all its conditions satisfied, and its consequent is the tree's prediction.", "quantifier": "all fitted trees and rows", "why_tests_cant": "equivalence for all inputs", "anchors": ["src/teacher/tree/id3_tree.py:TreeID3._get_rules", "src/teacher/tree/id3_tree.py:TreeID3.predict"]}
{"id": "C39", "title": "ID3 training can fail or produce dead ends", "statement": "With pruning, fit raises ZeroDivisionError when the selected feature has a single value in the training data (e.g. any one-column constant dataset); without pruning, once features are exhausted a node without children is produced and predict returns None.", "quantifier": "witness datasets and the class of constant datasets", "why_tests_cant": "error conditions over all inputs", "anchors": ["src/teacher/tree/id3_tree.py:ID3._partial_fit"]}
{"id": "C40", "title": "score is the exact share of correct predictions", "statement": "score lies in [0,1] and equals the number of rows whose prediction equals the label divided by the number of rows.", "quantifier": "all trees and test sets", "why_tests_cant": "unbounded", "anchors": ["src/teacher/tree/base_decision_tree.py:BaseDecisionTree.score"]}
{"id": "C41", "title": "coverage is the share of rows covered by all rules", "statement": "coverage of a non-empty rule list is the share of rows on which every literal of every rule exceeds the threshold; it lies in [0,1], never grows when a rule is added or the threshold raised. It is not the documented share of rows covered by at least one rule.", "quantifier": "all rule lists, datasets and thresholds", "why_tests_cant": "unbounded; documentation contradicts code", "anchors": ["src/teacher/metrics/_rule.py:coverage", "src/teacher/metrics/_rule.py:_get_fuzzy_coverage", "src/teacher/metrics/__init__.py"]}
{"id": "C42", "title": "precision is the share of covered rows with the first rule's class", "statement": "precision is the number of covered rows labelled with the first rule's consequent over the number of covered rows, hence in [0,1]; it is NaN when nothing is covered; an empty rule list raises IndexError and multi-value rules raise TypeError.", "quantifier": "all inputs", "why_tests_cant": "unbounded", "anchors": ["src/teacher/metrics/_rule.py:precision"]}
{"id": "C43", "title": "fidelity and rule_fidelity are agreement ratios", "statement": "fidelity is the share of equal predictions: symmetric, in [0,1], 1 iff the vectors agree; rule_fidelity is the same ratio over the covered rows only and equals fidelity when every row is covered.", "quantifier": "all prediction vectors", "why_tests_cant": "unbounded", "anchors": ["src/teacher/metrics/_rule.py:fidelity", "src/teacher/metrics/_rule.py:rule_fidelity"]}
{"id": "C44", "title": "The 'moth' distance is a pseudometric", "statement": "With positive deviations, proximity_dissimilarity with the default distance is non-negative, symmetric, zero exactly when the instances agree, and satisfies the triangle inequality.", "quantifier": "all triples of instances, any number of features", "why_tests_cant": "triangle inequality over all triples", "anchors": ["src/teacher/metrics/_counterfactual.py:_distance", "src/teacher/metrics/_counterfactual.py:proximity_dissimilarity"]}
{"id": "C45", "title": "sparsity is the normalised Hamming distance", "statement": "sparsity_dissimilarity is the share of features that differ: in [0,1], symmetric, 0 iff equal, satisfying the triangle inequality; empty instances raise ZeroDivisionError.", "quantifier": "all instances", "why_tests_cant": "unbounded", "anchors": ["src/teacher/metrics/_counterfactual.py:sparsity_dissimilarity"]}
{"id": "C46", "title": "implausibility is the smallest positive distance to the data", "statement": "implausibility equals the minimum of the positive distances to the dataset and 0 when no row is at positive distance (also for an empty dataset); so a counterfactual that is itself a dataset row is still reported at the distance of another row.", "quantifier": "all datasets and instances", "why_tests_cant": "unbounded", "anchors": ["src/teacher/metrics/_counterfactual.py:implausibility", "src/teacher/metrics/_counterfactual.py:_closest_instance"]}
{"id": "C47", "title": "instability is a damped distance ratio", "statement": "instability is distance(cf, cf_closest)/(distance(instance, closest)+1): non-negative, at most distance(cf,cf_closest), 0 iff both counterfactuals agree.", "quantifier": "all instances", "why_tests_cant": "unbounded", "anchors": ["src/teacher/metrics/_counterfactual.py:instability"]}
{"id": "C48", "title": "m_factual returns exactly the fired class rules at or above the mean", "statement": "m_factual returns precisely the rules fired by the instance (matching > 0.001) for the class whose association degree is at least the mean over those rules, ordered by decreasing degree (ties in rule-base order); never empty; no fired rule of the class raises ZeroDivisionError.", "quantifier": "all rule bases and instances", "why_tests_cant": "unbounded", "anchors": ["src/teacher/explanation/_factual.py:m_factual"]}
{"id": "C49", "title": "mr_factual is a smallest robust set of rules", "statement": "mr_factual returns the strongest fired rules of the class, stopping as soon as their total exceeds the largest total of any other class; no smaller set of fired class rules exceeds it; if it is exceeded by no set, all fired class rules are returned. A rule base with a single class raises ValueError.", "quantifier": "all rule bases and instances", "why_tests_cant": "optimality over all subsets", "anchors": ["src/teacher/explanation/_factual.py:mr_factual", "src/teacher/explanation/_factual.py:_robust_threshold"]}
{"id": "C50", "title": "c_factual cuts at the first quotient jump", "statement": "c_factual returns a non-empty prefix of the fired class rules sorted by association degree: within it consecutive degrees differ by a factor of at most 1+lam unless the mass so far was below beta, and it stops only at the first larger jump with enough mass; a larger lam or beta never removes rules; with beta the mass reaches beta or all rules are taken; no fired class rule raises IndexError.", "quantifier": "all rule bases, instances, lam >= 0 and beta", "why_tests_cant": "monotonicity over parameters", "anchors": ["src/teacher/explanation/_factual.py:c_factual"]}
{"id": "C51", "title": "FID3_factual returns a best matching rule", "statement": "FID3_factual returns a rule with matching above the threshold that is maximal among all rules (first on ties); no such rule raises ValueError.", "quantifier": "all rule bases", "why_tests_cant": "unbounded", "anchors": ["src/teacher/explanation/_factual.py:FID3_factual"]}
{"id": "C52", "title": "Applying a rule's changes makes its sets dominant and touches nothing else", "statement": "Applying a rule to an instance leaves the original untouched and every feature not in the rule unchanged; the reported changes are exactly the rule's literals whose set is not already the strongest of its feature; afterwards each known literal's set is the strongest of its feature, and changed features are crisp (1 for the set, 0 elsewhere).", "quantifier": "all rules and instances", "why_tests_cant": "unbounded", "anchors": ["src/teacher/explanation/_counterfactual.py:_apply_changes"]}
{"id": "C53", "title": "Counterfactuals are valid and closest among the rules", "statement": "If i_counterfactual returns changes, they come from a rule of another class, applying them makes the weighted vote differ from the explained class, and no candidate rule with smaller distance does; if it returns None no rule of another class flips the vote; if the vote on the instance is the explained class the changes are non-empty.", "quantifier": "all rule bases and instances", "why_tests_cant": "optimality and validity over all rule bases", "anchors": ["src/teacher/explanation/_counterfactual.py:i_counterfactual", "src/teacher/explanation/_counterfactual.py:_search_counterfactual"]}
{"id": "C54", "title": "f_counterfactual is valid and closest to the factual", "statement": "The same validity and optimality hold for f_counterfactual with the matching-weighted distance to the factual rules, except that candidates at distance 0 are never considered, so None can be returned although such a rule would flip the vote.", "quantifier": "all rule bases, factuals and instances", "why_tests_cant": "optimality over all rule bases", "anchors": ["src/teacher/explanation/_counterfactual.py:f_counterfactual", "src/teacher/explanation/_counterfactual.py:_cf_dist_rule"]}
{"id": "C55", "title": "d_counterfactual is valid and closest in feature space", "statement": "The same validity and optimality hold for d_counterfactual with the instance distance of the changed instance.", "quantifier": "all rule bases and instances", "why_tests_cant": "optimality over all rule bases", "anchors": ["src/teacher/explanation/_counterfactual.py:d_counterfactual"]}
{"id": "C56", "title": "Multiclass counterfactuals give the closest change per reachable class", "statement": "With multiclass=True the result maps each class reachable by some candidate (and no other, never the explained one) to the changes of the closest rule reaching it; stopping early never changes the result.", "quantifier": "all rule bases", "why_tests_cant": "unbounded", "anchors": ["src/teacher/explanation/_counterfactual.py:_search_counterfactual"]}
{"id": "C57", "title": "FID3_counterfactual returns all rules at minimal literal distance", "statement": "FID3_counterfactual returns, in order, exactly the candidates whose number of differing features from the factual is minimal, together with that number; the distance is symmetric and 0 iff both antecedents are equal as dictionaries; no candidates gives ([], inf).", "quantifier": "all rule bases", "why_tests_cant": "unbounded", "anchors": ["src/teacher/explanation/_counterfactual.py:FID3_counterfactual", "src/teacher/explanation/_counterfactual.py:_compare_rules_FID3"]}
{"id": "C58", "title": "Rule distances are bounded and vanish on agreement", "statement": "Literal distances lie in [0,1] and vanish iff both sets are the same; the distance of a rule to an instance is non-negative, at most the number of shared features, and 0 when the rule names the instance's strongest set in every shared feature - provided equal category names are the same object; a numerical variable with one set raises ZeroDivisionError.", "quantifier": "all rules and instances", "why_tests_cant": "unbounded; object identity instead of equality", "anchors": ["src/teacher/explanation/_counterfactual.py:_cf_dist_instance", "src/teacher/explanation/_counterfactual.py:_literal_distance", "src/teacher/explanation/_counterfactual.py:_get_categorical_cf_distance"]}
{"id": "C59", "title": "Explainers refuse to explain before a successful fit", "statement": "For any sequence of operations, explain() raises NotFittedError until some fit has succeeded and afterwards returns the explanation of the last successful fit; hit() raises NotFittedError before any fit.", "quantifier": "all operation histories including failing fits", "why_tests_cant": "all histories and failure points", "anchors": ["src/teacher/explanation/_base_explainer.py:BaseExplainer.explain", "src/teacher/explanation/_factual_local_explainer.py:FactualLocalExplainer.hit", "src/teacher/explanation/FDT_explainer.py:FDTExplainer.fit"]}
{"id": "C60", "title": "A failing refit leaves a mixed explainer state", "statement": "If a later fit fails after recording its target, explain() still returns the old explanation while hit() compares the old prediction with the new target; argument errors detected before that leave target, prediction and explanation unchanged.", "quantifier": "all failure points", "why_tests_cant": "crash-point behaviour", "anchors": ["src/teacher/explanation/FDT_explainer.py:FDTExplainer.fit"]}
{"id": "C61", "title": "write_explanation needs a set of changes", "statement": "write_explanation works when a counterfactual set exists; when the counterfactual search found nothing (None) it raises TypeError, and for FBDTExplainer it always raises IndexError.", "quantifier": "all fitted explainers", "why_tests_cant": "error conditions for all states", "anchors": ["src/teacher/explanation/_factual_local_explainer.py:FactualLocalExplainer.write_explanation", "src/teacher/explanation/FBDT_explainer.py:FBDTExplainer.fit"]}
{"id": "C62", "title": "Neighborhood accessors follow the fit/fuzzify life cycle", "statement": "For any operation sequence get_X/get_y raise NotFittedError until a fit, fuzzify raises NotFittedError before a fit, membership accessors raise NotFuzzifiedError until a successful fuzzify; but after a refit the membership accessors still return the memberships of the previous data.", "quantifier": "all operation histories", "why_tests_cant": "all histories", "anchors": ["src/teacher/neighbors/_base_neighborhood.py", "src/teacher/neighbors/_fuzzy_neighborhood.py"]}
{"id": "C63", "title": "SimpleNeighborhood replicates the instance", "statement": "After fit, SimpleNeighborhood holds exactly size copies of the instance and one black-box prediction for each, all equal for a row-wise black box.", "quantifier": "all instances, sizes, black boxes", "why_tests_cant": "unbounded", "anchors": ["src/teacher/neighbors/_simple_neighborhood.py:SimpleNeighborhood.fit"]}
{"id": "C64", "title": "Fast sampling terminates with bounded, balanced, in-range neighbourhoods", "statement": "For every stream of random choices the 'fast' SamplingNeighborhood generation ends after at most 100*size+1 rounds, returns between 1 and size+2 rows ending with the instance, at most ceil(size/classes) generated rows per predicted class, every generated value taken from the data column and, for continuous columns, strictly within the configured range of the instance or of the closest other-class instance. The default 'slow' generation always raises TypeError.", "quantifier": "all random streams, datasets and black boxes", "why_tests_cant": "all random schedules", "anchors": ["src/teacher/neighbors/_sampling_neighborhood.py:SamplingNeighborhood._generate_neighborhood_fast", "src/teacher/neighbors/_sampling_neighborhood.py:SamplingNeighborhood._generate_neighborhood"]}
{"id": "C65", "title": "Sampling distributions are probability distributions", "statement": "For every column the sampling probabilities are positive, sum to 1 and are proportional to the value counts among the admissible values; a continuous column with no value in range (e.g. a constant column) has no admissible value and sampling raises ValueError.", "quantifier": "all datasets", "why_tests_cant": "unbounded", "anchors": ["src/teacher/neighbors/_sampling_neighborhood.py:SamplingNeighborhood._generate_prob_dist"]}
{"id": "C66", "title": "The genetic algorithm preserves population size and never loses its best individual", "statement": "For every random stream and number of rounds, the population size stays constant and the best fitness never decreases; each replacement keeps exactly the fittest individuals of the union, in decreasing order.", "quantifier": "all random streams, populations, fitness functions, rounds", "why_tests_cant": "all random schedules", "anchors": ["src/teacher/neighbors/genetic_algorithm.py:genetic_algorithm", "src/teacher/neighbors/genetic_algorithm.py:replacement"]}
{"id": "C67", "title": "Genetic operators only recombine admissible genes", "statement": "Crossover keeps, at every position, the same two genes across both children; tournament selection only returns members of the population; mutation only changes positions of known features to generated values: every gene of every final individual comes from the initial population or from its feature's generator.", "quantifier": "all random streams", "why_tests_cant": "all random schedules", "anchors": ["src/teacher/neighbors/genetic_algorithm.py:uniform_crossover", "src/teacher/neighbors/genetic_algorithm.py:tournament_selection", "src/teacher/neighbors/genetic_algorithm.py:informed_init"]}
{"id": "C68", "title": "Oversampling keeps exactly the individuals above the last largest fitness gap", "statement": "get_oversample returns the individuals and hall-of-fame members with fitness strictly above the value below the (last) largest gap of the sorted fitness values: it contains every individual of maximal fitness if fitness values are not all equal and nothing of the population otherwise; populations of fewer than two individuals raise ValueError.", "quantifier": "all populations", "why_tests_cant": "unbounded", "anchors": ["src/teacher/neighbors/gpdatagenerator.py:get_oversample"]}
{"id": "C69", "title": "simple_match_distance and mad_distance", "statement": "simple_match_distance is the share of mismatching positions (in [0,1], 0 iff equal); mad_distance is non-negative, symmetric, satisfies the triangle inequality and ignores features with zero deviation.", "quantifier": "all vectors", "why_tests_cant": "unbounded", "anchors": ["src/teacher/utils/distance_functions.py:simple_match_distance", "src/teacher/utils/distance_functions.py:mad_distance"]}
{"id": "C70", "title": "mixed_distance ignores continuous features when there is no discrete one", "statement": "mixed_distance is a convex combination of the discrete and continuous distances when discrete features exist, but is constantly 0 on purely continuous data, so then every two records are at distance 0.", "quantifier": "all records", "why_tests_cant": "unbounded", "anchors": ["src/teacher/utils/distance_functions.py:mixed_distance"]}
{"id": "C71", "title": "normalized_euclidean_distance is bounded by 1 but blind to shifts", "statement": "When the variances are not both zero it lies in [0,1] and is symmetric; it is 0 for any two vectors differing by a constant shift; with a single feature it is undefined (0/0).", "quantifier": "all vectors", "why_tests_cant": "inequality over all vectors", "anchors": ["src/teacher/utils/distance_functions.py:normalized_euclidean_distance"]}
{"id": "C72", "title": "set_discrete_continuous separates the columns", "statement": "The discrete list ends with the class exactly once, the continuous list never contains it; when the caller supplies the discrete columns every other column of numeric type is continuous and no column is both (for disjoint type lists); when only continuous columns are supplied, unlisted numeric columns end up in both lists.", "quantifier": "all column lists", "why_tests_cant": "unbounded", "anchors": ["src/teacher/utils/util.py:set_discrete_continuous"]}
{"id": "C73", "title": "Label encoding round-trips", "statement": "Decoding an encoded table restores the original; encoding is injective and order preserving onto 0..n-1 per column; encoding unseen values with an existing encoder raises ValueError.", "quantifier": "all tables", "why_tests_cant": "unbounded", "anchors": ["src/teacher/utils/util.py:label_encode", "src/teacher/utils/util.py:label_decode"]}
{"id": "C74", "title": "get_closest returns the k nearest records", "statement": "get_closest returns min(k,n) distinct indices ordered by increasing distance such that every omitted record is at least as far as every returned one.", "quantifier": "all datasets and distance functions", "why_tests_cant": "unbounded", "anchors": ["src/teacher/utils/util.py:get_closest"]}
{"id": "C75", "title": "build_df2explain assumes the class is the first column", "statement": "When the class is the first column the rebuilt table assigns predictions to the class column and feature i to its column; if the class is elsewhere the columns are shifted, so the class column receives feature data.", "quantifier": "all column orders", "why_tests_cant": "unbounded", "anchors": ["src/teacher/utils/util.py:build_df2explain", "src/teacher/datasets/_base.py:load_basket"]}
{"id": "C76", "title": "Entropy discretisation cuts at the best interior value while the gain suffices", "statement": "The recursive entropy discretisation of a column returns, for every dataset, the sorted list obtained by repeatedly cutting at the least interior column value of maximal fuzzy information gain, cutting only while that gain reaches the threshold and the depth limit allows, and recursing on the rows up to and above the cut.", "quantifier": "all columns, labels, depth limits and thresholds", "why_tests_cant": "recursive optimality over unbounded data", "anchors": ["src/teacher/fuzzy/_discretize.py:_fuzzy_discretization"]}
{"id": "C77", "title": "ID3 pruning keeps only splits that pay for themselves", "statement": "After a first fit with pruning (threshold > 0) every inner node has at least two children and its split lowers the training error of its rows by at least the threshold per additional child; a pruned tree, also after refits, scores on its training data at least the share of the most frequent class; fitting the same estimator twice on the same data can however prune a split the first fit kept.", "quantifier": "all datasets, thresholds, set iteration orders, fitted trees", "why_tests_cant": "quantifies over all executions of a recursive algorithm", "anchors": ["src/teacher/tree/id3_tree.py:ID3._partial_fit"]}
{"id": "C78", "title": "Structure of fitted ID3 trees", "statement": "On every path each column is tested at most once, a node's level is the number of tests above it, inner nodes lie above the depth limit and are reached by at least the minimal number of training rows, and have exactly one child for each value of their column in the training set.", "quantifier": "all datasets and fitted trees", "why_tests_cant": "all executions", "anchors": ["src/teacher/tree/id3_tree.py:ID3._partial_fit"]}
{"id": "C79", "title": "ID3 inner nodes test a column of maximal information gain", "statement": "The column tested by an inner node was not tested above it and has the largest information gain (entropy in bits) among the remaining columns on the training rows reaching the node, this gain is never negative, and ties go to the name that comes first in the iteration order of the set of remaining names.", "quantifier": "all datasets, nodes and set orders", "why_tests_cant": "optimality over real-valued gains", "anchors": ["src/teacher/tree/id3_tree.py:ID3._partial_fit"]}
{"id": "C80", "title": "An FDT explanation is faithful to the local tree", "statement": "After a successful FDTExplainer.fit the explained class is the one the local tree predicts for the given instance; every factual rule is a rule of that tree, of that class, fired by the instance above 0.001; a counterfactual set of changes comes from a rule of another class and applying it makes the rules of the tree vote for another class; with i_counterfactual and d_counterfactual, None means that no rule of another class would do so. The factual and counterfactual are those of the chosen methods with the caller's parameters. A fit never succeeds with keyword arguments the chosen methods do not take.", "quantifier": "all data, instances, methods, keyword arguments and set iteration orders for which fit succeeds", "why_tests_cant": "end-to-end property of every execution", "anchors": ["src/teacher/explanation/FDT_explainer.py:FDTExplainer.fit"]}
{"id": "C81", "title": "The explained class is the one the rules support - unless the instance is encoded", "statement": "If the neighbourhood's instance memberships are those of the instance argument, the explained class has the largest total rule support, and if it is the only such class the rules vote for it and a counterfactual is a non-empty set of changes. With a label-encoded categorical column this fails: the tree is asked about the code, every support is 0 and the least class is explained, with an empty factual and an empty or missing counterfactual, or ZeroDivisionError.", "quantifier": "all data and instances; witness data set", "why_tests_cant": "relation between two computations on every input", "anchors": ["src/teacher/explanation/FDT_explainer.py:FDTExplainer.fit"]}
{"id": "C82", "title": "Which label sets an explainer can handle, and its fidelity", "statement": "FID3Explainer.fit never succeeds, so explain and hit never answer (the rows it trains on name, in each fuzzified column, the first set of largest degree, and are otherwise the given ones); FBDTExplainer.fit fails on more than two classes and on two classes without label 1; FDTExplainer.fit fails on two classes without label 1. A fitted FDTExplainer has a fidelity in [0,1], with more than two classes 1 exactly when the tree reproduces the labels.", "quantifier": "all histories, data and label sets", "why_tests_cant": "all histories and data", "anchors": ["src/teacher/explanation/FDT_explainer.py:FDTExplainer.fit", "src/teacher/explanation/FBDT_explainer.py:FBDTExplainer.fit", "src/teacher/explanation/FID3_explainer.py:FID3Explainer.fit"]}
{"id": "C83", "title": "What fuzzify leaves for an explainer", "statement": "fuzzify('entropy') of a neighbourhood with at least two rows, distinct and completely listed columns and at least one numerical column succeeds, and leaves one fuzzy variable per column, in order; categorical columns get one set per value, numerical ones triangular sets around increasing column values starting with the minimum, namely all values if the sample standard deviation is below 0.00001 and the points of the entropy method otherwise; every row's degrees in a column lie in [0,1] and add up to 1, except that a numerical value above all peaks has degree 0 in every set. If printed values are distinct, the instance membership is that of the decoded instance, and an FDT explainer fitted on this neighbourhood and the decoded instance explains the class of largest rule support. With a single row and no threshold fuzzify raises ValueError.", "quantifier": "all tables, instances, label vectors and histories", "why_tests_cant": "unbounded data; end-to-end composition", "anchors": ["src/teacher/neighbors/_fuzzy_neighborhood.py:FuzzyNeighborhood.fuzzify", "src/teacher/explanation/FDT_explainer.py:FDTExplainer.fit"]}
{"id": "C84", "title": "The 'mixed' instance distance and the closest instance", "statement": "The 'mixed' distance of two rows is the weighted sum of the euclidean distance of the continuous features and the share of differing discrete features; it is never negative, symmetric and 0 exactly for rows that agree on all listed features; _closest_instance returns a row at the least positive distance, and an empty list if there is none.", "quantifier": "all rows, data sets and index lists", "why_tests_cant": "real-valued optimum over unbounded data", "anchors": ["src/teacher/metrics/_counterfactual.py:_mixed_distance", "src/teacher/metrics/_counterfactual.py:_closest_instance"]}
{"id": "C85", "title": "get_closest_diffoutcome mixes the nearest rows with the nearest rows of an outcome", "statement": "With a ratio in (0,1], get_closest_diffoutcome returns the k nearest rows, except that int(k*ratio) of them are replaced by the nearest rows of outcome 0 if fewer than a share 'ratio' of the k nearest have outcome 0, and otherwise by the nearest rows of other outcomes if none of the k nearest has one; with no rows or k = 0 it raises ZeroDivisionError. The ratio is therefore not enforced for outcomes other than 0, and a row can be listed twice.", "quantifier": "all tables, records, distance functions and black boxes; witness tables", "why_tests_cant": "unbounded data", "anchors": ["src/teacher/utils/util.py:get_closest_diffoutcome"]}
{"id": "C86", "title": "generate_dataset describes the table it was given", "statement": "generate_dataset succeeds on every table of integer, float and text columns containing the class and the listed columns; position q of row i of X is the value of column idx_features[q] in row i, as a position in that column's encoder if it is discrete; y decodes to the class column; possible_outcomes lists the classes once each, in order of appearance, not of codes. If the class is the first column, build_df2explain of X and correct predictions gives the table back; if the class is elsewhere in the column list columns are exchanged or it raises ValueError.", "quantifier": "all tables and column lists; witness tables for the failures", "why_tests_cant": "unbounded data", "anchors": ["src/teacher/datasets/_base.py:generate_dataset", "src/teacher/utils/util.py:build_df2explain", "src/teacher/utils/util.py:recognize_features_type"]}
{"id": "C87", "title": "get_diff_outcome returns another outcome", "statement": "Given at least two different possible outcomes get_diff_outcome returns one of the first two, different from the given outcome; with exactly two, applying it twice returns the given outcome; for the only possible outcome it raises IndexError.", "quantifier": "all outcomes and lists", "why_tests_cant": "all inputs", "anchors": ["src/teacher/utils/util.py:get_diff_outcome"]}
{"id": "C88", "title": "FBDT splits have maximal gain and leaves have a reason", "statement": "In a trained binary fuzzy tree, the split of every inner node has positive information gain at least min_gain, is taken at a depth below max_depth over rows of at least two classes and min_num_examples, and no admissible split (a cut of the sequence of remaining sets of a continuous feature, a separation by share of a categorical one) gains more.  Every leaf reached by some weight carries exactly the weighted class frequencies of its rows, and was left because of depth, too few rows, one class, or because no admissible split reaches min_gain.  A leaf that no training weight reaches carries its parent's class frequencies.", "quantifier": "every training set, configuration, fuzzification and node of the trained tree, and every admissible split of the node", "why_tests_cant": "maximality ranges over all splits of all nodes, whose number is unbounded; a test compares with a few", "anchors": ["src/teacher/tree/fdt_binary_tree.py:FBDT._get_max_f_gain", "src/teacher/tree/fdt_binary_tree.py:FBDT._stop_met", "src/teacher/tree/fdt_binary_tree.py:FBDT._get_class_value"]}
{"id": "C89", "title": "FBDT orders categories by their share of the first class", "statement": "A split on a categorical feature puts categories with a smaller share of the least class label on the left: every left category's share of that class, over the whole training set, is at most every right category's, provided every remaining category occurs in the training set.", "quantifier": "every training set, configuration and inner node splitting on a categorical feature", "why_tests_cant": "it must hold for every distribution of categories and classes", "anchors": ["src/teacher/tree/fdt_binary_tree.py:FBDT._get_binary_partitions"]}
{"id": "C90", "title": "LORE fitness functions put the wanted outcome first", "statement": "Whenever the distance d of a candidate to the record is a number in [0,1] (as with the default distance), each of the four fitness functions returns a value in [alpha2, alpha1+alpha2] for a candidate with the outcome it looks for and in [0, alpha1] otherwise, so for alpha1 <= alpha2 no unwanted candidate is fitter than a wanted one; among candidates on the same side of the outcome it is monotone in the distance (decreasing for 'similar', increasing for 'dissimilar') except that a candidate beyond the threshold eta is no fitter than any; the record itself scores alpha2 or 0; a NaN distance gives NaN.", "quantifier": "all records, candidates, black boxes, weights, thresholds and distance functions", "why_tests_cant": "universally quantified over black boxes and records", "anchors": ["src/teacher/neighbors/gpdatagenerator.py:fitness_sso", "src/teacher/neighbors/gpdatagenerator.py:fitness_sdo", "src/teacher/neighbors/gpdatagenerator.py:fitness_dso", "src/teacher/neighbors/gpdatagenerator.py:fitness_ddo"]}
{"id": "C91", "title": "generate_data breeds rows from the record", "statement": "Every row generate_data returns has the record's length and each of its genes is the record's or one of the feature_values of that position; each run contributes at most its population plus its hall of fame, and each of its rows is strictly fitter than some bred individual; on data whose distances are all 0 (no discrete feature) each row has exactly the outcome its run looks for. It can never succeed, whatever the random draws, if a run has one individual or an empty hall of fame (with the defaults: population_size below 22), if distances are NaN, or if distances are 0 and the black box is constant; otherwise, with two or more features, its only failure is a ValueError for no row standing out.", "quantifier": "all records, feature values, black boxes, distance functions, parameters and all outcomes of the random draws", "why_tests_cant": "all random schedules of a genetic algorithm of any number of generations", "anchors": ["src/teacher/neighbors/gpdatagenerator.py:generate_data", "src/teacher/neighbors/gpdatagenerator.py:fit", "src/teacher/neighbors/gpdatagenerator.py:mutate", "src/teacher/neighbors/gpdatagenerator.py:setup_toolbox"]}
{"id": "C92", "title": "calculate_feature_values lists values per feature", "statement": "calculate_feature_values returns one entry per non-class column, in order: for a discrete column exactly its distinct values in increasing order, for a continuous one its values followed by 'size' drawn ones, for a column in neither list the entry of the column before it (NameError if it is the first); ValueError if the class is missing. Hence no row generate_data breeds from a row of the data has a category code the data does not have.", "quantifier": "all data, column lists and draws", "why_tests_cant": "unbounded data and random draws", "anchors": ["src/teacher/neighbors/gpdatagenerator.py:calculate_feature_values", "src/teacher/neighbors/gpdatagenerator.py:generate_data"]}
{"id": "C93", "title": "genetic_neighborhood returns several outcomes or nothing", "statement": "A neighbourhood returned by genetic_neighborhood contains rows of at least two predicted outcomes and its frame carries each row's predicted outcome, decoded; on data without discrete features it consists of rows with the record's outcome followed by at least one row with another. It never returns (it raises) when all generated rows have one outcome, for population_size at most 10, for data with a discrete feature and fewer than two continuous ones, or for data without discrete features and a black box constant around the record.", "quantifier": "all datasets, records, black boxes, sizes and random draws", "why_tests_cant": "all random schedules", "anchors": ["src/teacher/neighbors/neighbor_generator.py:genetic_neighborhood", "src/teacher/neighbors/gpdatagenerator.py:generate_data"]}
{"id": "C94", "title": "Smoothing a LORE neighbourhood keeps exactly the inlying rows and appends the instance", "statement": "When LoreNeighborhood smooths the generated rows, the values of continuous columns are clamped to the range observed in X2E; the rows kept are, in order, exactly those whose clamped value lies less than 3 standard deviations from the column mean in every continuous column; the instance follows as the last row with the number of its outcome; at most a ninth of the rows is lost per non-constant continuous column, but a constant one costs every row, a text encoder makes the step fail, and the result may again contain outliers", "quantifier": "every black box, instance, generated table, reference table, list of continuous columns and encoder set", "why_tests_cant": "clamping, filtering and appending interact over all tables; unit tests pin one table and cannot show the share of rows lost or the effect of degenerate columns", "anchors": ["src/teacher/neighbors/_lore_neighborhood.py:_smooth_neighborhood"]}
{"id": "C95", "title": "LoreNeighborhood.fit leaves consistent parts, but labels and outcomes of different rows", "statement": "If LoreNeighborhood.fit succeeds, X, y and y_decoded have one entry per row, X is the table without the class, the last row is the given instance labelled with the number of its outcome, every other row stems from one bred from the record to explain and carries the label the black box gave to it before truncation and clamping, and y holds the outcome of the coded row after them, so that y may be of one class although the labels are not; decoded_instance and decoded_target are the labels of the codes; with a text feature fit always fails", "quantifier": "every dataset, black box, instance, size, reference table, and sequence of random draws", "why_tests_cant": "the agreement of the parts has to hold for every outcome of the genetic algorithm, and the failure for every dataset with a text feature", "anchors": ["src/teacher/neighbors/_lore_neighborhood.py:LoreNeighborhood.fit"]}
{"id": "C96", "title": "Random rows extend the given ones by drawn values", "statement": "generate_random_data returns the given rows unchanged followed by exactly `size` new rows of the same width. In a new row a discrete feature has a value observed in that column, a continuous feature that is constant in the given rows has that constant, integer features are truncated, and a feature in neither list repeats the draw of the feature before it. The flag uniform makes no difference: the frequencies passed as third argument of np.random.choice act as `replace`. It succeeds on rows of one width when the class is a column, the types are known and the first feature is listed; it fails with ValueError without class or features, and with NameError if the first feature is in neither list.", "quantifier": "every array, column list, type table, size and outcome of the random draws", "why_tests_cant": "A test sees one stream of draws; the claim is over all draws and tables, including those where the flag or an unlisted column matters.", "anchors": ["src/teacher/neighbors/neighbor_generator.py: generate_random_data"]}
{"id": "C97", "title": "Real-data neighborhoods show the rows they were taken from", "statement": "real_data returns every row of the table in order, closed_real_data the rows chosen as the hundred nearest to the instance with balanced outcomes, and random_neighborhood these rows (all rows if not stratified) followed by a thousand drawn ones. In the array a discrete column holds the code of the row's value; in the table the same value is shown again, other values are unchanged up to truncation of integer columns, and the class column shows the label of the black box's outcome for that row. A drawn category is one the chosen rows have. real_data succeeds whenever the table's categories are known to the encoders and the black box answers with class codes.", "quantifier": "every table, data set description with the class first, instance, black box, argsort tie order and random draws", "why_tests_cant": "Round trips through encoding, selection and decoding must agree for every table and black box.", "anchors": ["src/teacher/neighbors/neighbor_generator.py: real_data, closed_real_data, random_neighborhood", "src/teacher/utils/util.py: label_encode, build_df2explain, get_closest_diffoutcome"]}
{"id": "C98", "title": "Value generators draw admissible values for every column", "statement": "get_feature_values has exactly one generator per column position; the generator of a column of numbers draws numbers, that of a column with text draws values of the column. Hence random_init yields one admissible value per column, informed_init keeps the original's value or an admissible one at each position, and after any number of rounds of genetic_algorithm every gene is an initial one or admissible for its column.", "quantifier": "every table, initial population, fitness function, probabilities, number of rounds and random draws", "why_tests_cant": "Admissibility has to survive every interleaving of selection, crossover and mutation.", "anchors": ["src/teacher/neighbors/genetic_algorithm.py: get_feature_values, random_init, informed_init, genetic_algorithm"]}
{"id": "C99", "title": "The dataset loaders deliver the file's table, the class first", "statement": "The loaders that only rearrange the file (german, heloc, beer, pima, flavia, iris, wine, breast, phishing) succeed on every table with their columns and deliver a dataset from whose X, y, types and encoders the table rebuilds exactly: the class column first, the dropped columns gone, all others in their order with their values. Without the class column they raise. load_basket lists the columns in the order of the file although X and y are made for the class first, so rebuilding puts the class codes into the first column of the file.", "quantifier": "every table of the stated columns, of any number of rows, every column type and order of sets", "why_tests_cant": "A test reads the one file shipped; the claim is that no table of this shape loses or exchanges a value.", "anchors": ["src/teacher/datasets/_base.py: load_german, load_heloc, load_beer, load_pima, load_flavia, load_phishing, load_iris, load_wine, load_breast, load_basket"]}
{"id": "C100", "title": "load_adult replaces unknown values column by column", "statement": "load_adult drops fnlwgt and education-num, moves the last column to the front, replaces every '?' by one most frequent value of its column and changes no other value. No '?' is left in a column in which some value is more frequent than '?', while a column in which '?' is the most frequent value stays as it is. A table with the class last and at least one row is prepared so that it rebuilds exactly; a missing column raises KeyError, a table without rows IndexError.", "quantifier": "every table, every way of breaking ties between most frequent values", "why_tests_cant": "The claim is about all columns and all frequencies; the file shipped has '?' rarely.", "anchors": ["src/teacher/datasets/_base.py: load_adult"]}
{"id": "C101", "title": "load_compas derives stay, days and class from the recorded values", "statement": "The table of load_compas has the class first; nine columns are taken over unchanged; days_b_screening_arrest is without its sign, and it and length_of_stay have their missing values replaced by one most frequent value; the class is Medium-Low for a score below 7 and High otherwise, also for a missing score. A stay is in whole days, rounded down, but rounded up if the recorded end precedes the start. The table is made whenever the columns are there, days, scores and times can be read and one day count and one complete stay are recorded; otherwise it raises KeyError or IndexError. Without missing values it is prepared so that it rebuilds exactly.", "quantifier": "every table, every reading of times, every way of breaking ties", "why_tests_cant": "Missing values, reversed times and ties occur in combinations no test file covers.", "anchors": ["src/teacher/datasets/_base.py: load_compas"]}
{"id": "C102", "title": "Equal trees over the same variables predict alike", "statement": "Comparing trees with == is reflexive, symmetric and transitive. Two FDTs (or two FBDTs) over the same fuzzy variables that compare equal produce the same rules, and with the same t-norm and voting the same predictions on every dataset, whatever data each was trained on; equal ID3 trees produce the same rules, predictions and scores. The comparison does not look at the fuzzy variables: equal FDTs over variables with other fuzzy sets may predict differently.", "quantifier": "all pairs of trained trees, all datasets", "why_tests_cant": "Equality is structural and recursive; a test compares a handful of trees and cannot show that no equal pair disagrees somewhere.", "anchors": ["src/teacher/tree/fdt_tree.py: TreeFDT.__eq__", "src/teacher/tree/fdt_binary_tree.py: TreeFBDT.__eq__", "src/teacher/tree/id3_tree.py: ID3.__eq__"]}
{"id": "C103", "title": "Equal rules match and hash alike", "statement": "Rules compare equal exactly if antecedent, consequent and weight agree; equal rules have the same hash when they have one, and match every instance to the same degree if they are of the same kind. The comparison ignores whether a rule takes several values per feature, so an equal pair of different kinds may match differently. Every rule of an FDT can be hashed (put in a set or used as a key); no rule of an FBDT that has split can: hash() raises TypeError.", "quantifier": "all rules, all instances, all trained trees", "why_tests_cant": "The claim ranges over all rules and instances; existing tests hash only FDT rules.", "anchors": ["src/teacher/tree/rule.py: Rule.__eq__, Rule.__hash__, Rule.matching"]}
{"id": "C104", "title": "Order and equality of fuzzy sets", "statement": "< on continuous fuzzy sets is a strict order determined by the three points alone: sets of the same points but other names are incomparable and unequal. == compares kind, name, points or value, and flags; equal sets have the same membership degree at every value and the same hash. Discrete sets can be neither ordered nor hashed: both raise TypeError (AttributeError if the discrete set is on the right of <). The sets made over ascending points are listed in ascending order.", "quantifier": "all fuzzy sets, all values", "why_tests_cant": "Order laws are universal over triples of sets; tests sort a single list.", "anchors": ["src/teacher/fuzzy/fuzzy_set.py: FuzzyContinuousSet.__lt__, FuzzyContinuousSet.__hash__, FuzzyDiscreteSet"]}
{"id": "C105", "title": "The number of histogram bins is the least that is fine enough", "statement": "For three or more numbers with different quartiles estimate_nbr_bins returns the least number of bins that is at least log2(n)+1 and makes no bin wider than twice the interquartile range divided by the cube root of n. If the quartiles are equal it raises OverflowError, and ValueError if all numbers are equal; so it fails on every column in which at most a quarter of the values are smaller and at most a quarter greater than one value. One number gives 1 bin, two give 2, none raises OverflowError.", "quantifier": "every list of numbers", "why_tests_cant": "Minimality over all bin counts and all data, and the failing columns, are outside what a sample of inputs shows.", "anchors": ["src/teacher/neighbors/gpdatagenerator.py: freedman_diaconis, struges, estimate_nbr_bins"]}
{"id": "C106", "title": "The best fitting distribution is the first of least positive error", "statement": "best_fit_distribution returns the first distribution of the list whose error is positive and least; fits that raise or whose error is 0, NaN or infinite do not take part, and if none takes part the standard normal is returned. A distribution fitting without error is thus passed over for a worse one. get_distr_values returns `size` values in equal steps from the 1% to the 99% quantile of that distribution, and fails exactly when the number of bins cannot be determined.", "quantifier": "every outcome of the fits, every data and size", "why_tests_cant": "The choice must be right for every combination of errors and failures of fourteen fits.", "anchors": ["src/teacher/neighbors/gpdatagenerator.py: best_fit_distribution, get_distr_values"]}
{"id": "C107", "title": "The flags of calculate_feature_values change the values drawn, not the features", "statement": "With discrete_use_probabilities a discrete column's entry is its values followed by draws that are all values of the column; with continuous_function_estimation a continuous column's entry is spread over the best fit where the column has more than two values; there is still one entry for each feature and with neither flag the entries are those of the plain version. With estimation the call fails on the whole data as soon as one continuous column has more than two values and equal quartiles.", "quantifier": "every table, both flags, every draw and fit", "why_tests_cant": "One column of a certain shape makes the whole call fail; tests with well-behaved columns do not see it.", "anchors": ["src/teacher/neighbors/gpdatagenerator.py: calculate_feature_values"]}
{"id": "C108", "title": "Artificial features extend the description in place", "statement": "generate_artificial_features appends to the caller's columns, types and lists of discrete and continuous names new names that differ from each other, as many of each kind as the ratio says (rounded half to even), keeping all that was there. The data it returns cannot be read (TypeError at the first row; with size 0 it is empty), and if no name is made it raises TypeError itself. If the class is not among the discrete names it raises ValueError and changes nothing. A second call makes the same names again, so that the columns contain duplicates.", "quantifier": "every description, ratio and size", "why_tests_cant": "The effect on the caller's objects before the exception has to be stated for all descriptions.", "anchors": ["src/teacher/utils/util.py: generate_artificial_features"]}
{"id": "C109", "title": "Normalising changes the continuous columns only, and spoils integer ones for rebuilding", "statement": "generate_dataset(normalize=True) replaces the continuous columns of the caller's table by standardised ones (mean 0, the order of the rows kept, constant columns all 0, variance 1 if the deviation is exact) and changes nothing else in it; the dataset equals the one without normalisation in every part but X, and X in every discrete position. Without a continuous column, or without rows, it raises ValueError and leaves the table as it was. The types still say 'integer' for a standardised integer column, so a table rebuilt from the dataset shows such a column cut to integers: every value less than one deviation from the mean is shown as 0. Discrete and float columns are rebuilt exactly.", "quantifier": "every table of integer, float and text columns, every list of discrete columns, every positive deviation", "why_tests_cant": "The agreement with the plain version has to hold for all tables; the loss in integer columns does not show on data of floats.", "anchors": ["src/teacher/datasets/_base.py: generate_dataset", "src/teacher/utils/util.py: build_df2explain"]}
{"id": "C110", "title": "Training does not depend on the order of the rows", "statement": "Training an FDT or FBDT on the same rows in another order succeeds when the original training does and gives a tree of the same shape, with the same predictions for every table and the same rules for every threshold; the same holds if every row is repeated k times and min_num_examples is multiplied by k, and, for an FDT, for training again. Training an ID3 on the rows in another order gives the same tree or the same exception, provided iterating over the set of classes does not depend on the order of the rows.", "quantifier": "every training set, permutation, number of repetitions, configuration and table to predict", "why_tests_cant": "permutations and repetitions of tables of any size; the order of rows enters every array in the training", "anchors": ["src/teacher/tree/fdt_tree.py:FDT.fit", "src/teacher/tree/fdt_binary_tree.py:FBDT.fit", "src/teacher/tree/id3_tree.py:ID3.fit"]}
{"id": "C111", "title": "Entropy discretisation commutes with a change of units", "statement": "If every value x of a column becomes k*x+b with k>0, the class codes are exchanged for other distinct ones and the rows are put into another order, the points found by the entropy method are the converted points of the original column, and an exception stays the same exception.", "quantifier": "every column, class coding, positive k, every b, permutation, maximum depth and threshold", "why_tests_cant": "affine changes and permutations of unbounded columns; the choice of every cut depends on comparisons of entropies of all values", "anchors": ["src/teacher/fuzzy/_discretize.py:_fuzzy_discretization", "src/teacher/fuzzy/_base.py:get_fuzzy_points"]}
{"id": "C112", "title": "A fuzzy decision tree reads its table only through membership degrees", "statement": "If two sets of fuzzy variables have the same names of variables and sets, and the rows of two tables have the same degrees in them, an FDT learns the same from both: the same exception, or trees with the same rules and the same predictions for rows of the same degrees. Hence expressing each column and its fuzzy sets in other units (x to k*x+b, k>0) changes neither rules nor predictions. The same holds for an FBDT, if the first sets of corresponding variables are both continuous or both discrete. Sets made from converted points under the same labels are the converted sets.", "quantifier": "all variables, tables, labels, units and tables to predict", "why_tests_cant": "a relation between two trainings on arbitrary tables", "anchors": ["src/teacher/tree/fdt_tree.py:FDT.fit", "src/teacher/tree/fdt_tree.py:FDT.predict", "src/teacher/tree/fdt_binary_tree.py:FBDT.fit", "src/teacher/fuzzy/_base.py:dataset_membership", "src/teacher/fuzzy/_base.py:get_fuzzy_continuous_sets"]}
{"id": "C113", "title": "Rules that print alike are the same rule", "statement": "str() of a rule determines it: two rules of an FDT, or two of an FBDT, with the same text have the same literals in the same order, the same class and the same weight, provided feature names are not empty and contain neither blanks nor colons and set names contain no blanks (no quotes, for an FBDT) and the texts of classes and weights determine them. With blanks in names two different rules may print alike.", "quantifier": "all rules, names and texts of classes and weights", "why_tests_cant": "injectivity relates every pair of rules, of any number of literals", "anchors": ["src/teacher/tree/rule.py: Rule.__str__"]}
{"id": "C114", "title": "A printed FDT lists its nodes and determines the tree", "statement": "The non-empty lines of a printed FDT are, parents first, one line per node naming the feature and set of its branch ('Root ' for the root) and, for a leaf, a line with its class weights, indented by the depth of the node; a branch that no training row reaches is not indented. Two FDTs over the same variables that print alike have the same rules for every threshold and predict alike every table, if no name contains a newline and no feature name a blank.", "quantifier": "all trained trees, names, tables to predict", "why_tests_cant": "trees of any size; injectivity relates every pair of trees", "anchors": ["src/teacher/tree/fdt_tree.py: TreeFDT.__str__"]}
{"id": "C115", "title": "A printed FBDT does not show the sets of its branches", "statement": "The non-empty lines of a printed FBDT are, parents first, one line per node that names the feature of its branch followed by 'Root ' but never its sets, and the class weights of a leaf. So the text does not determine the tree: two FBDTs trained over the same variable and rows may print alike, have different rules and disagree on every row.", "quantifier": "all trained trees and names", "why_tests_cant": "the exception that hides the sets is swallowed in every node; tests do not cover printing", "anchors": ["src/teacher/tree/fdt_binary_tree.py: TreeFBDT.__str__"]}
{"id": "C116", "title": "A printed ID3 tree determines its rules and predictions", "statement": "Every trained ID3 tree can be printed, and two trained ID3 trees over the same feature names that print alike have the same rules and the same prediction for every row, provided feature names are not empty and contain no blank, tab or newline, and different values and classes have different texts.", "quantifier": "all trained trees, tables and texts of values and classes", "why_tests_cant": "trees of any size; injectivity relates every pair of trees", "anchors": ["src/teacher/tree/id3_tree.py: TreeID3.__str__"]}
{"id": "C117", "title": "Mutation and random individuals take listed values", "statement": "gpdatagenerator.mutate returns an individual of the same length with the old gene wherever the coin exceeds indpb and a value listed for that position elsewhere; it succeeds exactly if every position has an entry, even those that do not change, and a value where one is needed; indpb 0 does not exclude a change. gpdatagenerator.random_init takes one value of each entry in the order of the dictionary, not of its keys, and fails exactly if an entry is empty; on the result of calculate_feature_values it makes a row of the data's features with only observed categories.", "quantifier": "all individuals, dictionaries, coins and draws", "why_tests_cant": "random draws are universally quantified", "anchors": ["src/teacher/neighbors/gpdatagenerator.py:mutate", "src/teacher/neighbors/gpdatagenerator.py:random_init"]}
{"id": "C118", "title": "genetic_neighborhood_old also returns neighbourhoods of one outcome", "statement": "With the same draws genetic_neighborhood(population_size=1000) returns a neighbourhood exactly if genetic_neighborhood_old returns it and it holds two different outcomes. The old version's rows have genes of the record or listed ones, and its table shows the decoded outcome of each row; but it may return rows of a single outcome, as for a black box that always answers the same, where genetic_neighborhood raises.", "quantifier": "all data sets, records, black boxes and draws", "why_tests_cant": "a relation between two programs over all random draws", "anchors": ["src/teacher/neighbors/neighbor_generator.py:genetic_neighborhood_old", "src/teacher/neighbors/neighbor_generator.py:genetic_neighborhood"]}
{"id": "C119", "title": "dataframe2explain pairs the record with the table of predictions", "statement": "dataframe2explain returns the row at the index, negative ones counting from the end, and a table with one row per row of X2E in their order: the class column shows the decoded outcome of the black box, a discrete column the label of its code, any other the number, truncated in integer columns. An index out of range raises IndexError. For a data set made by generate_dataset with the class first and a black box that is right on it, the table is the one the data set was made from.", "quantifier": "all data sets, black boxes, tables and indices", "why_tests_cant": "all tables and all indices", "anchors": ["src/teacher/utils/util.py:dataframe2explain"]}
{"id": "C120", "title": "Refitting an FBDT does not replace the old tree", "statement": "Fitting an already fitted FBDT again on the same data, any number k of times, leaves every prediction unchanged but returns each rule k+1 times when the root is split; fitting it on other data succeeds whenever a new tree can be fitted there and keeps the old subtrees in front of the new ones, so that the support of a class is the sum (or, with max_match, the maximum) of the supports in the two trees, and predictions can differ from those of a fresh tree.", "quantifier": "all fit histories of this form, all data, rows and classes; witness history", "why_tests_cant": "history-dependent behaviour", "anchors": ["src/teacher/tree/fdt_binary_tree.py:FBDT.fit", "src/teacher/tree/fdt_binary_tree.py:FBDT._partial_fit"]}
{"id": "C121", "title": "Fuzzy trees treat class labels as names", "statement": "Training an FDT on renamed labels (different classes keep different labels) gives the same tree with renamed leaf weights, or the same exception, whether the tree is new or was fitted before; if the renaming keeps the order of the labels, every prediction is renamed and the rule list is the same with renamed consequents; for any renaming the supports and the set of rules are renamed and every row without a tie gets the renamed class, while with a tie the least label wins and the prediction need not be renamed. The same holds for FBDT with order-preserving renamings, and with any renaming when no variable is categorical.", "quantifier": "all data, parameters, renamings, rows; witness for the tie", "why_tests_cant": "relates two trainings on arbitrary data; needs equality of the two computations in general", "anchors": ["src/teacher/tree/fdt_tree.py:FDT.fit", "src/teacher/tree/fdt_tree.py:FDT.predict", "src/teacher/tree/fdt_binary_tree.py:FBDT.fit", "src/teacher/tree/fdt_binary_tree.py:FBDT._get_binary_partitions"]}
{"id": "C122", "title": "ID3 and the entropy discretisation treat class labels as names", "statement": "Training ID3 on renamed labels gives the same tree with renamed classes (or the same exception) for every renaming under which the iteration order of the label sets is renamed too; the predictions, including None, and the rules of the renamed tree are the renamed ones. Fuzzy entropy and the points of the entropy discretisation do not change at all under any renaming of the classes.", "quantifier": "all data, parameters, renamings and set iteration orders", "why_tests_cant": "relates two trainings on arbitrary data", "anchors": ["src/teacher/tree/id3_tree.py:ID3.fit", "src/teacher/fuzzy/_discretize.py:_fuzzy_entropy", "src/teacher/fuzzy/_discretize.py:_fuzzy_discretization"]}
{"id": "C123", "title": "The names of variables and fuzzy sets are only names", "statement": "Renaming the variables (different names stay different) and, per variable, its fuzzy sets, changes nothing but the names: an FDT or FBDT with a positive threshold, new or fitted before, raises the same exception on the same table or becomes a tree with the same predictions for every table, whose extracted rules (for the FBDT also simplified) are the old rules with the new names; membership dictionaries are the old ones under the new names, and rules match and vote on renamed instances as before. An ID3 tree is the very same tree, and its rules are the old ones with the new names.", "quantifier": "all variables, tables, labels, thresholds, previous fits and injective renamings, with the features of an FDT or ID3 node visited in the corresponding order", "why_tests_cant": "a relation between two trainings on arbitrary tables", "anchors": ["src/teacher/tree/fdt_tree.py:FDT.fit", "src/teacher/tree/fdt_binary_tree.py:FBDT.fit", "src/teacher/tree/id3_tree.py:ID3.fit", "src/teacher/tree/rule.py:Rule.matching", "src/teacher/tree/rule.py:Rule.weighted_vote", "src/teacher/fuzzy/_base.py:dataset_membership"]}
{"id": "C124", "title": "A fit that raises leaves the estimator as it was (positive threshold, no pruning), and what it leaves otherwise", "statement": "With a gain threshold greater than zero, FDT.fit and FBDT.fit either succeed or raise before changing anything: the tree of the estimator is then the one it had before the call, and so are its predictions. The same holds for ID3.fit without pruning. In general an exception of FDT.fit or FBDT.fit leaves either the old tree or an inner root with its old children followed by the nodes grown so far. With a threshold of zero a failed second fit can make a usable estimator unusable (predict raises ValueError), and with pruning a failed ID3.fit can leave a half-built tree in which a training row raises IndexError.", "quantifier": "all configurations, set orders, training tables and labels, and all trees the estimator may hold before the call", "why_tests_cant": "the exception can come from any node of the recursion; tests look at a few bad inputs and not at the tree left behind", "anchors": ["src/teacher/tree/fdt_tree.py: FDT.fit, FDT._partial_fit", "src/teacher/tree/fdt_binary_tree.py: FBDT.fit, FBDT._partial_fit", "src/teacher/tree/id3_tree.py: ID3.fit, ID3._partial_fit"]}
{"id": "C125", "title": "The order of the columns does not matter to FDT and ID3", "statement": "Move the columns of the training table together with the list of fuzzy variables (FDT) or feature names (ID3), and query with rows whose cells are moved the same way. If equal sets of names are iterated in the same order, training raises in both runs or in neither; when it succeeds, every table gets the same predictions and the extracted rules are literally the same. For the FDT the iteration orders may be arbitrary when no two features tie for the best gain. The binary tree (FBDT) does not have the property: it tests features in column order and keeps the first of two equally good ones, so exchanging two equally informative columns can change predictions.", "quantifier": "all tables, labels, parameters, query tables, permutations of the columns and set iteration orders", "why_tests_cant": "relates two trainings on arbitrary data under an arbitrary permutation", "anchors": ["src/teacher/tree/fdt_tree.py: FDT.fit, FDT.predict", "src/teacher/tree/id3_tree.py: ID3.fit, ID3.predict", "src/teacher/tree/fdt_binary_tree.py: FBDT._get_max_f_gain"]}
{"id": "C126", "title": "Equal-width and equal-frequency divisions put the points where they promise", "statement": "On a column with at least two different values, equal-width division into n >= 2 sets gives n points: the least value, then the points that divide the range into n - 1 equal parts, each up to half a thousandth (exactly when that point has at most three decimals). If a part is wider than a thousandth the points ascend, and the fuzzy sets over them share out every column value with total degree one, except values above the last point (which can be below the maximum by at most half a thousandth; with a maximum of three decimals there is none). Equal-frequency division does the same at the quantiles 0, 1/(n-1), ..., 1, when these are distinct; below the quantile q lie fewer than q(m-1)+1 of the m values and above it fewer than (1-q)(m-1)+1. With a repeated quantile the result is the least value twice followed by one point per other distinct quantile (IndexError for a constant column and n >= 3). get_fuzzy_points returns one entry per name in order, the sorted distinct values for a point variable, and raises ValueError on an unknown method, an empty table or labels of another length. Not every division is usable: the maximum of a column can belong to no set, equal-width points of a constant column are unordered so that no degree can be computed, and after a repeated quantile the least value has degree one in two sets.", "quantifier": "all columns of numbers, all numbers of sets, labels and membership values", "why_tests_cant": "rounding by pandas, repeated quantiles and constant columns make the result depend on the data; tests use two columns of three values", "anchors": ["src/teacher/fuzzy/_discretize.py: _equal_width, _equal_freq", "src/teacher/fuzzy/_base.py: get_fuzzy_points"]}
{"id": "C127", "title": "fuzzify by equal width or equal frequency builds the promised fuzzy variables", "statement": "After a successful fuzzify('equal_width' or 'equal_freq', sets=n), n >= 2, on a neighbourhood of two or more rows, there is one variable per column, in order and under its name: a categorical column has one set per value, a nearly constant numerical column (sample standard deviation below 0.00001) one set per value, and every other numerical column triangular sets around the n points of the division. If the points lie apart (an equal-width step above a thousandth, distinct quantiles) every value of the column has degrees in [0,1] that add up to one, except possibly values within half a thousandth of a maximum of more than three decimals. fuzzify then succeeds whenever the columns are distinct, all listed, numerical where promised, and the instance fits; and its result serves an FDT explainer as in the entropy case. With a repeated quantile (equal frequency, n >= 3) the first two sets of the variable always carry the same name, and a tree trained on them can predict the same class for all rows although the column determines the class, with two contradictory rules.", "quantifier": "all tables, histories of operations, numbers of sets, printing functions and set iteration orders", "why_tests_cant": "the relation between the division, the stored variables and the degrees must hold for every table; tests fuzzify a few fixed tables", "anchors": ["src/teacher/neighbors/_fuzzy_neighborhood.py: FuzzyNeighborhood.fuzzify", "src/teacher/fuzzy/_base.py: get_fuzzy_points, get_fuzzy_variables, dataset_membership", "src/teacher/fuzzy/_discretize.py: _equal_width, _equal_freq", "src/teacher/tree/fdt_tree.py: FDT.fit, FDT.predict"]}
{"id": "C128", "title": "SamplingNeighborhood.fit aligns rows, outcomes and decoded values, end to end", "statement": "After a successful fit() of a SamplingNeighborhood the rows of get_X() are generated rows followed by the instance, in the original values (each encoded feature as the class with that code, each other feature as the number); get_y() holds the black box's outcome of each of these rows and get_y_decoded() the names of these outcomes, position by position; the decoded instance equals the last row; every generated row is drawn around the instance or the nearest row of another class and no class has more than its share. With neighbor_generation='fast' fit() succeeds for every random stream on an encoded task whose continuous columns vary; with every other method (also the default) it raises and leaves the object exactly as it was, as does an instance with an unknown code. After such a fit a fuzzify() by entropy succeeds and the instance's membership is exactly that of the last row.", "quantifier": "all datasets, encoders, black boxes, instances, sizes, ranges, random streams and previous states of the object", "why_tests_cant": "the alignment of three containers over random tables of any size and for every random stream cannot be sampled exhaustively", "anchors": ["src/teacher/neighbors/_sampling_neighborhood.py:SamplingNeighborhood.fit", "src/teacher/neighbors/_sampling_neighborhood.py:SamplingNeighborhood.fuzzify"]}
{"id": "C129", "title": "FDTExplainer.fit succeeds exactly when there is something to explain", "statement": "On a fitted and fuzzified neighbourhood (readable rows, distinct names, no variable without sets, numerical variables with at least two sets, positive threshold) FDTExplainer.fit with i_counterfactual or f_counterfactual succeeds exactly when the arguments are valid and none is superfluous, the labels can be scored (with two classes one of them is 1), the trained tree has a split, and: for mr_factual some rule concludes another class than the prediction; for m_factual and c_factual some rule of the predicted class fires with degree above 0.001. The tree has a split exactly when no stopping limit is met by the whole table and some variable's information gain reaches the threshold. When every row is covered by the sets, every class of the training data has a rule; when the instance is covered with degree d and (leaves x classes) < 1000 d, a rule of the predicted class fires; leaves are at most sets^variables and sets^max_depth.", "quantifier": "all neighbourhoods, instances, arguments, numbers of variables, sets and classes, set iteration orders and previous states of the explainer", "why_tests_cant": "the absence of exceptions over all tables and instances, and the exact frontier where they begin, cannot be sampled", "anchors": ["src/teacher/explanation/FDT_explainer.py:FDTExplainer.fit", "src/teacher/explanation/_factual.py:m_factual, mr_factual, c_factual", "src/teacher/explanation/_counterfactual.py:i_counterfactual, f_counterfactual", "src/teacher/tree/fdt_tree.py:FDT.fit, FDT.predict"]}
{"id": "C130", "title": "FBDTExplainer.fit succeeds exactly when there is something to explain", "statement": "On a fitted and fuzzified neighbourhood (readable rows, distinct names, no variable without sets, positive threshold) FBDTExplainer.fit succeeds exactly when the arguments are valid and none is superfluous, there are at most two classes and of two one is 1, the trained binary tree has a split, and: for mr_factual some rule concludes another class than the prediction; for m_factual and c_factual some rule of the predicted class fires with degree above 0.001. The tree has a split when no stopping limit is met by the whole table and some division of a variable's sets gains at least the threshold. When every row is covered by the sets, every class of the training data has a rule; when the instance is covered with degree d and (leaves x classes) < 1000 d, a rule of the predicted class fires; the leaves are at most as many as the combinations of one set per variable, and at most 2^max_depth.", "quantifier": "all neighbourhoods, instances, arguments, numbers of variables, sets and classes, sorts of categories and previous states of the explainer", "why_tests_cant": "the absence of exceptions over all tables and instances, and the exact frontier where they begin, cannot be sampled", "anchors": ["src/teacher/explanation/FBDT_explainer.py:FBDTExplainer.fit", "src/teacher/explanation/_factual.py:m_factual, mr_factual, c_factual", "src/teacher/tree/fdt_binary_tree.py:FBDT.fit, FBDT.predict, FBDT.to_rule_based_system"]}
{"id": "C131", "title": "A neighbourhood fuzzified by entropy serves the explainers, unless values are lost above the last point", "statement": "After a successful fuzzify('entropy') of a neighbourhood with at least two rows: a column gets two sets or more exactly when it has two different values (the entropy method itself returns at least two points then); a row of the table lies among the sets exactly when no number in it is above all peaks of its variable, which holds when every numerical column is nearly constant or takes its largest value twice; a row among the sets belongs to some set of every variable with degree at least 1/2. An FDT or FBDT explainer given that neighbourhood and its decoded instance gets as far as training (for FDT: when the columns declared numerical are not constant) and succeeds when the arguments are valid, the root can be split, rows and instance lie among the sets and there are not too many leaves. That values are never lost is refuted: of the values 1, ..., n of a single class with threshold 0 the method keeps the points 1 and 2, so n - 2 of the n values have degree 0 in every set.", "quantifier": "all neighbourhoods, tables, labels, thresholds and methods of printing numbers, all explainer arguments, and for the refutation all n", "why_tests_cant": "the whole chain from table to explanation must hold for every table, and the loss of values grows without bound", "anchors": ["src/teacher/neighbors/_fuzzy_neighborhood.py:FuzzyNeighborhood.fuzzify", "src/teacher/fuzzy/_discretize.py:_fuzzy_discretization", "src/teacher/fuzzy/_base.py:get_fuzzy_points, get_fuzzy_variables", "src/teacher/explanation/FDT_explainer.py:FDTExplainer.fit", "src/teacher/explanation/FBDT_explainer.py:FBDTExplainer.fit"]}
{"id": "C132", "title": "When FDTExplainer.fit with d_counterfactual succeeds", "statement": "For a call of FDTExplainer.fit with counterfactual='d_counterfactual', cont_idx, disc_idx and mad given, the default distance (or cf_dist='moth'), a neighbourhood that is ready for training, and distances that are defined (every variable in cont_idx has a number in the decoded instance, a non-zero mad and sets whose names read as numbers; disc_idx is not empty if some variable is not in cont_idx), fit returns without an exception exactly when the methods are known, no superfluous keyword is given, the labels can be scored, the tree has a split and the factual method finds its rules (a rule of another class for mr_factual; a rule of the explained class firing above 0.001 otherwise). After fuzzify('entropy') these conditions on the variables hold as soon as float reads back what str printed, cont_idx lists numerical columns with non-zero mad and disc_idx is not empty when needed. With any other distance - an unknown name, or 'mixed', which asks a list for its shape - fit raises as soon as a rule of another class exists, so always when the training rows are covered by the sets and have two classes.", "quantifier": "All neighbourhoods, instances, tables, keyword arguments, indices, deviations and trees; any reading of set names; any iteration order of feature sets", "why_tests_cant": "Whether every distance to every rule's counterfactual is defined depends on all rules of the tree, on all sets of all variables and on every index in the lists; a test tries one table and one tree.", "anchors": ["src/teacher/explanation/FDT_explainer.py:FDTExplainer.fit", "src/teacher/explanation/_counterfactual.py:d_counterfactual", "src/teacher/metrics/_counterfactual.py:_distance", "src/teacher/metrics/_counterfactual.py:_mixed_distance"]}
{"id": "C133", "title": "A neighbourhood divided by equal width or equal frequency serves the explainers", "statement": "After a successful fuzzify('equal_width') or fuzzify('equal_freq') into n >= 2 sets of a neighbourhood with at least two rows, the points of every numerical column lying apart: a categorical column gets one set per value, a nearly constant numerical column one set per value, every other numerical column exactly n sets, so every column with two different values two sets or more; a row between the peaks of every numerical variable belongs to some set of every variable with degree at least 1/2; a row of the table lies between the peaks as soon as each of its numbers is at least 1/2000 below the greatest of its column, or that greatest number has at most three decimals, or the column is nearly constant. An FDT or FBDT explainer given that neighbourhood and its decoded instance gets as far as training (for FDT: when the columns declared numerical are not constant) and succeeds when the arguments are valid, the root can be split, rows and instance lie between the peaks and there are not too many leaves; with d_counterfactual also when float reads back what str printed, cont_idx lists numerical columns with non-zero mad and disc_idx is not empty when needed.", "quantifier": "all neighbourhoods, tables, labels, numbers of sets and methods of printing numbers, both methods of division, all explainer arguments", "why_tests_cant": "the whole chain from table to explanation must hold for every table, every number of sets and both methods", "anchors": ["src/teacher/neighbors/_fuzzy_neighborhood.py:FuzzyNeighborhood.fuzzify", "src/teacher/fuzzy/_discretize.py:_equal_width, _equal_freq", "src/teacher/fuzzy/_base.py:get_fuzzy_points, get_fuzzy_variables", "src/teacher/explanation/FDT_explainer.py:FDTExplainer.fit", "src/teacher/explanation/FBDT_explainer.py:FBDTExplainer.fit"]}
{"id": "C134", "title": "Fitting an ID3 again: harmless without pruning, a collapsing and reappearing tree with it", "statement": "Without pruning, fit on an ID3 that was fitted before succeeds or raises exactly like fit on a new one, and predictions and rules are those of a new tree; only the recorded number of leaves of a split root adds up. With pruning and a positive threshold, for every tree the estimator held before: where a new tree would be a single leaf, so is the refitted one; where a new tree splits the root into k children and scores s on the training data, p being the share of the most frequent class, the refitted tree answers like the new one if s - p >= th (n + k - 1), n being the recorded number of leaves, and otherwise predicts the most frequent class for every row. So after m refits on the same data the answers are unchanged as long as th ((m+1) k - 1) <= s - p, and the first refit beyond turns the estimator into the most frequent class, its score dropping from s to p < s. However small the threshold this happens, and happens again after any number of refits; and if th k <= s - p the split also comes back after any number of refits.", "quantifier": "all training tables, labels, thresholds, set iteration orders, previous trees and numbers of refits", "why_tests_cant": "the collapse may need any number of refits, depending on threshold and data, and the alternation never ends", "anchors": ["src/teacher/tree/id3_tree.py:ID3.fit, ID3._partial_fit, ID3.predict, TreeID3.to_rule_based_system"]}
{"id": "C135", "title": "Any history of fits of a fuzzy tree", "statement": "Call fit on one FDT or FBDT object with any number of data sets, each of which a new object could be fitted on. All calls succeed. If the last data set alone gives an undivided tree, the object predicts and yields the rules of a new object fitted on that data set only. If it gives a divided tree, then for every row and class the support is the sum (with agg_vote; the maximum with max_match) of the supports of the divided trees of all data sets so far, also of those fitted before a call that left the object undivided, and the rules are the rules of those trees one after the other. When all data sets have the same classes the prediction is the smallest class with the largest such support, and it does not depend on the order of the calls as long as the last data set is one that divides the tree.", "quantifier": "all configurations, feature orders, histories of any length, rows and classes", "why_tests_cant": "Tests fit an object once; the effect of old fits grows with the history and hides behind undivided trees.", "anchors": ["src/teacher/tree/base_decision_tree.py: fit", "src/teacher/tree/fdt_tree.py: TreeFDT._partial_fit, TreeFDT.predict, TreeFDT.to_rule_based_system", "src/teacher/tree/fdt_binary_tree.py: _partial_fit, predict, to_rule_based_system"]}
{"id": "C136", "title": "With two sets per variable FDT and FBDT are the same classifier", "statement": "When every fuzzy variable has exactly two continuous sets (two points per feature) and the features are iterated in the order of the variables, an FBDT fitted with the same parameters on the same data as an FDT succeeds whenever the FDT does (and for a positive threshold also the other way round) and is the same tree: same shape, levels, tested variables, activations and class distributions, each group of sets being a single set. So both predict the same labels (or raise the same error) for every table, have the same score, and yield the same rules for every threshold; the simplification of FBDT rules changes nothing.", "quantifier": "all configurations, training tables, labels, test tables and rule thresholds; all sort functions of the binary tree", "why_tests_cant": "The two trees are separate implementations with different bookkeeping (the ignored marks, groups, feature dictionaries); tests compare a few fixed outputs of each.", "anchors": ["src/teacher/tree/fdt_tree.py:FDT.fit, TreeFDT.predict, TreeFDT.to_rule_based_system", "src/teacher/tree/fdt_binary_tree.py:FBDT.fit, TreeFBDT.predict, TreeFBDT.to_rule_based_system", "src/teacher/tree/rule.py:Rule.simplify"]}
{"id": "C137", "title": "Without fuzziness the FDT is an ordinary decision tree", "statement": "Call a row crisp if, for every fuzzy variable, it belongs to one of its sets with degree 1 and to the others with degree 0; a row with known values of categorical variables (discrete sets with distinct values) is crisp. With a t-norm that is conjunction on 0 and 1 (min and product are), a crisp row activates exactly one leaf of a fitted FDT, with degree 1, and no other leaf at all. If the training rows are crisp too, predict returns the most frequent class (the least one among equals) of the training rows that satisfy all conditions of that leaf, or, if the leaf has no training rows, of those of its parent node. On crisp rows the predictions depend neither on the t-norm nor on the voting method, and the score on crisp training data is at least the relative frequency of every class.", "quantifier": "all variables, training sets, feature orders, stopping parameters, t-norms that are conjunction on 0/1, voting methods, and crisp rows", "why_tests_cant": "exactly-one-leaf and majority statements quantify over all trees that training can produce and over all rows; tests check a few rows of one tree", "anchors": ["src/teacher/tree/fdt_tree.py:TreeFDT.predict", "src/teacher/tree/fdt_tree.py:FDT.fit", "src/teacher/tree/_voting.py:aggregated_vote", "src/teacher/fuzzy/fuzzy_set.py:FuzzyDiscreteSet.membership"]}
{"id": "C138", "title": "Without fuzziness the FBDT is an ordinary binary decision tree", "statement": "A row is crisp as in the FDT's property: for every fuzzy variable it belongs to one set with degree 1 and to the others with degree 0. With a t-norm that is conjunction on 0 and 1, a crisp row activates exactly one leaf of a fitted FBDT, with degree 1, and no other leaf at all. If the training rows are crisp too, the memberships kept at every node are 1 for the training rows that satisfy all conditions on the way and 0 for the others (no row is ever ignored), and predict returns the most frequent class (the least one among equals) of the training rows of the activated leaf, or of its parent node if the leaf has none. On crisp rows neither training nor prediction depends on the t-norm or the voting method, and the score on crisp training data is at least the relative frequency of every class.", "quantifier": "all variables, training sets, orders of categorical values, stopping parameters, t-norms that are conjunction on 0/1, voting methods, and crisp rows", "why_tests_cant": "the groups of sets on the branches and the marking of ignored rows are decided during training; exactly-one-leaf and majority quantify over all trees that training can produce", "anchors": ["src/teacher/tree/fdt_binary_tree.py:TreeFBDT.predict", "src/teacher/tree/fdt_binary_tree.py:FBDT.fit", "src/teacher/tree/fdt_binary_tree.py:TreeFBDT.update_ignored", "src/teacher/tree/_voting.py:aggregated_vote"]}
{"id": "C139", "title": "On categorical data the FDT is an initial part of the ID3 tree and, unless it stops for lack of gain, predicts alike", "statement": "If every fuzzy variable has exactly one crisp set per distinct value of its training column, the FDT's fuzzy information gain of a column at a node equals the ordinary (Shannon) information gain of that column over the training rows satisfying the node's tests; an FDT inner node therefore tests an unused column of maximal information gain, positive and at least the threshold. When no two unused columns tie for that maximum and an unpruned ID3 is trained on the same table with the same depth limit (at most the number of features) and the same minimum of examples, every node of the FDT read as tests 'column = value' is a node of the ID3 tree; if moreover no FDT leaf was cut for lack of gain and ID3 enumerates classes in increasing order, predict of both returns the same class for every row made of known values.", "quantifier": "every categorical table, all labels, thresholds and limits, every set iteration order, every node of the trees and every row of known values", "why_tests_cant": "tests compare the two trees on a few data sets at most; the equality of the two criteria and of all predictions ranges over all tables", "anchors": ["src/teacher/tree/fdt_tree.py:FDT.fit", "src/teacher/tree/fdt_tree.py:FDT._get_max_f_gain", "src/teacher/tree/fdt_tree.py:TreeFDT.predict", "src/teacher/tree/id3_tree.py:ID3.fit", "src/teacher/tree/id3_tree.py:ID3._partial_fit", "src/teacher/tree/id3_tree.py:TreeID3.predict"]}
{"id": "C140", "title": "An unpruned ID3 of full depth fits its training table as well as any classifier can", "statement": "Train ID3 without pruning, with max_depth equal to the number of features and min_num_examples at most 1. Then score on the training table is the largest that any function of the feature columns reaches on it; in particular it is 1 exactly when no two rows with the same feature values carry different labels. (With the same limits an FDT can stay at the majority score on such a table: on exclusive or, ID3 scores 1 and the FDT 1/2, because no single column has a gain.)", "quantifier": "every training table (numbers or strings), all labels, every iteration order of the class and feature sets, every earlier state of the estimator, and all classifiers of the feature columns", "why_tests_cant": "optimality compares the tree with all classifiers and holds for all tables; tests can only look at the score of a few", "anchors": ["src/teacher/tree/id3_tree.py:ID3.fit", "src/teacher/tree/id3_tree.py:ID3._partial_fit", "src/teacher/tree/id3_tree.py:TreeID3.predict", "src/teacher/tree/base_decision_tree.py:BaseDecisionTree.score"]}
{"id": "C141", "title": "max_depth only cuts the tree off", "statement": "Train an FDT, an FBDT or an unpruned ID3 twice on the same data with the same parameters except max_depth, d <= d'. If fit succeeds with d' it succeeds with d, and the tree for d is the tree for d' cut off at depth d: above it all nodes, tests, branches and leaves are the same, and at depth d a leaf stands in the place of each inner node. A fuzzy tree that does not reach the limit d is the same tree for every larger limit. With limits up to the number of features, the score of an unpruned ID3 on its training table never decreases when max_depth grows (beyond the number of features it can fall from 1 to 0).", "quantifier": "every dataset, all labels and parameters, every set iteration order and sort of equal keys, all pairs of limits", "why_tests_cant": "A statement about pairs of executions and about all nodes of both trees.", "anchors": ["src/teacher/tree/fdt_tree.py:FDT._partial_fit", "src/teacher/tree/fdt_binary_tree.py:FBDT._partial_fit", "src/teacher/tree/id3_tree.py:ID3._partial_fit"]}
{"id": "C142", "title": "Stricter stopping parameters only prune the tree", "statement": "Train an FDT, an FBDT or an unpruned ID3 on the same data with the same variables once with given parameters and once with a smaller or equal max_depth, a larger or equal min_num_examples and a larger or equal fuzzy_threshold (whatever the t-norm and voting method). If the first fit succeeds so does the stricter one, and its tree is the first one with leaves in the place of some inner nodes: no test, branch or other leaf changes. For unpruned ID3 with max_depth at most the number of features the stricter tree never scores better on the training table.", "quantifier": "every dataset, all labels, all pairs of parameter sets of which one is stricter, every set iteration order and sort of equal keys", "why_tests_cant": "A statement about pairs of executions and about all nodes of both trees.", "anchors": ["src/teacher/tree/fdt_tree.py:FDT._stop_met", "src/teacher/tree/fdt_tree.py:FDT._partial_fit", "src/teacher/tree/fdt_binary_tree.py:FBDT._partial_fit", "src/teacher/tree/id3_tree.py:ID3._partial_fit"]}
{"id": "C143", "title": "Pruning an ID3 only turns inner nodes into leaves", "statement": "If fitting an ID3 succeeds with pruning switched on, fitting the same ID3 on the same training data with pruning switched off succeeds too, and the pruned tree is the unpruned one with some inner nodes turned into leaves of the same class, class counts and level: every node of the pruned tree is a node of the unpruned tree, and nothing else differs. When max_depth is at most the number of features, pruning never raises the score on the training table. Beyond the number of features it can: a table exists on which the unpruned tree scores 0 and the pruned tree scores 1.", "quantifier": "all training tables, feature lists, max_depth, min_num_examples and gain functions under which fit succeeds", "why_tests_cant": "Relates two runs of a recursive learner on every table; a test compares two trees on one table, and the exception beyond the number of features shows only with max_depth larger than the number of features.", "anchors": ["src/teacher/tree/id3_tree.py:ID3._partial_fit", "src/teacher/tree/id3_tree.py:ID3.fit"]}
{"id": "C144", "title": "An explanation does not depend on the order of the neighbours", "statement": "FDTExplainer.fit and FBDTExplainer.fit on a neighbourhood whose rows (with their labels) are put into another order give the same state - explanation, explained class, fidelity - or raise the same exception. If all columns are numerical, fuzzify of the neighbourhood in another order gives the same fuzzy variables and the same memberships of the instance for every division method, so that fuzzifying and explaining together do not depend on the order either. With categorical columns the fuzzy variables may differ: their sets are listed as the values first appear.", "quantifier": "every neighbourhood whose values can be read by the fuzzy variables, every order of its rows, every choice of methods and positive threshold, every previous state of the explainer", "why_tests_cant": "Quantifies over all permutations of all neighbourhoods; a test compares a few orders of one table.", "anchors": ["src/teacher/explanation/FDT_explainer.py:FDTExplainer.fit", "src/teacher/explanation/FBDT_explainer.py:FBDTExplainer.fit", "src/teacher/neighbors/_fuzzy_neighborhood.py:FuzzyNeighborhood.fuzzify"]}

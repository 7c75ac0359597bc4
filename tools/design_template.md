# Formal model of Kaysera/teacher in Rocq (Coq 8.16.1)

## 1. What is modelled and how

The model is a set of total Gallina functions that mirror the Python functions
branch by branch (one definition per Python function or loop, each with a comment
citing `file:lines` of /repo/src/teacher).  Conventions:

* **Numbers.** Data values, peaks, membership degrees, weights and thresholds are
  exact rationals `Qc` (canonical rationals, Leibniz equality).  Python uses IEEE
  binary64: rounding, overflow, infinities and NaN inputs are *not* modelled
  (except the numpy `0/0` results, which are modelled as `None` or an error value where
  the code can produce them).  Entropies, gains and Euclidean distances use the classical
  reals `R` (`log2 x = ln x / ln 2`, `sqrt`), injected by `qr : Qc -> R`.
* **Comparisons of square roots** (standard deviations, z-scores) with rationals are made on the squares.
* **Exceptions are values**: `res A := Ok a | Err exn`, one constructor of `exn` per Python
  exception class the code raises or lets through.
* **dict** = association list in insertion order; **set** = list without duplicates
  whose iteration order is an oracle argument constrained to be a permutation;
  `max(key=)`, `sorted`, `np.unique`, `np.argmax` are modelled with their tie rules.
* **Loops** are structural recursion/folds; unbounded recursion (tree growing,
  discretisation, sampling rounds) uses fuel whose exhaustion is a distinguished error that is proved
  unreachable for the fuel the public function passes.
* **Mutation** is state passing (explainer, neighbourhood, ID3 `num_leaf`, FDT root
  across refits, FBDT heap of `ignored` arrays).
* **Randomness** (np.random, random) is an arbitrary oracle stream, so theorems hold for every outcome
  of the random choices; **black boxes**, distance callbacks, `is` identity and `float()` of names are
  arbitrary function arguments.
* Exogenous libraries are not modelled as code but by the elementary behaviour the repository
  relies on; these readings are part of the trusted base (section 4).
* **Refuted claims.** Where the natural expectation about the API is false of the code, the
  property states what really holds, and a theorem (`…_refuted`, `…_fails`, `…_lost`) exhibits the
  counterexample.

Layout (`rocq/theories`): `Prelude` (Python builtins, rationals), one `M_*.v` model file per
Python module, `S_*.v` small independent specifications (the vocabulary of the statements),
`P_*.v` proofs, and `Properties_*.v` with the theorems `Cxx_name` of MANIFEST.json,
their `Print Assumptions`, and `Example`s showing that a concrete case meets the hypotheses.
`tools/` holds the generators of properties.jsonl and MANIFEST.json, the mutation harness
(`mutate.py`, `mutlog.py`; results in `seeded/LOG.jsonl`) and `coverage.py`, which lists the
functions of the source that no model comment cites.

## 2. Properties: what is modelled, how it is proved

| id | model | proof idea |
|----|-------|-----------|
| C01 | `FuzzyContinuousSet.membership` (trimf): `tri` | case analysis, linear arithmetic over Q |
| C02 | `get_fuzzy_continuous_sets` + membership over all sets | induction on the peak list |
| C03 | `get_fuzzy_continuous_sets`, `_point_set` | induction / index characterisation |
| C04 | the same with repeated peaks; `FuzzyVariable.membership` dict; `_equal_freq` fallback | induction + dict collapse |
| C05 | `alpha_cut` | arithmetic |
| C06 | `intersection`, `_line_intersect` | upper bound + attained point by cases |
| C07-C09 | `simmilarity`, `jaccard_similarity`, `merge` | arithmetic; witnesses for the refuted parts |
| C10 | discrete sets | list induction |
| C11, C12 | `get_fuzzy_variables`, `dataset_membership` | dict/list induction |
| C13 | `_fuzzy_entropy`, `_weighted_fuzzy_entropy` over R | Gibbs inequality (`ln x <= x-1`); equal to the written-out formula of S_Discretize.v |
| C14, C15, C76 | `_fuzzy_discretization` recursion over R-valued gain | well-founded size argument; invariant on the recursion tree; witness for the lost maximum; C76 against the relation `divided` of S_Discretize.v (best gain, first of ties, required gain), for every threshold, with uniqueness |
| C16-C22 | `Rule`: matching, multi-value matching, simplify, weighted_vote, crisp cut, map_rule_variables, to_json | list induction |
| C23-C25, C27, C28 | `FDT` fit/predict with set-order oracle | invariants over the growing recursion; fuel = number of features + 1 |
| C26 | FDT prediction versus its rules | tree induction relating leaf votes to rule totals; witnesses for ties and a root leaf |
| C29 | refit on an existing root | execution of the second fit on the first tree; witness |
| C30 | choice of the feature | argmax over any permutation |
| C31, C32 | `FBDT` splits, growth and termination | invariants; complement of degrees |
| C33 | FBDT prediction versus its simplified rules (rows `partitioned`: degrees of each variable sum to 1; proved for every variable built by this library's constructors, refuted for overlapping sets) | tree induction |
| C34 | the heap of `ignored` arrays (first use shares the array, in-place marking) | simulation of the heap model by a pure one; witnesses |
| C35 | public `to_rule_based_system(verbose, simplify)` of the three trees | the flags are positional: computation + general statements |
| C36-C39 | `ID3` with class- and feature-order oracles | invariants over the growing recursion; witnesses |
| C40 | `score` of the three trees | counting |
| C41-C43 | rule metrics | counting lemmas |
| C44-C47 | counterfactual metrics | arithmetic over lists |
| C48-C51 | factual methods | sortedness + prefix reasoning |
| C52-C58 | counterfactual methods | sorted search = argmin; literal distances bounded by induction |
| C59-C61, C80-C82 | explainer state machines (`fdt_fit`, `fbdt_fit`, `fid3_fit`), F1 fidelity | induction over operation histories; composition of the theorems on trees and methods |
| C62, C83 | neighbourhood state (`fit`, `fuzzify`, accessors) | induction over histories; composition with C11/C12 |
| C63 | `SimpleNeighborhood` | direct |
| C64, C65 | fast sampling with random oracle | loop invariants, variant 100*size + 1 rounds |
| C66-C68 | genetic algorithm, `get_oversample` | invariants over all random streams |
| C69-C71 | distance functions | list induction, Cauchy-like inequality for the variance ratio |
| C72-C75, C84-C87 | `util.py`, `generate_dataset`, 'mixed' distance | list/dict induction; specification of argsort as any sorting permutation |
| C77-C79 | ID3 pruning, structure, gain | invariants |
| C88, C89 | FBDT split choice, category order | invariants with a sort oracle |
| C90 | the four LORE fitness functions | arithmetic with NaN as `None` |
| C91 | `generate_data` with deap's eaSimple/varAnd | invariants over all draws |
| C92 | `calculate_feature_values` | fold invariant |
| C93 | `genetic_neighborhood` | composition |
| C94 | `_smooth_neighborhood` | masks and squares; Chebyshev's inequality for the rows lost |
| C95 | `LoreNeighborhood.fit` | composition of all the above |
| C96 | `generate_random_data` | fold over columns |
| C97 | `real_data`, `closed_real_data`, `random_neighborhood` | composition with label encoding |
| C98 | `get_feature_values` and the initialisers using it | direct, composition with C67 |
@@MORE@@

No property of the list is inexpressible in the model; none is only partially proved
(a theorem that covers only part of its property would be named `…_partial`).

## 3. Trusted base

* Coq 8.16.1's kernel (including `vm_compute`), and the standard library.  No other library, no plugin,
  no axiom of our own, no functor or module type, no kernel check switched off.
* The standard library's axioms of the classical reals for theorems that mention `R`; section 5 says which theorems.
* The reading of the Python code (no extraction; nothing was run) and of the libraries it calls (section 4).
* The specification files `S_*.v` and the statements in `Properties_*.v`.

### Parts of the code that are modelled
`fuzzy/` completely; `tree/` completely (verbose output excepted); `metrics/` completely
(for the `mixed` distance the metrics 'euclidean' and 'jaccard', ratio_cont=None, agg=None);
`explanation/` completely; `neighbors/` and `utils/` and `datasets/` except for the list below.

### Parts that are not modelled
@@NOT@@

## 4. How library calls are read

* **numpy**: arrays are lists; boolean masks filter; `np.unique` sorts and removes duplicates (a mixed column of
  numbers and text raises TypeError); `np.argmax`/`max` return the first maximum; `np.argsort` is any function that returns
  a permutation of the positions sorting the values, NaN last (oracle, `stable_sorts` shows that one exists);
  `np.round` rounds halves to even; `astype(int)` truncates towards zero; the mean or variance of an empty array, and `0/0`, are NaN;
  comparisons with NaN are false; length-1 broadcasting is not modelled (arrays of different lengths raise ValueError);
  `np.random.choice(a, size, p)` passes `p` as `replace` (third positional parameter); `np.random.choice` of no value raises ValueError;
  `np.concatenate` of no array raises ValueError; `np.max` of no value raises ValueError.
* **pandas** (< 3): a DataFrame is a dictionary of columns; chained in-place assignments write into the frame; `std()` has ddof=1;
  `unique()` keeps the order of first appearance; `cut`/`qcut` are oracles in M_Neighborhood and computed as in pandas' tile.py in M_Cut; `dtypes` is a function of the column.
* **scikit-fuzzy** `trimf`: as in `M_Fuzzy.tri`: ValueError-like rejection of unordered points, closed triangle, peak 1.
* **scikit-learn**: `check_X_y`/`check_array` reject empty or inconsistent arrays with ValueError; `LabelEncoder.classes_` are the sorted
  distinct values, `transform` of an unseen value and `inverse_transform` of a number that is no position raise ValueError;
  `f1_score` 'binary' needs pos_label 1 among two labels and at most two labels, 'weighted' weighs by support, 0/0 is 0.
* **scipy**: `stats.entropy(pk, base=2)` normalises and reads `0 log 0` as 0; `zscore` has ddof=0 and is NaN on a constant column;
  `cdist(…, 'jaccard')` on numbers is the share of differing positions among those where one is non-zero, 0 if there is none.
* **deap**: `eaSimple` = evaluate, then `ngen` times select, `varAnd` (mating of pairs, then mutation), evaluate;
  `cxTwoPoint` as in `two_point` (fewer than two genes: ValueError); tournament selection = any choice of members;
  `HallOfFame` = any choice of at most its size of the evaluated individuals (size 0: IndexError at its first update).
* **Python**: `max`/`sorted`/`dict`/`zip`/`enumerate` as in Prelude; iterating a `set` gives any order;
  in the recursion of the discretisation `tuple == numpy scalar` compares elementwise.

## 5. `Print Assumptions`

Every `Properties_*.v` prints the assumptions of each of its theorems when it is compiled.  Three answers occur:

@@ASSUME@@

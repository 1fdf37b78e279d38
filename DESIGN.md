# Formal model of antoniolopezmc/subgroups — design

## 1. Layout

`rocq/theories/` (logical name `Verif`) uses the Coq standard library, and Flocq for the definition of rounding to binary64 and its basic lemmas (Float*.v only; Flocq adds no axioms). mathcomp, Iris etc. are not used.

* `Base.v` — Python results (`Ok` / `Err exn`), sequencing (`do`), list helpers, stable sort, text of integers and decimals.
* `<X>Model.v` — shallow, executable Gallina model of one source area, branch by branch, with file:line citations. No proofs.
* `<X>Spec.v` — the small independent specifications used in the theorem statements (only the English vocabulary: rows, selectors, counts, lines of a file).
* other `<X>*.v` — lemmas.
* `Properties_<X>.v` — the property theorems `Cxx_...`, non-vacuity `Example`s (concrete datasets that meet the hypotheses, checked by `vm_compute`) and `Print Assumptions` of every theorem.
* `properties.jsonl` the properties; `MANIFEST.json` status and theorem names; `seeded/LOG.jsonl` the wrong programs that were tried.

When a property that a user would expect is *false of the code*, its negation is proved with a concrete witness
(`..._refuted`, `..._counterexample`) and the strongest true version is proved next to it under explicit hypotheses. `properties.jsonl` then
states the true version and keeps the refuted wording in view in its text, after "Refuted:". A theorem that proves less than the text of
its property would have the suffix `_partial`; at present there is none.

## 2. Modelling conventions

* Python exceptions are values: `Err TypeError`, `Err KeyError`, ... . The models of the algorithms give the final state of a fit that ends; the effects of a fit that raises or is killed (file, counters) are modelled in CrashModel.v, which is proved to agree with them (C73).
* Parameter *type* checks (`type(x) is not str` ...) are modelled for the constructors of the algorithms (ConstructorModel.v, arguments of any type) and for `fit` (FitArgModel.v); elsewhere they are
  discharged by Gallina's typing. Checks of *values* are modelled.
* `str` = `string` (bytes); order = lexicographic on character codes. Characters above 255 and encoding errors are outside the model.
* `int` = `Z` (or `nat` for counts); `float` values in selectors = finite decimals `m / 10^e` in canonical form,
  i.e. floats whose `repr` has no exponent; NaN, infinities and exponent notation are outside the model.
* Quality values: exact rationals `Q` for the rational measures, `R` for the binomial test and for MDL; their evaluation in binary64 is
  modelled separately (FloatModel.v: the same expressions over `R`, each operation rounded with Flocq's round-to-nearest-even) for all the measures. The mining
  algorithms (SDMap, SDMapStar, VLSD, BSD, CBSD, CPBSD, GMSL, PSLD, DSLM) are modelled over an *arbitrary* type of quality values with
  arbitrary measure functions and comparisons, so those theorems do not depend on rounding; instances are given for the exact measures and (C70) for the rounded ones.
* A pandas DataFrame = list of named columns of the same length with the default RangeIndex; LabelModel.v (C76, C77) has arbitrary row labels and pandas' alignment of two indexes (a missing label counts as False; the union in any order; trusted).
  A column has dtype string iff all its cells are `str`.
* `list.sort`/`sorted` = stable insertion sort with the same `<`. numpy's and pandas' unstable sorts (SDIGA) = *any* permutation sorted by the key.
* `WeakValueDictionary` = association list plus a nondeterministic "collect" event. Dictionaries = association lists in insertion order, keys compared with `==`.
* Python's `hash` of strings = an arbitrary function (parameter). numpy.random (SDIGA) = an arbitrary stream.
* Mutable objects = state passed through; object identity where observable (selector pool, FP-tree nodes) = explicit ids in a heap.
* Unbounded loops (`while`) = recursion on fuel with an explicit out-of-fuel result; the termination theorems show that the fuel used is enough for every input.
* Text files = the text they contain; reading goes through Python's universal newlines; regular expressions are modelled by derivatives (full match, greedy groups).

## 3. Which parts of the code are modelled

| source (src/subgroups) | model | not modelled |
|---|---|---|
| fit of all the algorithms and QFinder.test_subgroups: checks of the arguments, of any type | FitArgModel.v | elements of the target that are not scalars; columns whose names are not strings or not different |
| the recursive functions of fit within a limit of nested calls | RecursionModel.v | frames of functions that do not recurse are not counted |
| core/operator.py, selector.py, pattern.py, subgroup.py; utils/dataframe_filters.py | CoreModel.v, LabelModel.v (row labels), CoreArgModel.v (arguments of any type) | `__copy__`/pickling; comparisons of lists, tuples, Series and unknown objects among themselves |
| quality_measures/*.py | QualityModel.v, BinomialModel.v, FloatModel.v, FloatBinomial.v (binary64), SingletonModel.v (`__new__`, `get_name`, `optimistic_estimate_of`, with the credibility measures) | client subclasses with a `__new__` of their own |
| data_structures/vertical_list*.py | VerticalModel.v, VerticalText.v (`__str__`) | |
| data_structures/subgroup_list.py | SubgroupListModel.v (values), AliasModel.v (object identity: copies, sharing, in-place changes), FileModel.v (`__str__`) | changes of the bitarrays of a list by the client other than item assignment (slices, resizing) |
| data_structures/fp_tree_node.py, fp_tree_for_sdmap.py, fp_tree_for_sdmapstar.py | FPTreeModel.v; FPTreeText.v (`tree_as_str`, `header_table_as_str`) | the recursion limit |
| data_structures/fp_tree_node.py, all methods | NodeModel.v (FPTreeModel.v: the part the trees use; they agree, C53_trees), FPTreeText.v (`__str__`, `tree_as_str`) | - |
| algorithms/subgroup_sets/sdmap.py | SDMapModel.v, FileModel.v (text of the lines) | |
| algorithms/subgroup_sets/sdmapstar.py | SDMapStarModel.v, FileModel.v (text of the lines: as SDMap) | |
| constructors (`__init__`) of all the algorithms; the dictionaries of additional parameters as mutable objects | ConstructorModel.v | texts of the messages |
| algorithms/subgroup_sets/vlsd.py | VLSDModel.v, FileModel.v (text of the lines) | |
| algorithms/subgroup_sets/bsd.py, cbsd.py, cpbsd.py; data_structures/bitset_bsd.py | BSDModel.v, ReportModel.v (text of the lines) | |
| algorithms/subgroup_sets/idsd.py | IDSDModel.v, ReportModel.v (text of the lines) | the p-value is an arbitrary function |
| algorithms/subgroup_sets/qfinder.py; data_structures/bitset_qfinder.py | QFinderModel.v, ReportModel.v (text of the lines) | the GLM (statsmodels) is an arbitrary function of two columns; sorting with nan keys |
| algorithms/subgroup_sets/sdiga.py | SDIGAModel.v, ReportModel.v (text of the lines) | distribution of the random numbers; sum of the weights = 0 |
| algorithms/subgroup_lists/gmsl.py, psld.py, dslm.py | ListModel.v (generic gains), MDLModel.v (their gains over R), FileModel.v (input and output files) | |
| utils/mdl.py | MDLModel.v | rounding; numpy's failure on `log2` of integers >= 2^64 |
| utils/file_format_transformations.py | FileModel.v | encodings, file-system errors |
| credibility_measures/odds_ratio_stat.py, p_value_independence.py, selector_contribution.py | CredModel.v | scipy's `norm.cdf` is any function with the three properties `half_cdf` |
| credibility_measures/odds_ratio_glm.py, p_value_glm.py | — (arbitrary functions of the two columns wherever used) | statsmodels |
| fit of all the algorithms: order of the effects on the file and the counters | CrashModel.v | operating system and file-system errors |
| quality_measures/binomial_test.py, binomial_test_optimistic_estimate_1.py, qg.py in binary64 | FloatBinomial.v | overflow to inf; `math.sqrt` is trusted to be correctly rounded |
| several calls of fit on one object, the file object kept after an exception | SessionModel.v | other processes that change the file; text encodings other than one byte per character |
| datasets/ (CSV loading), tests/, exceptions.py, `__init__.py` | — | no semantics beyond names |

Further simplifications, also stated at the definitions: selectors inside the miners are built structurally (the selector pool is modelled and analysed
separately, C02); `TP` is a Python int (not a numpy integer: nan instead of ZeroDivisionError is modelled where the code uses numpy, i.e. in IDSD).

## 4. Per property plan

| id | model | how it is proved |
|----|-------|-------|
| C01 | operator.py fully | case analysis on operators and kinds of values |
| C02 | selector pool with collect events | invariant over histories: pool entries agree with their key; for every set of requests, right fields in all histories iff the requests are written apart (attribute names without spaces are); a collision refutes the unconditional claim |
| C03 | str/parse | string lemmas; equivalence: read back iff no space in the attribute name |
| C04 | comparison methods | lexicographic order lemmas; exact set of unordered pairs; transitivity for values of the same kind (all str or all numeric), refuted with mixed kinds |
| C05 | hash as any function of the text | equivalence: equal selectors hash alike for every string hash iff same type (1 / 1.0) |
| C06, C07 | pattern.py | invariant by induction over operation lists for same-kind values; bisect_left proved correct on sorted lists; then for every set U: all histories right iff `<` is a strict total order on U (selectors are renamed by their ranks, which the operations cannot see; PatternExact.v) |
| C08, C09 | parse of patterns/subgroups | split/join lemmas; equivalences: read back iff no space in the names and no separator inside the texts (CoreExact.v) |
| C10, C11, C13 | dataframe model | induction over the loop; early stop; exact conditions of KeyError and TypeError (the documented KeyError clause is refuted) |
| C12 | sets by hash+eq | inclusion with equal hashes for all patterns; equivalence with inclusion up to ==; monotonicity of counts |
| C14–C18, C20 | measures over Q | nia/field over Q |
| C19 | measures over R | refutation witness; the bound without the normalising factors |
| C21, C22 | both vertical lists | refinement to row sets; induction over joins; lock-step relation between the two classes |
| C23, C24 | subgroup_list.py | invariant over histories |
| C53 | every node operation, children dictionaries keyed by hash and == (NodeModel.v) | induction over the history from the end: what one operation adds to / removes from the children and the parent |
| C25, C26 | FP-tree as node heap with parent pointers, children maps, node links | prefix-count invariant by induction over inserted paths; weighted database projection for conditional trees |
| C27, C28, C31, C54 | sdmap.py | recursion on fuel proved sufficient; permutation of the visited patterns with those of the specification |
| C29, C30 | vlsd.py | prefix-class induction over the sorted one-selector lists; lock-step simulation of the two representations |
| C32, C33 | sdmapstar.py | simulation with SDMap; refutations by small datasets; top-k completeness when no conditional node was pruned |
| C34 | objects keep state between fits | shift lemmas: a fit commutes with adding to the counters and with replacing the file (Properties_Repeat.v), so any history is as a new object; refutations of the rest, per algorithm |
| C35–C38, C55, C56 | bsd.py, cbsd.py, cpbsd.py, bitset_bsd.py | state invariants over the search tree; best-quality invariant with the pruning threshold |
| C39–C42 | gmsl.py, psld.py, dslm.py, gains and the comparison of DSLM's overlap factors as parameters (instances: exact quotients; quotients rounded to binary64) | invariants of the greedy loop; termination measure = live candidates; rounding error from Flocq |
| C43, C44 | idsd.py | invariants of the result list under any sequence of offers; enumeration = the conjunctions by levels |
| C45, C46, C60 | qfinder.py | combinations lemmas; selection as a filter chain; refutation of remove-while-iterating |
| C47, C48, C63, C64 | sdiga.py | encode/decode bijection; hill climbing measure; elitism invariant for every random stream |
| C65 | constructors over a heap of dictionaries; actions of the caller | frame property of every constructor; invariant over all histories that do not write in the object's own dictionary |
| C66 | constructors on arguments of any Python type | each check is equivalent to a requirement stated apart; created iff all hold, error of the first violated one |
| C67 | `optimistic_estimate_of` of the measures, constructors | case analysis of the pairs; composition of C65 with C17 and C18 |
| C49, C50, C58 | credibility measures | Q / R arithmetic; p-value via any cdf with the three properties |
| C51, C57, C39_mdl, C41_mdl | mdl.py and the gains over R | Abel-type identity for the recurrence; telescoping of the gains to the total code length |
| C52, C61, C62 | text files, regular expressions | derivative matcher proved equal to the inductive matching relation; induction over lines |
| C68, C69 | measures as expressions over R with every operation rounded (FloatModel.v) | monotonicity of rounding; error propagation; different quotients of counts are further apart than the errors |
| C70 | instances of vlsd.py, sdmapstar.py, bsd.py with the rounded measures | C29, C33, C56 with hypotheses from C68, C69 |
| C71 | text of the output lines of all the miners of subgroup sets; reading: split at " ; ", `Subgroup.generate_from_str`, rest of the part that begins with a name | round trip of each line for clear names and values; the lines that each miner writes (C27, C29, C33, C35, C43, C45, C63) are of that form |
| C72 | `__str__` of the vertical lists | the loop over the elements equals a join with ", "; the ascending list of a set is unique; relation of the two representations of C22 |
| C73 | CrashModel.v: fit of all the algorithms as lists of effects (open, line, counters, close) with a result | agreement with the models of the final state by induction on the search; a run that raises is a beginning of the run with a total measure, whose lines are known from C27, C29, C33 and C63; beginnings of texts read back line by line; the exceptions of SDMapStar (C33_errors) by induction on the search |
| C74 | SessionModel.v: file objects (place, buffer), the disk, open / write / close / dropping an object; the runs of CrashModel.v one after the other | invariant: between open and close the file is the sent text over the left-over text; induction on the calls; the contents by an overlay lemma; existence of the schedules by induction on the lines |
| C75 | FloatBinomial.v: the three formulas with one rounding per operation (Flocq FLT(-1074,53), to nearest even), math.sqrt correctly rounded | a calculus of relative errors (`near`, FloatBinomialProofs.v) through product, quotient, root and difference; the sign from C68's gap between different proportions; the sum fp+g by Flocq's round_plus_neq_0 |
| C76 | LabelModel.v: Series as lists of (label, bool), `&` with pandas' alignment, `df[mask]` with reindexing | the loop as an invariant: the labels of the accumulator are 0..n-1 and, after the first selector, those of the rows; a label is True iff it is in the range and its row matched so far |
| C77 | LabelModel.v: `build_tree` reading `df.loc[label, column]`; a Series (repeated label) has no key in the dictionary | the folds over all rows and over the rows with unique labels insert the same transactions (`fold_filter`, `fold_index`) |
| C78 | BSDModel.v, SDMapStarModel.v: the counters of the state | a relation `accounts` between states (log, visited, stored + unselected, pruned) shown for each step of the search; SDMapStar: the fold over the handled results (`handle_fold`, `star_fit_limit`) |
| C79 | AliasModel.v: a heap of Pattern, Subgroup, bitarray and SubgroupList objects; client programs as lists of operations | ownership tags on the heap (Client, or part of list L), an invariant of careful programs (AliasInv.v: `inv_step`), refinement of the list objects to the value model (`add_ok`, `delete_ok`, `later`) |
| C80 | FPTreeText.v: the recursion of `tree_as_str` and the loop over the node links, text accumulated as in the code | specification in TreeTextSpec.v (a list of nodes with depths that shows the tree); the heap of a tree is a forest with levels (`rep_forest`), the text is that of its preorder (`tree_text`, `preorder_nearest`, `preorder_siblings`), the links of a selector are its nodes (`links_of`) |
| C81 | `__new__` of the 18 quality measures and 5 credibility measures, copies, `optimistic_estimate_of` (SingletonModel.v: class attributes and objects as a world that the client's program changes) | invariant of the world (attributes and objects correspond), preserved by every action |
| C82 | the BSD family (BSDModel.v), the log of evaluated descriptions with the list after each | every step: `handle_step` (the list before determines the list after), invariant of the log over the search (`search_steps`), translated to row sets in Properties_BSDSteps.v; pruning: a pruned description is never contained in what is still to come (`clear`) |
| C83 | beginning of fit and test_subgroups for any arguments | decision lemmas as for C66; the rest of the method is universally quantified |
| C84 | nested calls of the recursive functions of fit | induction over the limit: the conditional databases of FP-growth lose a column (width), the classes of VLSD grow in length, BSD and IDSD count depth |
| C85 | two datasets with the same rows and columns in different orders (ReorderProofs.v) | the specifications of C27, C29, C32, C56 depend on the counts of rows only, which a permutation keeps; is_contained: induction over the loop |
| C86 | Python objects of all kinds as arguments, patterns of any objects (CoreArgModel.v) | case analysis per method; sorting and bisection compare each element with one in place, so a mixed list raises: induction; histories: induction over the calls; equal to CoreModel.v on the proper arguments |
| C87 | two runs: one with stricter parameters, or with further columns (Properties_Monotone.v) | the exact reports of C27, C28, C29, C32 and the best quality of C56; counts over the old columns do not change |
| C88 | two datasets that differ by a renaming of the values of each column (Properties_Relabel.v) | the exact reports of C27, C28, C29, C32 and the best quality of C56; a description and its renaming cover the same rows |
| C89 | two datasets whose columns are paired, with other names, order and values (Properties_Columns.v) | as C88, with the image of a description instead of the renamed one: its selectors on the paired columns, sorted again |
| C90 | the dataset k times over (Properties_Repeated.v) | every count is multiplied by k; the exact reports of C27, C28, C29, C32 and the best quality of C56; each measure on multiplied counts |
| C59 | idsd.py `_reduce_categories` | counting lemmas on value frequencies |

## 5. Trusted base

* Coq 8.16.1 kernel, including its `vm_compute` conversion (used for the concrete examples and witnesses; no `native_compute`).
* The faithfulness of the hand-written model to the Python source, as cited at each definition, and of the English statements to the theorem statements.
* Axioms, from `Print Assumptions` of each of the theorems listed in the manifest:
  * 488 theorems: "Closed under the global context" (all those not listed below).
  * `functional_extensionality_dep`, `sig_forall_dec` (standard library): C51_two_categories, C51_complexity_defined.
  * `functional_extensionality_dep`, `sig_forall_dec`, `sig_not_dec` (standard library): C67_binomial_refuted, C58_probability, C58_independent, C58_monotone, C58_one_class, C15_binomial_value, C15_binomial_error, C19_binomial_estimate_refuted, C19_pure_refuted, C19_binomial_estimate_up_to_factor, C20_binomial_antimonotone.
  * `classic`, `functional_extensionality_dep`, `sig_forall_dec`, `sig_not_dec` (standard library): C68_error, C68_ranges, C68_sign, C68_order, C69_estimates_bound, C69_ps_estimates_antimonotone, C68_ties_refuted, C70_top_k, C70_vlsd_sound_and_complete, C68_monotone, C70_bsd_best, C75_binomial, C75_estimate, C75_estimate_antimonotone, C75_estimate_refuted, C75_qg, C75_qg_monotone, C75_qg_int, C42_double, C42_double_zero, C42_exact_limit_refuted, C51_complexity, C51_complexity_exact, C51_at_least_one, C51_log_nonnegative, C51_errors, C51_universal_code, C51_universal_increasing, C51_universal_zero, C51_code_with_maximum, C39_mdl_terminates, C41_mdl_greedy, C57_compresses, C57_shorter, C57_one_class, C57_long_descriptions, C57_penalty.
  * These are `ClassicalDedekindReals.sig_forall_dec`, `ClassicalDedekindReals.sig_not_dec`, `FunctionalExtensionality.functional_extensionality_dep` (the standard library's construction of the reals) and `Classical_Prop.classic` (used by its `ln`, `Rpower` and series lemmas).

No axioms of our own, no `Admitted`, no section-less variables, no modules types/functors, no kernel check switched off.

## 6. Wrong programs

`seeded/LOG.jsonl`: batches of one-place edits of the model files in scratch copies (wrong boundaries, dropped updates, swapped arguments, missing checks ...),
rebuilt completely. Each line: the definition, the edit, the claim it breaks, the first proofs that failed, and the theorems added because the edit had survived.
Edits that survive legitimately say why (equivalent program, or a difference outside the stated hypotheses).

{"id": "C01", "title": "Operator text round trip and evaluation", "statement": "Operator.generate_from_str(str(op)) returns op for every operator, every other string raises AttributeError, the comparison methods order the operators by their declared value (a strict total order), and op.evaluate(x, y) is the mathematical relation named by op (=, !=, <, >, <=, >= are pairwise complementary); ordering a string against a number raises TypeError while = and != answer False and True.", "quantifier": "all operators, all strings, all pairs of str/int/float values", "why_tests_cant": "the set of input strings and values is infinite; a test samples only a few", "anchors": ["src/subgroups/core/operator.py:Operator.evaluate", "src/subgroups/core/operator.py:Operator.generate_from_str", "src/subgroups/core/operator.py:Operator.__str__"]}
{"id": "C02", "title": "Selector construction returns what was asked for, under any history", "statement": "Let T be any set of (attribute, operator, value) requests. Every sequence of creations over T and garbage collections returns objects whose attribute_name, operator and value are exactly those requested if and only if no two different valid requests of T are written alike as 'attribute operator value' (the pool's key); attribute names without spaces are such a set. Then, while an object is alive, exactly the requests with the same triple return it. Selector(a, op, v) raises ValueError exactly for a string value with an ordering operator, whatever the history. (Without the condition the fields are wrong: Selector(\"a\", =, \"b' = 'c\") after Selector(\"a = 'b'\", =, \"c\").)", "quantifier": "all sets of requests, all sequences of selector creations and garbage collections of pooled selectors", "why_tests_cant": "the shared weak pool makes the result depend on the whole creation history and on when the collector runs", "anchors": ["src/subgroups/core/selector.py:Selector.__new__"]}
{"id": "C03", "title": "Selector text round trip", "statement": "For a constructible selector s, Selector.generate_from_str(str(s)) succeeds with a selector equal to s if and only if the attribute name of s has no space; then it is s itself, with the same type of value.", "quantifier": "all constructible selectors (any attribute name, operator, str/int/float value)", "why_tests_cant": "the space of attribute names and values is infinite", "anchors": ["src/subgroups/core/selector.py:Selector.generate_from_str", "src/subgroups/core/selector.py:Selector.__str__"]}
{"id": "C04", "title": "Selector ordering is a strict total order consistent with equality", "statement": "For two selectors exactly one of s < t, s == t, s > t holds, unless they have the same attribute and operator and values of different kinds (str and number) written alike; s > t is t < s, s >= t is t <= s and, for an ordered pair, s <= t is (s < t or s == t). < is transitive over selectors whose values of the same attribute and operator are of the same kind (not beyond: a cycle 9 < 10 < '100' < 9). == is an equivalence.", "quantifier": "all pairs and triples of selectors", "why_tests_cant": "sorting and bisection rely on the law for every triple of values, including mixed str/number values", "anchors": ["src/subgroups/core/selector.py:Selector.__lt__", "src/subgroups/core/selector.py:Selector.__le__", "src/subgroups/core/selector.py:Selector.__gt__", "src/subgroups/core/selector.py:Selector.__ge__", "src/subgroups/core/selector.py:Selector.__eq__"]}
{"id": "C05", "title": "Equal selectors have equal hashes", "statement": "Two equal selectors have equal hashes, whatever Python's randomised string hash, if and only if their values have the same type (1 and 1.0 are equal but hash differently).", "quantifier": "all pairs of equal selectors, all string hashes", "why_tests_cant": "needs every pair of values that compare equal, including 1 and 1.0", "anchors": ["src/subgroups/core/selector.py:Selector.__hash__", "src/subgroups/core/selector.py:Selector.__eq__"]}
{"id": "C06", "title": "A Pattern is always a sorted duplicate-free list and behaves as a set of selectors", "statement": "Let U be a set of selectors. Every Pattern built from selectors of U by construction and any sequence of add_selector, remove_selector and remove_selector_by_index iterates in strictly increasing order, answers `in` as the mathematical set obtained by the same operations, and has its cardinality as len, if and only if < is a strict total order on U up to ==; in particular when values of the same attribute and operator are all texts or all numbers.", "quantifier": "all sets of selectors, all initial lists over them and all operation histories", "why_tests_cant": "the invariant must survive every interleaving of operations", "anchors": ["src/subgroups/core/pattern.py:Pattern.__init__", "src/subgroups/core/pattern.py:Pattern.add_selector", "src/subgroups/core/pattern.py:Pattern.remove_selector", "src/subgroups/core/pattern.py:Pattern.remove_selector_by_index", "src/subgroups/core/pattern.py:Pattern.__contains__", "src/subgroups/core/pattern.py:Pattern.__len__"]}
{"id": "C07", "title": "Pattern equality is set equality", "statement": "Let U be a set of selectors. For all lists l1, l2 over U, Pattern(l1) == Pattern(l2) exactly when l1 and l2 contain the same selectors, whatever their order and repetitions, if and only if < is a strict total order on U up to == (as in C06). != is always the negation of ==. Over such a set, adding a present selector changes nothing, and adding then removing an absent one gives an equal pattern.", "quantifier": "all sets of selectors, all pairs of lists over them", "why_tests_cant": "all permutations and repetitions of lists of every length", "anchors": ["src/subgroups/core/pattern.py:Pattern.__eq__", "src/subgroups/core/pattern.py:Pattern.__ne__", "src/subgroups/core/pattern.py:Pattern.__init__"]}
{"id": "C08", "title": "Pattern text round trip", "statement": "For a pattern p, Pattern.generate_from_str(str(p)) succeeds with a pattern equal to p if and only if no attribute name has a space and no selector's text contains ', '; then it is p itself, with the same types of values.", "quantifier": "all patterns", "why_tests_cant": "values and attribute names are arbitrary strings that may contain the separators of the format", "anchors": ["src/subgroups/core/pattern.py:Pattern.generate_from_str", "src/subgroups/core/pattern.py:Pattern.__str__"]}
{"id": "C09", "title": "Subgroup text round trip", "statement": "For a subgroup g, Subgroup.generate_from_str(str(g)) succeeds with a subgroup equal to g if and only if no attribute name has a space, no selector text of the description contains ', ', and neither the text of the description nor that of the target contains ', Target: '.", "quantifier": "all subgroups", "why_tests_cant": "descriptions and targets are arbitrary strings that may contain the separators of the format", "anchors": ["src/subgroups/core/subgroup.py:Subgroup.generate_from_str", "src/subgroups/core/subgroup.py:Subgroup.__str__"]}
{"id": "C10", "title": "Pattern.is_contained is the row-wise conjunction of its selectors", "statement": "is_contained(df) has one boolean per row, True exactly for the rows in which every selector of the pattern matches; the empty pattern is contained in all rows. It raises KeyError exactly when the evaluation reaches a selector whose attribute is not a column - some row matches all the selectors before it - and TypeError exactly when it reaches one whose value cannot be compared with its column; nothing else is raised. (The documented 'KeyError if an attribute is not a column' is false because of the early stop.)", "quantifier": "all patterns and all dataframes (any number of rows and columns)", "why_tests_cant": "the early stop of the loop must not change any result, for every dataframe", "anchors": ["src/subgroups/core/pattern.py:Pattern.is_contained", "src/subgroups/core/selector.py:Selector.match"]}
{"id": "C11", "title": "filter_by_list_of_selectors keeps exactly the matching rows", "statement": "The result contains exactly the rows in which all the selectors match, in the original order and with their multiplicity, under the columns of the DataFrame; the order and repetition of the selectors do not matter. The exception is a DataFrame without rows: its result has no columns (the empty mask is taken for a list of column names).", "quantifier": "all dataframes and selector lists", "why_tests_cant": "all sizes and permutations", "anchors": ["src/subgroups/utils/dataframe_filters.py:filter_by_list_of_selectors"]}
{"id": "C12", "title": "Refinement is set inclusion and can only shrink coverage", "statement": "p.is_refinement(q, flag) is True exactly when every selector of p has an equal selector with an equal hash in q, and flag is True if the lengths are equal. It is inclusion up to == (proper, or flag) for all hashes if and only if an inclusion never rests on equal values of different types only. Refinement over type-consistent values is transitive; whenever p's selectors are in q, each row containing q contains p, so tp and fp of q are at most those of p; for subgroups the targets must moreover be equal.", "quantifier": "all pairs/triples of patterns, all string hashes and all dataframes", "why_tests_cant": "pruning of every mining algorithm relies on it for every dataset", "anchors": ["src/subgroups/core/pattern.py:Pattern.is_refinement", "src/subgroups/core/subgroup.py:Subgroup.is_refinement"]}
{"id": "C13", "title": "Subgroup.filter partitions the covered rows", "statement": "The three returned boolean series have the length of the dataframe; the first two are disjoint, their union is the rows containing the description, the first is the intersection with the third, and the third depends only on the target. KeyError is raised exactly when the target column is missing, or the evaluation of the description reaches (some row matches the selectors before it) a selector on the target column or on a missing column.", "quantifier": "all subgroups and dataframes", "why_tests_cant": "all sizes", "anchors": ["src/subgroups/core/subgroup.py:Subgroup.filter"]}
{"id": "C14", "title": "Quality measures stay in their documented ranges", "statement": "On every consistent contingency table on which the measure is defined: Coverage, Support, PPV, NPV, Sensitivity, Specificity, F1 lie in [0,1]; Youden in [-1,1]; IRR in [-1,1]; WRAcc in [-1/4,1/4]; AbsoluteWRAcc in [0,1/4]; PiatetskyShapiro in [-(TP+FP)/4,(TP+FP)/4]; Qg >= 0.", "quantifier": "all tp <= TP, fp <= FP", "why_tests_cant": "infinitely many tables", "anchors": ["src/subgroups/quality_measures/wracc.py:WRAcc.compute", "src/subgroups/quality_measures/coverage.py:Coverage.compute", "src/subgroups/quality_measures/irr.py:IRR.compute", "src/subgroups/quality_measures/youden.py:Youden.compute"]}
{"id": "C15", "title": "Quality measures raise exactly the documented errors", "statement": "compute raises SubgroupParameterNotFoundError (Qg's g: ParameterNotFoundError) exactly when a needed parameter is missing, regardless of the other keys, ZeroDivisionError exactly when one of the denominators is 0, and otherwise returns the value of the published formula.", "quantifier": "all dictionaries of parameters", "why_tests_cant": "all subsets of keys and all tables", "anchors": ["src/subgroups/quality_measures/*.py"]}
{"id": "C16", "title": "Identities between the quality measures", "statement": "PiatetskyShapiro = (TP+FP)*WRAcc; AbsoluteWRAcc = |WRAcc|; F1 is the harmonic mean of PPV and Sensitivity; Youden = Sensitivity+Specificity-1; IRR = PPV+Specificity-1; Coverage*PPV = Support; WRAcc = TP*FP/(TP+FP)^2 * Youden.", "quantifier": "all contingency tables on which both sides are defined", "why_tests_cant": "infinitely many tables", "anchors": ["src/subgroups/quality_measures/piatetsky_shapiro.py", "src/subgroups/quality_measures/wracc.py", "src/subgroups/quality_measures/f1_score.py", "src/subgroups/quality_measures/youden.py"]}
{"id": "C17", "title": "The Piatetsky-Shapiro optimistic estimates bound every refinement", "statement": "For PiatetskyShapiroOptimisticEstimate1 and 2: the estimate computed for a subgroup is at least the PiatetskyShapiro quality of that subgroup and of every refinement of it.", "quantifier": "all tables (tp,fp,TP,FP) and all refinement tables tp'<=tp, fp'<=fp with tp'+fp'>0", "why_tests_cant": "soundness of pruning is a for-all statement over all refinements", "anchors": ["src/subgroups/quality_measures/piatetsky_shapiro_optimistic_estimate_1.py", "src/subgroups/quality_measures/piatetsky_shapiro_optimistic_estimate_2.py"]}
{"id": "C18", "title": "The WRAcc optimistic estimate bounds every refinement", "statement": "WRAccOptimisticEstimate1 computed for a subgroup is at least the WRAcc quality of that subgroup and of every refinement of it.", "quantifier": "all tables and all refinement tables", "why_tests_cant": "soundness of pruning is a for-all statement over all refinements", "anchors": ["src/subgroups/quality_measures/wracc_optimistic_estimate_1.py", "src/subgroups/quality_measures/wracc.py"]}
{"id": "C19", "title": "How far the binomial-test optimistic estimate bounds the refinements", "statement": "BinomialTestOptimisticEstimate1 is not an upper bound of BinomialTest: on every subgroup without false positives the test value is more than twice its own estimate. What holds, for a subgroup and every refinement of it: the BinomialTest value of the refinement is at most the estimate of the subgroup divided by sqrt(p0(1-p0)) and multiplied by sqrt(N/(N-n')), i.e. the estimate bounds the test without its two normalising factors. (Refuted: the estimate is at least the quality of every refinement, which is what the class promises.)", "quantifier": "all contingency tables and all refinement tables", "why_tests_cant": "soundness of pruning is a for-all statement over all refinements", "anchors": ["src/subgroups/quality_measures/binomial_test_optimistic_estimate_1.py", "src/subgroups/quality_measures/binomial_test.py"]}
{"id": "C20", "title": "Which optimistic estimates never increase under refinement", "statement": "If a pattern is refined, the two Piatetsky-Shapiro estimates and the binomial one do not increase. WRAccOptimisticEstimate1 does not increase exactly when tp'^2 * n <= tp^2 * n' (in particular when only true positives are lost). (Refuted: WRAccOptimisticEstimate1 never increases under refinement; losing false positives increases it.)", "quantifier": "all contingency tables and all refinement tables", "why_tests_cant": "for-all statement over all refinements", "anchors": ["src/subgroups/quality_measures/piatetsky_shapiro_optimistic_estimate_1.py", "src/subgroups/quality_measures/piatetsky_shapiro_optimistic_estimate_2.py", "src/subgroups/quality_measures/wracc_optimistic_estimate_1.py", "src/subgroups/quality_measures/binomial_test_optimistic_estimate_1.py"]}
{"id": "C21", "title": "A vertical list always describes exactly the rows of its pattern", "statement": "For a vertical list built from the rows of each selector by any sequence of joins in which every selector of the second list but its last one already belongs to the first list (VLSD's use), tp and fp are the numbers of target/non-target rows in which all its selectors hold, n is their sum, and its quality_value is the measure evaluated on these counts; join returns None exactly when asked to and no row is covered; lists over different datasets raise VerticalListSizeError.", "quantifier": "all datasets and all join trees", "why_tests_cant": "all join histories over all datasets", "anchors": ["src/subgroups/data_structures/vertical_list.py", "src/subgroups/data_structures/vertical_list_with_sets.py:VerticalListWithSets.join", "src/subgroups/data_structures/vertical_list_with_bitsets.py:VerticalListWithBitsets.join"]}
{"id": "C22", "title": "The two vertical-list representations are interchangeable", "statement": "VerticalListWithSets and VerticalListWithBitsets built from the same rows and combined by the same joins have equal tp, fp, n, quality and selectors, and fail on the same joins.", "quantifier": "all datasets, all join histories", "why_tests_cant": "representation independence is a for-all statement over histories", "anchors": ["src/subgroups/data_structures/vertical_list_with_sets.py", "src/subgroups/data_structures/vertical_list_with_bitsets.py"]}
{"id": "C23", "title": "A subgroup list always partitions the dataset", "statement": "After any sequence of add_subgroup and delete_last_subgroup, each row of the dataset belongs to exactly one of: the positional bitset of one subgroup, or the default rule; it belongs to the first subgroup of the list that covers it; the reported counts add up to the dataset totals.", "quantifier": "all histories of additions and deletions, all bit arrays", "why_tests_cant": "all operation histories", "anchors": ["src/subgroups/data_structures/subgroup_list.py:SubgroupList.add_subgroup", "src/subgroups/data_structures/subgroup_list.py:SubgroupList.delete_last_subgroup"]}
{"id": "C24", "title": "Deleting the last subgroup of a list undoes its addition", "statement": "add_subgroup followed by delete_last_subgroup restores the observable state exactly; delete on an empty list does nothing; rejected additions (wrong length) leave the list unchanged.", "quantifier": "all reachable subgroup lists and all candidate subgroups", "why_tests_cant": "gain evaluation adds and removes tentatively at every step of every history", "anchors": ["src/subgroups/data_structures/subgroup_list.py:SubgroupList.delete_last_subgroup"]}
{"id": "C25", "title": "The FP-tree stores the exact counts of the dataset", "statement": "After build_tree, for each frequent selector the header totals are its numbers of positive and negative rows; following node links visits each node of that selector once; the sum of the node counters is the header total; selectors below the thresholds never appear; each node's counters equal the number of rows whose filtered and sorted selectors start with the path to the node.", "quantifier": "all categorical datasets whose column names contain no quote character (C27 shows why quotes matter), all targets and thresholds", "why_tests_cant": "all datasets", "anchors": ["src/subgroups/data_structures/fp_tree_for_sdmap.py:FPTreeForSDMap.generate_set_of_frequent_selectors", "src/subgroups/data_structures/fp_tree_for_sdmap.py:FPTreeForSDMap.build_tree"]}
{"id": "C26", "title": "A conditional FP-tree is the projection of the database", "statement": "generate_conditional_fp_tree for a selector represents exactly the rows containing the selectors conditioned on so far: for any set of selectors remaining, the counts in the conditional tree are the counts of the extended pattern in the dataset.", "quantifier": "all categorical datasets whose column names contain no quote character (C27 shows why quotes matter), all selector sequences conditioned on", "why_tests_cant": "unbounded recursion depth", "anchors": ["src/subgroups/data_structures/fp_tree_for_sdmap.py:FPTreeForSDMap.generate_conditional_fp_tree"]}
{"id": "C27", "title": "SDMap is sound and complete", "statement": "fit reports a subgroup exactly when its description is a non-empty set of attribute=value selectors over distinct non-target columns that occurs in at least one row, its tp/fp (or n) reach the minimum supports and its quality reaches the threshold; it is reported once, with its true tp, fp, TP, FP and quality; it raises exactly when the quality of a frequent description raises; with nothing frequent it does nothing; a numeric column makes it raise. This holds for the datasets in which two different (column, value) pairs never have the same text column + repr(value). (Refuted for the others: with quotes in column names two selectors can share one key, and a frequent description is then missing.)", "quantifier": "all categorical datasets with distinct texts, targets, quality measures, thresholds", "why_tests_cant": "exhaustiveness over the exponential pattern space of every dataset", "anchors": ["src/subgroups/algorithms/subgroup_sets/sdmap.py:SDMap.fit", "src/subgroups/algorithms/subgroup_sets/sdmap.py:SDMap._fpgrowth"]}
{"id": "C28", "title": "SDMap counters", "statement": "After a fit on a new SDMap object, selected_subgroups is the number of written subgroups, visited_nodes = selected + unselected and equals the number of frequent patterns of the dataset.", "quantifier": "all categorical datasets whose column names contain no quote character (C27 shows why quotes matter), all parameters", "why_tests_cant": "all datasets", "anchors": ["src/subgroups/algorithms/subgroup_sets/sdmap.py:SDMap.visited_nodes", "src/subgroups/algorithms/subgroup_sets/sdmap.py:SDMap._handle_individual_result"]}
{"id": "C29", "title": "VLSD is sound and complete", "statement": "If the optimistic estimate bounds the quality of all refinements and its threshold does not exceed the quality threshold, fit reports exactly the non-empty attribute=value descriptions with at least one covered row and quality at or above the threshold, each once, with true tp, fp, TP, FP and quality; without that hypothesis, each reported subgroup still has true counts and meets the quality threshold.", "quantifier": "all categorical datasets, targets, measures, thresholds", "why_tests_cant": "exhaustiveness over the exponential pattern space of every dataset", "anchors": ["src/subgroups/algorithms/subgroup_sets/vlsd.py:VLSD.fit", "src/subgroups/algorithms/subgroup_sets/vlsd.py:VLSD._search"]}
{"id": "C30", "title": "VLSD's sort criterion and representation do not change what is found", "statement": "For both vertical-list implementations fit does the same: the same exception or the same counters and the same lines in the same order. For a sound optimistic estimate (no part of a description that reaches both thresholds is cut by the estimate) the set of subgroups reported is the same for every value of the sort-criterion parameters; for an unsound estimate it may differ.", "quantifier": "all datasets, all sort criteria", "why_tests_cant": "all datasets", "anchors": ["src/subgroups/algorithms/subgroup_sets/vlsd.py:VLSD.fit", "src/subgroups/algorithms/subgroup_sets/vlsd.py:VLSD._sort"]}
{"id": "C31", "title": "SDMap and VLSD agree", "statement": "With no support thresholds and a sound optimistic estimate, SDMap and VLSD report the same set of subgroups with the same counts and quality.", "quantifier": "all categorical datasets, all sound estimate/quality pairs", "why_tests_cant": "equivalence of two algorithms over all datasets", "anchors": ["src/subgroups/algorithms/subgroup_sets/sdmap.py", "src/subgroups/algorithms/subgroup_sets/vlsd.py"]}
{"id": "C32", "title": "SDMapStar without a subgroup limit is SDMap", "statement": "With num_subgroups = 0, SDMapStar reports the same subgroups as SDMap with the same parameters.", "quantifier": "all datasets and parameters", "why_tests_cant": "equivalence over all datasets", "anchors": ["src/subgroups/algorithms/subgroup_sets/sdmapstar.py:SDMapStar._fpgrowth", "src/subgroups/algorithms/subgroup_sets/sdmapstar.py:SDMapStar.fit"]}
{"id": "C33", "title": "SDMapStar's pruning: what is kept of the counts and of the best subgroups", "statement": "With num_subgroups = k > 0 SDMapStar writes each description once; each one is frequent in the dataset, its written tp and fp are at most the true ones, and its quality is the one of the written counts. When no node of a conditional FP-tree was pruned, the counts and qualities are the true ones, and on a new object every description that reaches the threshold is written or k written ones are strictly better (for every estimate that bounds the quality of the refinements, in particular the second Piatetsky-Shapiro estimate); when nothing at all was pruned, the lines are exactly those of SDMap. (Refuted: the counts are always the true ones; the k best qualities are always among the written ones. Pruned conditional nodes lose rows.)", "quantifier": "all categorical datasets with distinct texts, parameters and k", "why_tests_cant": "correctness of branch-and-bound over all datasets", "anchors": ["src/subgroups/algorithms/subgroup_sets/sdmapstar.py:SDMapStar._updateKSubgroups", "src/subgroups/data_structures/fp_tree_for_sdmapstar.py:FPTreeForSDMapStar.generate_conditional_fp_tree"]}
{"id": "C34", "title": "A fit does what the fit of a new object does", "statement": "SDMap, VLSD, and SDMapStar without limit or with the same list of best qualities: a fit on an object with any history, on any dataset, does what the same fit of a new object does: it raises the same exception or writes the same file, and adds to the counters what the fit of a new object adds. IDSD: the second fit with the same arguments gives the same result. (Refuted: the counters after a second fit are those of the first, they are not reset; the file of a previous fit never survives; SDMapStar and BSD forget the best subgroups of the previous fit; SDIGA's counter of unselected subgroups.)", "quantifier": "all histories of fit calls, all datasets", "why_tests_cant": "depends on the call history", "anchors": ["src/subgroups/algorithms/subgroup_sets/sdmap.py:SDMap.fit", "src/subgroups/algorithms/subgroup_sets/vlsd.py:VLSD.fit", "src/subgroups/algorithms/subgroup_sets/bsd.py:BSD.fit"]}
{"id": "C35", "title": "BSD keeps at most k subgroups, sorted, with true counts", "statement": "During and after the fit of a new BSD, CBSD or CPBSD object the list of best subgroups has at most num_subgroups entries (plus the initial dummy until the first insertion), is sorted by quality, holds distinct descriptions, and each entry has its true rows and its true quality; the file has one line for each entry. For num_subgroups >= 1, qualities that are totally preordered, and datasets in which two selectors never have the same text. (Refuted: a second fit on the same object, num_subgroups = 0, selectors with the same text.)", "quantifier": "all such datasets, k, depth limits, quality/optimistic-estimate pairs; every point of the search", "why_tests_cant": "invariant over each state of the search", "anchors": ["src/subgroups/algorithms/subgroup_sets/bsd.py:BSD._handle_individual_result", "src/subgroups/algorithms/subgroup_sets/bsd.py:BSD._BSD"]}
{"id": "C36", "title": "BSD's depth limit", "statement": "No description evaluated or reported by BSD, CBSD or CPBSD has more than max(0, max_depth) + 1 selectors. (Refuted: no reported description has more than max_depth selectors.)", "quantifier": "all datasets and depth limits", "why_tests_cant": "for all datasets", "anchors": ["src/subgroups/algorithms/subgroup_sets/bsd.py:BSD._BSD", "src/subgroups/algorithms/subgroup_sets/bsd.py:BSD.fit"]}
{"id": "C37", "title": "Which irrelevant subgroups BSD, CBSD and CPBSD keep", "statement": "At each point of the search: no subgroup stored by BSD is irrelevant with respect to another stored one; CBSD never stores two subgroups of the same quality with the same rows; CPBSD never stores two of the same quality with the same positive rows. (Refuted: no subgroup stored by CBSD is closed-irrelevant, or by CPBSD closed-on-the-positives irrelevant, with respect to another stored one: the rows may be strictly contained.)", "quantifier": "all datasets; every point of the search", "why_tests_cant": "invariant over each state of the search", "anchors": ["src/subgroups/algorithms/subgroup_sets/bsd.py:BSD._checkRel", "src/subgroups/algorithms/subgroup_sets/bsd.py:BSD._checkRelevancies", "src/subgroups/algorithms/subgroup_sets/cbsd.py", "src/subgroups/algorithms/subgroup_sets/cpbsd.py"]}
{"id": "C38", "title": "When BSD raises", "statement": "The fit of BSD, CBSD and CPBSD raises only when the quality measure or the estimate raises for some candidate, when a quality is not a float, or (BSD only) on a dataset with positive rows only; otherwise it succeeds. In particular with WRAcc CBSD and CPBSD accept every dataset, and BSD every dataset with a negative row or without positive rows. (Refuted: BSD accepts datasets with positive rows only.)", "quantifier": "all datasets and targets, quality/optimistic-estimate pairs", "why_tests_cant": "boundary datasets", "anchors": ["src/subgroups/algorithms/subgroup_sets/bsd.py:BSD.fit", "src/subgroups/data_structures/bitset_bsd.py"]}
{"id": "C39", "title": "Subgroup-list learners return well-formed lists and always stop", "statement": "GMSL, PSLD and DSLM terminate on every candidate set; they return at most max_sl lists, each is a partition of the dataset, uses each candidate at most once over all the lists, and PSLD/DSLM lists have at most sl_max_size subgroups.", "quantifier": "all candidate sets, datasets and parameters; arbitrary gain values", "why_tests_cant": "termination and structural invariants for all inputs", "anchors": ["src/subgroups/algorithms/subgroup_lists/gmsl.py:GMSL.fit", "src/subgroups/algorithms/subgroup_lists/psld.py:PSLD.fit", "src/subgroups/algorithms/subgroup_lists/dslm.py:DSLM.fit"]}
{"id": "C40", "title": "A learned subgroup list contains no refinement of an earlier member", "statement": "If the bitarrays of the candidates are those of their subgroups in the dataset, no subgroup of a list returned by GMSL, PSLD or DSLM is a refinement of an earlier one (copies included), and for PSLD and DSLM no two members are related by refinement. For any bitarrays, no member is a strict refinement of an earlier member of the same list or of a member of an earlier list.", "quantifier": "all candidate sets, arbitrary gain values", "why_tests_cant": "for all histories of the greedy loop", "anchors": ["src/subgroups/algorithms/subgroup_lists/gmsl.py:GMSL._delete_all_refinements", "src/subgroups/algorithms/subgroup_lists/psld.py", "src/subgroups/algorithms/subgroup_lists/dslm.py"]}
{"id": "C41", "title": "Evaluating a candidate does not change the model", "statement": "Computing the gain of a candidate leaves the subgroup list exactly as it was, and the candidate chosen at each step has the maximal positive gain (the first one among ties).", "quantifier": "all subgroup lists and candidates", "why_tests_cant": "hidden mutation of shared state", "anchors": ["src/subgroups/algorithms/subgroup_lists/gmsl.py:GMSL._compute_delta_data", "src/subgroups/algorithms/subgroup_lists/gmsl.py:GMSL._compute_delta_model"]}
{"id": "C42", "title": "DSLM respects its overlap limits", "statement": "Each subgroup of a list returned by DSLM satisfied the maximum positive and negative overlap factors with respect to the rows covered by the earlier members of the same list; with a limit of 0 the members cover disjoint rows. The factors are compared after rounding to double precision: the exact factor exceeds the limit by at most 2^-53, and a factor that does not exceed the limit is never refused.", "quantifier": "all candidate sets and parameters", "why_tests_cant": "for all histories", "anchors": ["src/subgroups/algorithms/subgroup_lists/dslm.py:DSLM.fit"]}
{"id": "C43", "title": "IDSD keeps a sorted list of the best subgroups", "statement": "Whatever subgroups are offered, in whatever order, the list of IDSD has at most num_subgroups entries, in descending order of (credibility rank, odds ratio), all of them offered; every offered subgroup has an entry at least as good in the list (so the first entry is the best of all the candidates), and a subgroup is reported if every subgroup nested with it is strictly worse and at most num_subgroups candidates are at least as good. (The list may contain two nested subgroups: the code does not exclude it.)", "quantifier": "all datasets, limits, thresholds and sequences of offered subgroups", "why_tests_cant": "invariant over all update histories", "anchors": ["src/subgroups/algorithms/subgroup_sets/idsd.py:IDSD._top_k_update", "src/subgroups/algorithms/subgroup_sets/idsd.py:IDSD._compute_rank"]}
{"id": "C44", "title": "IDSD enumerates every candidate description once", "statement": "A fit of IDSD evaluates every description over the non-target columns with at least one row and at most max_complexity selectors exactly once, by increasing size, with the coverage, odds ratio, p-value and contributions of its own rows, in spite of the pruning; the reported descriptions are pairwise different and never use an attribute twice; visited minus selected is never negative; fitting again on datasets with the same number of rows gives the result of a new object.", "quantifier": "all nominal datasets, targets, limits and thresholds", "why_tests_cant": "exhaustiveness over the pattern space", "anchors": ["src/subgroups/algorithms/subgroup_sets/idsd.py:IDSD._grow_tree", "src/subgroups/algorithms/subgroup_sets/idsd.py:IDSD.fit"]}
{"id": "C45", "title": "QFinder evaluates exactly the conjunctions of kept values that have some row", "statement": "For a nominal dataset whose column names have no spaces and whose texts do not contain ', ', fit succeeds (num_subgroups >= 1) and its candidates are, each one once, exactly the conjunctions of selectors column = value over distinct non-target columns that cover some row, have at most max_complexity selectors (always at least 1; -1 means no limit) and use kept values only: all the values of the column if there are at most cats of them (or cats = -1), else the cats-1 most frequent ones. The values of each candidate (coverage, odds ratio, p-value, contributions, adjusted p-value) are those of its rows, and the file has one line per reported pattern with its values. (Refuted: fit accepts column names with spaces, or values with ', ': it raises.)", "quantifier": "all such nominal datasets, targets, thresholds, limits and generalized linear models", "why_tests_cant": "combinatorial exhaustiveness", "anchors": ["src/subgroups/algorithms/subgroup_sets/qfinder.py:QFinder._generate_candidate_patterns"]}
{"id": "C46", "title": "QFinder's selection: size, order, redundancy and the reason for each missing candidate", "statement": "The rank of a candidate is the greatest one it reaches; for num_subgroups >= 1 and p-values that are numbers the selection ends with at most num_subgroups candidates without repetition; of two nested reported patterns the special one comes after the general one and has an odds ratio greater by more than delta; every candidate that is not reported is at most delta better than a more general candidate, or worse than a more special one, or has num_subgroups candidates with a p-value that is not greater, or was abandoned after a candidate of the same length and a higher rank with too large a p-value. (Refuted: two nested patterns are never reported together; the candidate with the smallest p-value is always reported; num_subgroups = 0.)", "quantifier": "all sets of candidates whose p-values are numbers, all thresholds, num_subgroups >= 1", "why_tests_cant": "for all candidate sets", "anchors": ["src/subgroups/algorithms/subgroup_sets/qfinder.py:QFinder._select_top_k"]}
{"id": "C47", "title": "SDIGA chromosome encoding round trip", "statement": "SDIGA encodes each row with one valid code per attribute, and decoding the codes of a row gives the description with the values of the row. An individual denotes the rule with exactly the attributes whose gene is not 0, a row is counted for the individual iff it satisfies this rule, and different individuals denote different rules. (Refuted beyond 65535 values in a column: a value is encoded as an absent attribute.)", "quantifier": "all categorical datasets with at most 65535 values per column, all rows and individuals", "why_tests_cant": "all domains, all columns and all individuals", "anchors": ["src/subgroups/algorithms/subgroup_sets/sdiga.py:_chromosome_encoding_and_dictionary", "src/subgroups/algorithms/subgroup_sets/sdiga.py:_chromosome_decoding", "src/subgroups/algorithms/subgroup_sets/sdiga.py:_filter_rows_with_chromosome"]}
{"id": "C48", "title": "SDIGA local search never worsens a rule and stops", "statement": "The local search stops. It returns a generalization (selectors are only removed) whose confidence is not lower and which is either the start or covers more positive rows, with its exact counts. If the confidence reaches the minimum, no single removal from the result would cover more positive rows without losing confidence; otherwise the start is returned and its confidence is below the minimum. Each step removes the selector with the greatest gain of positive rows among those that lose no confidence.", "quantifier": "all datasets and individuals", "why_tests_cant": "termination for all inputs", "anchors": ["src/subgroups/algorithms/subgroup_sets/sdiga.py:SDIGA._local_search"]}
{"id": "C49", "title": "Odds-ratio statistic", "statement": "On four integer counts OddsRatioStatistic never raises; on a consistent table (0<=tp<=TP, 0<=fp<=FP) it is a non-negative number or +inf, monotone (more true positives never lower it, more false positives never raise it), with documented values for the extreme tables; when no cell is zero it is the cross-product ratio, equal to 1 iff subgroup and target are independent and above 1 iff the subgroup is richer in positives. Called with two boolean series it equals its value on the counted table. Missing parameters raise ParameterNotFoundError.", "quantifier": "all contingency tables", "why_tests_cant": "infinitely many tables; corner cells", "anchors": ["src/subgroups/credibility_measures/odds_ratio_stat.py:OddsRatioStatistic.compute"]}
{"id": "C50", "title": "Selector contributions", "statement": "SelectorContribution returns (0,0) / (1,1) for patterns of 0 / 1 selectors; for larger ones the least non-nan fall of the odds ratio when one selector is removed, and the ratio greatest/least (inf when the least is 0, 1 when all are infinite), at least 1 when the least is positive. The optional threshold changes the result only when some contribution is below it. (The ratio may be nan when all odds ratios are infinite: refuted.)", "quantifier": "all patterns and odds ratios", "why_tests_cant": "all sizes", "anchors": ["src/subgroups/credibility_measures/selector_contribution.py"]}
{"id": "C51", "title": "MDL multinomial complexity recurrence", "statement": "For n >= 1 samples and any number of categories the computed multinomial complexity is the defining sum over all outcome counts up to a relative error of 10^-10 (exactly for n <= 45), is at least 1, and its logarithm is never negative; the universal integer code is log2(2.865064) plus the iterated logarithms above 10^-6, strictly increasing and 0 for 0; with a maximum, the code is complete (probabilities add up to 1).", "quantifier": "all n and numbers of categories", "why_tests_cant": "all n", "anchors": ["src/subgroups/utils/mdl.py"]}
{"id": "C52", "title": "File transformation accounts for each line", "statement": "The transformation of a miner's output into the input format of the list algorithms writes one output line per input line: for a line that carries a subgroup and two bit strings, that subgroup and those bit strings separated by ' ; ', for any other line an error line with its number. The two returned counts are the numbers of lines of each kind and add up to the number of lines. Every line written by VLSD with bitsets is transformed, whatever the names in the dataset (without line breaks); a line without bitarrays never is.", "quantifier": "all input texts; all results of VLSD with bitsets", "why_tests_cant": "the regular expression must be right for every line, including names that contain separators", "anchors": ["src/subgroups/utils/file_format_transformations.py"]}
{"id": "C53", "title": "FP-tree node children are a function of their selector", "statement": "After any history of node creations, add_child, delete_child_by_selector and setters: get_child_by_selector(s) of a node returns the node c exactly when c was added to it without a DuplicateFpTreeNodeError while its selector k had the same hash as s and k == s, and no later deletion from that node had such a selector; so a node has at most one child per key, and number_of_children counts them. The parent of a node is the one given by the last operation that concerned it (being added: that node; being deleted: None; the setter: its argument); hence a node added and not touched since is returned by get_child_by_selector of its parent and is_child_of it. add_child raises DuplicateFpTreeNodeError and delete_child_by_selector raises KeyError exactly when such a child exists / does not exist. (Refuted: at most one child per == selector, since 1 and 1.0 are equal but hash differently; and, for a node added to two parents, that the children of a node have it as parent.)", "quantifier": "all operation histories, all string hashes", "why_tests_cant": "all histories", "anchors": ["src/subgroups/data_structures/fp_tree_node.py"]}
{"id": "C54", "title": "All-combinations enumeration", "statement": "The helper that lists the combinations of a single-path tree returns each non-empty subset of its input exactly once.", "quantifier": "all input lists", "why_tests_cant": "all lengths", "anchors": ["src/subgroups/algorithms/subgroup_sets/sdmap.py:SDMap._generate_all_combinations"]}
{"id": "C55", "title": "What min_support means in BSD", "statement": "Each selector of each subgroup stored or reported by BSD, CBSD or CPBSD covers at least min_support positive rows. (Refuted: each reported description covers at least min_support positive rows.)", "quantifier": "all datasets, targets, thresholds, quality/optimistic-estimate pairs; every point of the search", "why_tests_cant": "all datasets and all combinations of selectors", "anchors": ["src/subgroups/algorithms/subgroup_sets/bsd.py:BSD.fit", "src/subgroups/data_structures/bitset_bsd.py:BitsetBSD.generate_set_of_frequent_selectors"]}
{"id": "C56", "title": "BSD, CBSD and CPBSD find the best subgroup", "statement": "When the optimistic estimate bounds the quality of every specialization, and (for BSD) an irrelevant description is never better than the one that makes it irrelevant, no description whose selectors all have min_support positive rows and that has at most max_depth+1 selectors is better than the best subgroup reported by BSD, CBSD or CPBSD: pruning never loses the best quality.", "quantifier": "all datasets, targets, thresholds, quality/optimistic-estimate pairs, all descriptions within the limits", "why_tests_cant": "all datasets and all descriptions; the pruning thresholds depend on the whole history of the search", "anchors": ["src/subgroups/algorithms/subgroup_sets/bsd.py:BSD._BSD", "src/subgroups/algorithms/subgroup_sets/bsd.py:BSD._handle_individual_result", "src/subgroups/algorithms/subgroup_sets/cbsd.py:CBSD", "src/subgroups/algorithms/subgroup_sets/cpbsd.py:CPBSD"]}
{"id": "C57", "title": "Subgroup lists compress", "statement": "With the MDL code lengths of the library, each subgroup appended to a list by GMSL, PSLD or DSLM makes the total code length (list plus dataset given the list) strictly shorter, provided the candidates' descriptions have at most as many selectors as there are non-target columns (longer ones get an infinite gain whatever they cover); a dataset with rows of a single class gives empty lists.", "quantifier": "all datasets, candidate lists and parameters", "why_tests_cant": "ranges over all datasets and all greedy runs, and over the reals", "anchors": ["src/subgroups/algorithms/subgroup_lists/gmsl.py:GMSL.fit", "src/subgroups/algorithms/subgroup_lists/psld.py:PSLD.fit", "src/subgroups/algorithms/subgroup_lists/dslm.py:DSLM.fit", "src/subgroups/utils/mdl.py"]}
{"id": "C58", "title": "p-value of the independence test", "statement": "For every consistent table of a dataset with positive and negative rows PValueIndependence returns a probability, which is 1 for independent (and for empty and complete) subgroups, and among subgroups of the same size never grows with the distance of tp to its expected value. On a dataset with only one class it raises ZeroDivisionError for every other subgroup.", "quantifier": "all contingency tables, any symmetric cdf", "why_tests_cant": "infinitely many tables", "anchors": ["src/subgroups/credibility_measures/p_value_independence.py:PValueIndependence.compute"]}
{"id": "C59", "title": "IDSD groups the least frequent values", "statement": "With cats = c, every non-target column with more than c values has exactly c values afterwards: the rows of its least frequent values take one new value, called other followed by the fewest underscores that make it different from the values of the column, and all the other rows, the target column, and the columns with at most c values do not change.", "quantifier": "all columns of texts and all c >= 1", "why_tests_cant": "holds for every distribution of values, including columns that already use the name other", "anchors": ["src/subgroups/algorithms/subgroup_sets/idsd.py:IDSD._reduce_categories"]}
{"id": "C60", "title": "QFinder's test_subgroups evaluates the reported patterns on other data", "statement": "On a dataset with the columns of the reported patterns, test_subgroups returns the values of the reported patterns that have some row there, computed from their rows, if each of those with two or more selectors is reported together with all the patterns that result from removing one selector; otherwise it raises KeyError. Writing the results to a file raises KeyError when a reported pattern has no row. (Refuted: it always works on the data of the fit; before any fit it raises ValueError - it returns an empty table.)", "quantifier": "all results of a fit and all nominal test datasets", "why_tests_cant": "whether the sub-patterns are reported depends on the data of the fit and on the test data", "anchors": ["src/subgroups/algorithms/subgroup_sets/qfinder.py:QFinder.test_subgroups", "src/subgroups/algorithms/subgroup_sets/qfinder.py:QFinder._to_file", "src/subgroups/data_structures/bitset_qfinder.py:Bitset_QFinder.compute_credibility_measures"]}
{"id": "C61", "title": "The list algorithms load the candidates that were written", "statement": "Each line of the input file of a list algorithm has exactly one outcome: it is loaded as the candidate it denotes (with one bit per row in both bitarrays), it is rejected because of the length of a bitarray, or it is rejected because of its format; the candidates are the loaded ones in the order of the file. Candidates whose names and values consist of the admitted characters are read back exactly as written, and the file of VLSD, transformed, yields exactly the subgroups of VLSD with the rows they cover. An exception is raised only for a line of the right format whose subgroup text cannot be parsed. (Refuted: every candidate that a miner writes is loaded - a value with a space is silently dropped; a wrong line never raises - an attribute that ends with a comma raises IndexError.)", "quantifier": "all input texts, all numbers of rows, all datasets mined by VLSD", "why_tests_cant": "it needs the composition of printing, transformation and parsing for every name and value", "anchors": ["src/subgroups/algorithms/subgroup_lists/gmsl.py:GMSL._load_candidates", "src/subgroups/utils/file_format_transformations.py", "src/subgroups/core/subgroup.py:Subgroup.generate_from_str"]}
{"id": "C62", "title": "The output file of the list algorithms reports the lists", "statement": "The output file of GMSL, PSLD and DSLM consists of the size of the dataset (rows, positive and negative rows, columns), the messages about the input file, and for each list its members in order, each with the numbers of positive and negative rows that it covers at its position (not covered by earlier members) and on its own, and the numbers of rows left to the default rule. fit raises only when loading raises or when the algorithm raises on the loaded candidates.", "quantifier": "all categorical datasets, input texts and configurations", "why_tests_cant": "the counts depend on all the earlier members of the list", "anchors": ["src/subgroups/data_structures/subgroup_list.py:SubgroupList.__str__", "src/subgroups/algorithms/subgroup_lists/gmsl.py:GMSL.fit"]}
{"id": "C63", "title": "SDIGA stops and reports exact, distinct, irreducible rules", "statement": "For every outcome of the random numbers, fit of SDIGA stops. Each reported rule consists of attribute = value selectors of distinct attributes other than the target, has at least the minimum confidence, is irreducible, does not include an earlier reported description (so all of them are distinct), and is reported with its fitness, its exact numbers of positive and negative rows in the dataset and in the rows that no earlier rule covers, and the totals of both. The counters grow by the number of reported rules and by the evaluated individuals. Datasets that are not categorical and missing targets raise the documented errors. (Refuted: each rule covers a row not covered before; fit works with a population of 1, with a single attribute besides the target, or with an attribute called 'fitness'.)", "quantifier": "all random streams, orders of equal fitness, categorical datasets, parameters and earlier histories of the object", "why_tests_cant": "it quantifies over all random streams and over the unbounded number of rounds", "anchors": ["src/subgroups/algorithms/subgroup_sets/sdiga.py:SDIGA.fit", "src/subgroups/algorithms/subgroup_sets/sdiga.py:SDIGA._SDIGA"]}
{"id": "C64", "title": "The evolution of SDIGA is elitist", "statement": "In each round of SDIGA, whatever the random numbers and whatever rows are still uncovered, the candidate that results from the evolution and the local search has at least the fitness of every individual of the random population the round started with, and all individuals denote valid rules. (Refuted: both children of a generation compete - the first child is always overwritten by the second one.)", "quantifier": "all random streams, datasets, uncovered rows and parameters", "why_tests_cant": "it quantifies over all random streams and all numbers of generations", "anchors": ["src/subgroups/algorithms/subgroup_sets/sdiga.py:SDIGA._perform_crossover", "src/subgroups/algorithms/subgroup_sets/sdiga.py:SDIGA._perform_mutation", "src/subgroups/algorithms/subgroup_sets/sdiga.py:SDIGA._fitness_evaluation"]}
{"id": "C65", "title": "Additional parameters belong to the algorithm object", "statement": "SDMap, SDMapStar, VLSD and BSD/CBSD/CPBSD copy the dictionaries of additional parameters they are given: a construction (successful or not) changes no existing dictionary; the object has its own dictionary, different from every other one, with all given parameters except tp, fp, TP and FP. So whatever the caller does afterwards with his dictionaries and with other algorithms, each call of a measure by the object sees exactly the true counts of the subgroup and the additional parameters given at construction. (Refuted: the caller cannot change them later - the property returns the stored dictionary itself, and writing 'tp' in it replaces the true count. Refuted: SDMapStar with num_subgroups > 0 computes the quality of the best subgroups with the parameters of the quality measure - it uses those of the optimistic estimate.)", "quantifier": "all argument values, all heaps of dictionaries, all later histories of dictionary writes and constructions, all counts", "why_tests_cant": "aliasing: it quantifies over all histories of mutations after the construction", "anchors": ["src/subgroups/algorithms/subgroup_sets/sdmap.py:SDMap.__init__", "src/subgroups/algorithms/subgroup_sets/sdmapstar.py:SDMapStar.__init__", "src/subgroups/algorithms/subgroup_sets/sdmapstar.py:SDMapStar._updateKSubgroups", "src/subgroups/algorithms/subgroup_sets/vlsd.py:VLSD.__init__", "src/subgroups/algorithms/subgroup_sets/bsd.py:BSD.__init__"]}
{"id": "C66", "title": "Constructors decide by their documented requirements, in order", "statement": "For every combination of arguments of any Python types, each constructor (SDMap, SDMapStar, VLSD, BSD, IDSD, QFinder, SDIGA, GMSL, PSLD, DSLM) creates the object if and only if all its requirements on types, ranges, thresholds and file path hold, and otherwise raises the error of the first requirement violated (TypeError for types, ValueError for values, InconsistentMethodParametersError for the thresholds of SDMap and SDMapStar); a bool is never accepted as an int; the properties of a new object return the arguments, zero counters and the file path only if results are written. (Refuted: out-of-range floats are always rejected - nan passes every range check. Refuted: a wrong type of the optimistic estimate or its parameters is a TypeError in SDMapStar and BSD - it is an AttributeError, and QFinder checks neither the flag nor the path.)", "quantifier": "all argument tuples of all value types", "why_tests_cant": "the combinations of argument types and values are unbounded", "anchors": ["src/subgroups/algorithms/subgroup_sets/sdmap.py:SDMap.__init__", "src/subgroups/algorithms/subgroup_sets/sdmapstar.py:SDMapStar.__init__", "src/subgroups/algorithms/subgroup_sets/vlsd.py:VLSD.__init__", "src/subgroups/algorithms/subgroup_sets/bsd.py:BSD.__init__", "src/subgroups/algorithms/subgroup_sets/idsd.py:IDSD.__init__", "src/subgroups/algorithms/subgroup_sets/qfinder.py:QFinder.__init__", "src/subgroups/algorithms/subgroup_sets/sdiga.py:SDIGA.__init__", "src/subgroups/algorithms/subgroup_lists/gmsl.py:GMSL.__init__", "src/subgroups/algorithms/subgroup_lists/psld.py:PSLD.__init__", "src/subgroups/algorithms/subgroup_lists/dslm.py:DSLM.__init__"]}
{"id": "C67", "title": "Accepted optimistic estimates", "statement": "Among the measures of the package SDMapStar, VLSD and BSD/CBSD/CPBSD accept exactly the pairs (PiatetskyShapiro, its estimates 1 and 2), (WRAcc, its estimate 1) and (BinomialTest, its estimate 1); for the first two the value of the estimate computed by the constructed object at a subgroup is at least the quality it computes at every refinement, whatever happened since the construction. (Refuted for the accepted binomial pair.)", "quantifier": "all pairs of measures, all argument tuples, all later histories, all integer counts", "why_tests_cant": "it quantifies over all pairs of measures, all counts of a subgroup and of its refinements and all histories", "anchors": ["src/subgroups/algorithms/subgroup_sets/sdmapstar.py:SDMapStar.__init__", "src/subgroups/algorithms/subgroup_sets/vlsd.py:VLSD.__init__", "src/subgroups/algorithms/subgroup_sets/bsd.py:BSD.__init__", "src/subgroups/quality_measures"]}
{"id": "C68", "title": "Quality measures in double precision", "statement": "For every contingency table of integer counts with fewer than 2^53 rows, each measure other than Qg and the binomial ones, evaluated in IEEE binary64 in the order of the source, raises exactly when the exact formula does and otherwise differs from it by at most 5 units of 2^-53 (times the number of rows of the subgroup for Piatetsky-Shapiro and the estimates). The computed values stay in the documented ranges (for WRAcc, AbsoluteWRAcc and PiatetskyShapiro with at most 2^24 rows); the computed WRAcc and PiatetskyShapiro have exactly the sign of the exact values (at most 2^25 rows) and do not decrease when positives are added or negatives removed (2^23 rows); of two subgroups of one dataset the one with the greater exact value has the greater computed value (all the measures that are one quotient, Youden, WRAcc, AbsoluteWRAcc, PiatetskyShapiro and its estimates; at most 2^23 rows). (Refuted: equal exact values are computed equal - with 2 positives and 2 negatives, (1, 0) and (2, 1) have WRAcc 1/8 but the second is computed below 0.125.)", "quantifier": "all measures and all integer counts up to the stated sizes", "why_tests_cant": "the counts range over up to 2^53 values each; rounding errors depend on all of them", "anchors": ["src/subgroups/quality_measures/wracc.py:WRAcc.compute", "src/subgroups/quality_measures/piatetsky_shapiro.py:PiatetskyShapiro.compute", "src/subgroups/quality_measures"]}
{"id": "C69", "title": "Optimistic estimates bound the refinements in double precision", "statement": "With all the operations rounded to binary64, for datasets of at most 2^25 rows: the computed value of each estimate of Piatetsky-Shapiro and WRAcc at a subgroup is at least the computed quality of every refinement (fewer or equal true and false positives), and the computed estimates of Piatetsky-Shapiro do not grow under refinement (fewer than 2^53 rows).", "quantifier": "all estimates, all integer counts of a subgroup and of its refinements", "why_tests_cant": "it quantifies over all counts of a subgroup and of its refinements; a single rounding in the wrong direction would break it", "anchors": ["src/subgroups/quality_measures/piatetsky_shapiro_optimistic_estimate_1.py:PiatetskyShapiroOptimisticEstimate1.compute", "src/subgroups/quality_measures/piatetsky_shapiro_optimistic_estimate_2.py:PiatetskyShapiroOptimisticEstimate2.compute", "src/subgroups/quality_measures/wracc_optimistic_estimate_1.py:WRAccOptimisticEstimate1.compute"]}
{"id": "C70", "title": "The miners are exact with the qualities as computed", "statement": "With qualities and estimates computed in binary64 and compared as floats: VLSD (both representations) with Piatetsky-Shapiro or WRAcc and one of their estimates writes exactly the descriptions whose computed quality reaches the threshold (threshold of the estimate not above it, at most 2^25 rows); SDMapStar writes every frequent description that reaches the threshold, or as many descriptions of greater computed quality as were asked for, when no conditional branch was pruned (2^25 rows); BSD, CBSD and CPBSD with WRAcc end with an entry of at least the computed quality of every description within the limits (2^23 rows).", "quantifier": "all datasets of texts up to the stated numbers of rows, all thresholds and parameters", "why_tests_cant": "pruning decisions compare rounded numbers; completeness quantifies over all datasets and all pruned branches", "anchors": ["src/subgroups/algorithms/subgroup_sets/vlsd.py:VLSD.fit", "src/subgroups/algorithms/subgroup_sets/sdmapstar.py:SDMapStar.fit", "src/subgroups/algorithms/subgroup_sets/bsd.py:BSD.fit"]}
{"id": "C71", "title": "The output files of the miners can be read back", "statement": "If the names of the columns have no spaces, do not end in a comma and are not ';' or 'Target:', and the values contain neither ', ' nor ' ; ' and are on one line, then splitting the lines of the output file of SDMap, SDMapStar, VLSD, BSD, CBSD, CPBSD, IDSD, QFinder or SDIGA at ' ; ', giving the first part to Subgroup.generate_from_str and taking the numbers by their names, yields the reported subgroups in order, each with its own counts and the text of its own values; for SDMap that is exactly the set of frequent descriptions that reach the threshold.", "quantifier": "all datasets with such names and values, all parameters, all texts of the floats without semicolons", "why_tests_cant": "it quantifies over all names and values; a clash between the separators and the contents only shows for particular texts", "anchors": ["src/subgroups/algorithms/subgroup_sets/sdmap.py:SDMap.fit", "src/subgroups/algorithms/subgroup_sets/vlsd.py:VLSD.fit", "src/subgroups/algorithms/subgroup_sets/bsd.py:BSD.fit", "src/subgroups/algorithms/subgroup_sets/idsd.py:IDSD._to_file", "src/subgroups/algorithms/subgroup_sets/qfinder.py:QFinder._to_file", "src/subgroups/algorithms/subgroup_sets/sdiga.py:SDIGA.fit", "src/subgroups/core/subgroup.py:Subgroup.generate_from_str"]}
{"id": "C72", "title": "The text of a vertical list shows its rows", "statement": "str() of a vertical list shows its selectors in order, the rows of its true and false positives in ascending order, each once, and its quality; lists with sets and with bitsets made by the same calls print the same text; for lists built from a dataset the rows shown are exactly those in which all the selectors hold, with and without the target; the text determines the rows.", "quantifier": "all constructor calls and joins of vertical lists with row numbers in range, all datasets", "why_tests_cant": "it quantifies over all histories of joins and over two representations", "anchors": ["src/subgroups/data_structures/vertical_list_with_sets.py:VerticalListWithSets.__str__", "src/subgroups/data_structures/vertical_list_with_bitsets.py:VerticalListWithBitsets.__str__"]}
{"id": "C73", "title": "The output file is correct at every crash point", "statement": "Whenever fit ends, raises or is killed, the output file holds either what it held before fit, or a beginning of the text of the report: its whole lines read back as distinct subgroups that the algorithm may report, with their own numbers and a sufficient quality, and they are the first lines of the file that the same fit writes if it ends. The file is opened at most once, before any other effect, and a fit that ends has closed it and left no incomplete line; refused datasets leave the file as it was. The counters of the object count the lines written so far, up to one. BSD, CBSD, CPBSD, IDSD and QFinder touch the file only after the search: if they raise, the file is as it was. Refuted: a fit that raises leaves its file closed or unchanged (SDMap, SDMapStar, VLSD: the measure raises in the middle of the search; VLSD with an unknown target column; SDIGA with a population of one).", "quantifier": "all datasets, parameters, quality measures that may raise for some counts, all crash points (every beginning of the sequence of effects, and every beginning of the buffered text)", "why_tests_cant": "it quantifies over all crash points and over all measures that may raise at any moment of the search", "anchors": ["src/subgroups/algorithms/subgroup_sets/sdmap.py:SDMap.fit", "src/subgroups/algorithms/subgroup_sets/sdmapstar.py:SDMapStar.fit", "src/subgroups/algorithms/subgroup_sets/vlsd.py:VLSD.fit", "src/subgroups/algorithms/subgroup_sets/sdiga.py:SDIGA.fit", "src/subgroups/algorithms/subgroup_sets/bsd.py:BSD.fit", "src/subgroups/algorithms/subgroup_sets/idsd.py:IDSD._to_file", "src/subgroups/algorithms/subgroup_sets/qfinder.py:QFinder._to_file"]}
{"id": "C74", "title": "fit after a fit that raised: what the file holds", "statement": "Any number of calls of fit on one object that writes a file: as long as no call raised after it had opened the file, the file holds the report of the last call that opened it (for BSD, CBSD, CPBSD and IDSD: of the last call that ended, whatever the other calls did). After a call of SDMap, SDMapStar, VLSD or SDIGA that raised in the middle, the next call that ends leaves its report followed by what was left of the older one beyond its length, with zero bytes in the place of the part of the older report that had already reached the disk; the file is exactly the new report iff nothing was left to send or the older report is not longer than the new one. When the object is deleted instead, the whole text of the call that raised is in the file. The possible contents at the crash points of one call are exactly those of C73. Refuted: the file after a fit that ends holds exactly the report of that fit (SDMap: a call that raises, then a call on another dataset; the file reads as a report with a subgroup about an attribute that the second dataset does not have).", "quantifier": "all sequences of calls on any datasets, all exceptions, all schedules of the writes of the buffer to the disk, all old contents of the file", "why_tests_cant": "Needs an exception in the middle of a search, the buffer of the file object and the time when CPython closes a dropped file object; tests call fit once per object and without exceptions.", "anchors": ["src/subgroups/algorithms/subgroup_sets/sdmap.py: SDMap.fit", "src/subgroups/algorithms/subgroup_sets/sdmapstar.py: SDMapStar.fit", "src/subgroups/algorithms/subgroup_sets/vlsd.py: VLSD.fit", "src/subgroups/algorithms/subgroup_sets/sdiga.py: SDIGA.fit", "src/subgroups/algorithms/subgroup_sets/bsd.py: BSD.fit", "src/subgroups/algorithms/subgroup_sets/idsd.py: IDSD.fit"]}
{"id": "C75", "title": "BinomialTest, its optimistic estimate and Qg as Python computes them (binary64)", "statement": "The binomial test of counts tp <= TP, fp <= FP computed in double precision raises exactly when the formula is undefined (no row covered, all rows covered, TP = 0 or FP = 0); otherwise, up to 2^25 rows, its value differs from the formula by at most (N/FP + 24)*2^-53 times sqrt(n)/sqrt(p0(1-p0))*sqrt(N/(N-n)) and it is positive, negative or zero exactly when the formula is. The computed optimistic estimate differs from sqrt(tp)*(1-TP/(TP+FP)) by at most 5*2^-53*sqrt(tp) for every size, raises only for an empty dataset, never grows when rows are removed from the subgroup, and is not an upper bound of the computed binomial test. Computed Qg raises exactly when fp+g = 0 (the sum is never rounded to zero), has a relative error of at most 5*2^-53 for 2^-50 <= g <= 2^50, does not decrease when tp grows or fp falls, and with an int g is the exact value correctly rounded.", "quantifier": "all counts of a subgroup (sizes up to 2^25 rows for the binomial test, 2^53 for Qg, unbounded for the estimate) and all binary64 g", "why_tests_cant": "rounding errors of a chain of eight operations depend on every bit of the operands; tests see a few counts and cannot show that the sign is right or that a sum is never rounded to zero", "anchors": ["src/subgroups/quality_measures/binomial_test.py: BinomialTest.compute", "src/subgroups/quality_measures/binomial_test_optimistic_estimate_1.py: BinomialTestOptimisticEstimate1.compute", "src/subgroups/quality_measures/qg.py: Qg.compute"]}
{"id": "C76", "title": "is_contained, filter and filter_by_list_of_selectors on DataFrames with any row labels", "statement": "On a DataFrame whose row labels are any distinct labels (for instance a part of another DataFrame, or rows named by strings) Pattern.is_contained is right for every pattern (one entry per row, under its label, True iff the row matches) exactly when the labels are 0..n-1 in some order, n being the number of rows. Otherwise a matching row whose label is not one of 0..n-1 is reported as not contained, and the answer has the additional labels. Likewise Subgroup.filter and filter_by_list_of_selectors keep, with their labels and in the original order, exactly the matching rows whose label is one of 0..n-1; they raise IndexingError exactly when there is no selector and some label is not one of 0..n-1. So filtering twice by the same selectors can lose rows.", "quantifier": "all DataFrames with any distinct row labels, all patterns and selector lists, all orders pandas may give to the union of two indexes", "why_tests_cant": "ranges over all indexes; the tests of the project only use DataFrames with the default index, where the defect cannot be seen", "anchors": ["src/subgroups/core/pattern.py:Pattern.is_contained", "src/subgroups/core/subgroup.py:Subgroup.filter", "src/subgroups/utils/dataframe_filters.py:filter_by_list_of_selectors"]}
{"id": "C77", "title": "SDMap and SDMapStar on DataFrames with any row labels", "statement": "Whatever distinct labels the rows have, the fit of SDMap and SDMapStar does exactly what it does with the labels 0..n-1. When labels are repeated (for instance after pd.concat), the FP-tree is that of the rows whose label no other row has, while the frequent selectors, TP and FP are those of all the rows; when no label is used once (for instance a DataFrame concatenated with itself) fit silently finds nothing and leaves the object and the file as they were. (Refuted: with repeated labels the reported tp are those of the dataset.)", "quantifier": "all DataFrames with any row labels, all thresholds, measures and states of the object", "why_tests_cant": "ranges over all indexes, with and without repetitions; the tests only use the default index", "anchors": ["src/subgroups/data_structures/fp_tree_for_sdmap.py:FPTreeForSDMap.build_tree", "src/subgroups/algorithms/subgroup_sets/sdmap.py:SDMap.fit", "src/subgroups/algorithms/subgroup_sets/sdmapstar.py:SDMapStar.fit"]}
{"id": "C78", "title": "The counters of BSD, CBSD, CPBSD and SDMapStar", "statement": "After a fit of a new BSD, CBSD or CPBSD object (every quality above the initial value -99999) visited_subgroups is the number of descriptions evaluated, all different and each matched by some row; selected_subgroups is the number of stored descriptions, all among them; every evaluated description is selected or counted in unselected_subgroups, and the pruned ones are counted there: pruned <= unselected, visited <= selected + unselected. The same balance holds for the differences made by a fit of an object in any state. For SDMapStar with a limit one fit increases visited_nodes by the number of different frequent descriptions handled, selected_subgroups by the number of those whose quality reaches the minimum (the number of lines of the file), and does not decrease the numbers of pruned subgroups and branches; when nothing is frequent nothing changes. (Refuted: unselected = visited - selected for BSD, since it also counts descriptions that match no row and branches cut after being visited.)", "quantifier": "all datasets of texts, measures, estimates, thresholds, limits, depths, and (for the differences) all earlier histories of the object", "why_tests_cant": "the counters are updated at a dozen places along a recursive search whose path depends on the data, the measure and the entries stored so far; a test compares them for one run only", "anchors": ["src/subgroups/algorithms/subgroup_sets/bsd.py: BSD._handle_individual_result, BSD.fit, visited_subgroups, selected_subgroups, unselected_subgroups", "src/subgroups/algorithms/subgroup_sets/cbsd.py: CBSD._checkRel", "src/subgroups/algorithms/subgroup_sets/cpbsd.py: CPBSD._checkRel", "src/subgroups/algorithms/subgroup_sets/sdmapstar.py: SDMapStar._handle_individual_result, SDMapStar.fit"]}
{"id": "C79", "title": "What a client shares with patterns, subgroups and subgroup lists", "statement": "Pattern and bitarray objects are mutable and passed by reference: Subgroup(p, t) keeps the same Pattern object p (so p.add_selector is seen through the subgroup and through its description), copy() makes a new one, and SubgroupList keeps copies of every bitarray and Subgroup passed to it. For every program that calls these methods (catching the exceptions) and never changes an object obtained from a list's getters: each SubgroupList shows exactly the history of the calls made on it with the values the arguments had at the time of the call, whatever the client does later to its patterns, subgroups, bitarrays and other lists; a client's pattern or description changes only through a variable of the same Pattern object, a bitarray only by its own item assignments; what get_subgroup and the bitarray getters returned keeps its value after later additions and deletions; the default rule's bitarrays are changed in place and always show the present default rule. Changing an object obtained from a getter does change the list.", "quantifier": "every finite program over 17 operations on any number of objects, every value of the arguments, every point of the program", "why_tests_cant": "The interleavings of mutations and calls on shared objects are unbounded; a missing copy shows only in some of them.", "anchors": ["src/subgroups/core/pattern.py: add_selector, remove_selector, remove_selector_by_index, copy", "src/subgroups/core/subgroup.py: __init__, copy, description", "src/subgroups/data_structures/subgroup_list.py: __init__, add_subgroup, delete_last_subgroup, get_subgroup, get_subgroup_bitarray_of_positives, default_rule_bitarray_of_positives"]}
{"id": "C80", "title": "The printed FP-tree and header table", "statement": "FPTree.tree_as_str() never fails or loops on the tree of a dataset or on any conditional tree made from it, and prints one line per node: the root first without prefix, every other node exactly once, after its parent, with no node of the parent's depth or less between them and indented one level more ('|--- ' after four blanks per level above one), the children of a node in insertion order; FPTreeNode.tree_as_str(k) prints likewise the subtree of any node, starting at depth k. Each line is the node's str: its id, selector, counters [tp, fp] and the id of the next node with the same selector or None. header_table_as_str prints one line per selector of the header table, with its summations and all the nodes with that selector, oldest first, joined by ' -> ' and ended by None (only the first node when the links are not followed); the counters printed add up to the summations.", "quantifier": "every categorical dataset and thresholds, every conditional tree reached in any number of steps, every node and starting depth, every assignment of ids", "why_tests_cant": "The number of nodes, the depth and the lengths of the chains of links are unbounded; the text must be right for every shape of tree.", "anchors": ["src/subgroups/data_structures/fp_tree_node.py: __str__, tree_as_str", "src/subgroups/data_structures/fp_tree_for_sdmap.py: tree_as_str, header_table_as_str"]}
{"id": "C81", "title": "One instance of each measure", "statement": "In every program of a client that builds, copies (copy, deepcopy, pickling within the process) and uses quality and credibility measures, in any order: each class of the package has one instance; C() always returns it, different classes return different objects (also AbsoluteWRAcc, a subclass of WRAcc), copies are the object itself, and optimistic_estimate_of() returns those same instances under their own names. type(C()) is C as long as the client builds no subclass of a class of the package. (Refuted: a subclass of the client gives its own instances: the first of the two classes that is built decides the type of both.)", "quantifier": "all sequences of constructions, copies and calls, with or without subclasses defined by the client", "why_tests_cant": "class-level state shared by the whole process: the result depends on everything built before", "anchors": ["src/subgroups/quality_measures/wracc.py:WRAcc.__new__", "src/subgroups/quality_measures/absolute_wracc.py:AbsoluteWRAcc.__new__", "src/subgroups/quality_measures/wracc_optimistic_estimate_1.py:WRAccOptimisticEstimate1.optimistic_estimate_of", "src/subgroups/credibility_measures/p_value_glm.py:PValueGLM.__new__"]}
{"id": "C82", "title": "What one evaluated description does to the list of best subgroups", "statement": "In BSD, CBSD and CPBSD, after each evaluated description X the list of best subgroups is determined by the list before it: if the list is full and the optimistic estimate or the quality of X does not reach its lowest quality, nothing changes; otherwise X is refused when a stored element makes it superfluous (BSD: any element; CBSD and CPBSD: the first element of equal quality that covers the same or more rows, when it is longer), and else it is placed after the elements of at most its quality; the element it replaces and the elements it makes superfluous leave, and if none leaves and the list was full the first one does. All other elements stay, in order. The last list is the final one. A description whose estimate did not reach the lowest quality of the full list is pruned: no description evaluated later contains all its selectors.", "quantifier": "all datasets of texts, targets, measures, estimates, num_subgroups >= 1, depths and thresholds, and every step of the search", "why_tests_cant": "every evaluated description of every search: the order of the search depends on the estimates and ties", "anchors": ["src/subgroups/algorithms/subgroup_sets/bsd.py:BSD._handle_individual_result", "src/subgroups/algorithms/subgroup_sets/bsd.py:BSD._BSD", "src/subgroups/algorithms/subgroup_sets/bsd.py:BSD._checkRel", "src/subgroups/algorithms/subgroup_sets/bsd.py:BSD._checkRelevancies", "src/subgroups/algorithms/subgroup_sets/cbsd.py:CBSD._checkRel", "src/subgroups/algorithms/subgroup_sets/cpbsd.py:CPBSD._checkRel"]}
{"id": "C83", "title": "Which arguments fit accepts and what a refused call leaves", "statement": "For arguments of any type (the first two elements of the target being scalars) fit decides by its requirements in a fixed order, each with its error class: dataset a DataFrame, target a tuple, all cells texts, the target's length and elements, the target attribute a column, and for IDSD and SDIGA the target value one of its values. A fit that starts has exactly the given dataset and target, which meet the hypotheses of the theorems about the algorithms. A refused fit or test_subgroups changes neither the object nor the output file, except VLSD, which has already emptied the file and keeps it open when the target attribute does not exist. (Refuted: no refused fit touches the output file; every fit refuses a value that does not occur; every fit refuses a target that is not a pair of strings.)", "quantifier": "all arguments of any Python type (targets whose first two elements are scalars), all states of the object and of the file, whatever the rest of fit does", "why_tests_cant": "it quantifies over all argument types, positions of the first violated requirement and previous states", "anchors": ["src/subgroups/algorithms/subgroup_sets/sdmap.py:SDMap.fit", "src/subgroups/algorithms/subgroup_sets/vlsd.py:VLSD.fit", "src/subgroups/algorithms/subgroup_sets/bsd.py:BSD.fit", "src/subgroups/algorithms/subgroup_sets/idsd.py:IDSD.fit", "src/subgroups/algorithms/subgroup_sets/qfinder.py:QFinder.fit", "src/subgroups/algorithms/subgroup_sets/qfinder.py:QFinder.test_subgroups", "src/subgroups/algorithms/subgroup_sets/sdiga.py:SDIGA.fit", "src/subgroups/algorithms/subgroup_lists/gmsl.py:GMSL.fit"]}
{"id": "C84", "title": "Depth of the recursion", "statement": "On a dataset of categorical columns, fit of SDMap and SDMapStar has at most as many nested calls of its recursive functions open as the dataset has columns plus one, VLSD (both representations) at most two fewer than columns, BSD, CBSD and CPBSD at most max_depth + 1, and IDSD at most max_complexity + 1, or as many as columns when it is -1: within an interpreter limit of that many calls fit ends exactly as with no limit, whatever the number of rows and of values; within a smaller limit a fit that ends without RecursionError has the same result. These numbers are the least ones.", "quantifier": "all datasets, targets, thresholds, measures, object states and recursion limits", "why_tests_cant": "a test shows that one dataset fits on the stack; that no dataset of a given width ever exceeds it needs an induction over the conditional trees and the equivalence classes", "anchors": ["src/subgroups/algorithms/subgroup_sets/sdmap.py: _fpgrowth, _generate_all_combinations", "sdmapstar.py: _fpgrowth", "vlsd.py: _search", "bsd.py: _BSD", "idsd.py: _grow_tree"]}
{"id": "C85", "title": "The order of the rows and of the columns", "statement": "For two datasets with the same columns and the same rows (each as often), in any orders: Pattern.is_contained answers the same for each row; every description covers as many rows with and without the target, so all quality measures agree; SDMap, and SDMapStar without limit, end with the same counters and the same set of lines, or both raise an exception of the quality measure; VLSD (both representations, every sort criterion) writes the same set of lines, and the same numbers are selected and visited, when the estimate is inherited by the parts of a description; the best WRAcc found by BSD, CBSD and CPBSD is the same. The order of the lines, the subgroups of SDMapStar with a limit, those of VLSD with an estimate that is not inherited, and which of two equally good subgroups CBSD keeps do depend on the order.", "quantifier": "all categorical datasets, all permutations of rows and columns, targets, thresholds, measures, object states", "why_tests_cant": "a test compares a few permutations of a few datasets; the number of permutations grows factorially and the hash-free, order-dependent dictionaries inside the algorithms change with each", "anchors": ["src/subgroups/core/pattern.py: Pattern.is_contained", "src/subgroups/algorithms/subgroup_sets/sdmap.py: SDMap.fit", "sdmapstar.py: SDMapStar.fit", "vlsd.py: VLSD.fit", "bsd.py: BSD.fit, CBSD.fit, CPBSD.fit"]}
{"id": "C86", "title": "Core methods on arguments of any type", "statement": "A call of a method of Operator, Selector, Pattern, Subgroup or of filter_by_list_of_selectors with an argument that is not of the annotated type (bool and subclasses of str, int, float, list, Series, DataFrame included) raises TypeError and changes nothing, whatever the other arguments are; a comparison with another kind of object never answers False. Any call that raises leaves the pattern and the selector pool as they were. Selector accepts exactly a str, an Operator and a str (with EQUAL or NOT_EQUAL), int or float; the empty name is accepted too. Pattern does not test the elements of the list: a list that mixes selectors with anything else is never accepted (TypeError for None, scalars and core objects), and no calls make a pattern mixed, but a list with no selector can be accepted, after which add, remove and in raise TypeError and is_contained AttributeError (if there are rows). is_refinement tests nothing: refinement_of_itself, of any type, is returned as it is for equal patterns, and an argument that is not a pattern gives AttributeError.", "quantifier": "all calls of the methods with arguments of any type, in any state, and all histories of calls", "why_tests_cant": "every type of argument in every position, with every combination of the others, and all lists of objects and histories", "anchors": ["src/subgroups/core/operator.py", "src/subgroups/core/selector.py", "src/subgroups/core/pattern.py", "src/subgroups/core/subgroup.py", "src/subgroups/utils/dataframe_filters.py"]}
{"id": "C87", "title": "Stricter parameters and further columns", "statement": "For SDMap and SDMapStar without limit: stricter minimum supports (of either kind) and a stricter quality threshold give exactly the lines of the looser run that meet them, never more selected or visited subgroups, and no exception if the looser run raised none; further columns only add lines: the lines over the old columns are those of the run without the new ones. VLSD with an upper bound of the measure: the same for its quality threshold and for columns, whatever the representation of the vertical lists. BSD, CBSD, CPBSD with WRAcc: a lower minimum support, a larger depth, more columns, another length of the list or another of the three algorithms never give a worse best quality; the list itself is not monotone: a larger depth can remove subgroups from a list that is not full.", "quantifier": "all categorical datasets, all pairs of configurations one of which is stricter, all sets of additional columns", "why_tests_cant": "relates two runs for all datasets, all pairs of thresholds and all sets of columns", "anchors": ["src/subgroups/algorithms/subgroup_sets/sdmap.py: SDMap.fit", "sdmapstar.py: SDMapStar.fit", "vlsd.py: VLSD.fit", "bsd.py: BSD.fit, CBSD.fit, CPBSD.fit"]}
{"id": "C88", "title": "Renaming the values", "statement": "The report does not depend on what the values are called: if the values of each column are renamed injectively (also the target value), SDMap and SDMapStar without limit succeed on both datasets or on neither, with the same counters, and report the same lines up to the renaming: the same columns in each description, covering the same rows, with the same tp, fp, TP, FP and quality, although the order of the nodes and of the lines may change. The same for the lines of VLSD with an upper bound (a bound on one dataset is a bound on the other), whatever the representation of the vertical lists, and for the best quality of BSD, CBSD, CPBSD with WRAcc. Which of several equally good subgroups CPBSD keeps does depend on the values.", "quantifier": "all pairs of categorical datasets with the same columns and rows whose cells agree in the same places, all targets marking the same rows, all configurations", "why_tests_cant": "relates two runs for all datasets and all renamings", "anchors": ["src/subgroups/algorithms/subgroup_sets/sdmap.py: SDMap.fit", "sdmapstar.py: SDMapStar.fit", "vlsd.py: VLSD.fit", "bsd.py: BSD.fit, CBSD.fit, CPBSD.fit"]}
{"id": "C89", "title": "Other names of the columns", "statement": "The report does not depend on what the columns are called, although names decide the order of selectors in a description and the order of the search: if the columns of two datasets can be paired one to one (the target columns too) so that paired columns have equal cells in the same places, SDMap and SDMapStar without limit succeed on both or on neither with the same counters, and report the same lines up to the pairing: descriptions over the paired columns that cover the same rows, with the same tp, fp, TP, FP and quality. The same for the lines of VLSD with an upper bound and for the best quality of BSD, CBSD, CPBSD with WRAcc. Renaming the columns, renaming the values, and any composition of both give such pairs.", "quantifier": "all pairs of categorical datasets whose columns correspond, all targets marking the same rows, all configurations", "why_tests_cant": "relates two runs for all datasets and all renamings", "anchors": ["src/subgroups/algorithms/subgroup_sets/sdmap.py: SDMap.fit", "sdmapstar.py: SDMapStar.fit", "vlsd.py: VLSD.fit", "bsd.py: BSD.fit, CBSD.fit, CPBSD.fit", "src/subgroups/core/selector.py: Selector.__lt__"]}
{"id": "C90", "title": "Every row repeated", "statement": "With every row repeated k times and the minimum supports multiplied by k, SDMap and SDMapStar without limit succeed as on the dataset itself, with the same counters, and report the same descriptions with k times tp, fp, TP, FP, and VLSD with an upper bound reports the same descriptions; the quality is the same for the measures that are ratios of counts (Coverage, Support, PPV, NPV, Sensitivity, Specificity, F1Score, IRR, Youden, WRAcc, AbsoluteWRAcc), which raise on the one exactly when they raise on the other, and multiplied by k for PiatetskyShapiro and its estimates and for the WRAcc estimate, with the quality threshold multiplied too. The best quality of BSD, CBSD and CPBSD with WRAcc is the same, with k times the minimum support.", "quantifier": "all k >= 1, all categorical datasets without quotes in the column names, all targets, all pairs of configurations of which one asks of k times the counts what the other asks of the counts", "why_tests_cant": "relates two runs for all datasets and all k", "anchors": ["src/subgroups/algorithms/subgroup_sets/sdmap.py: SDMap.fit", "sdmapstar.py: SDMapStar.fit", "vlsd.py: VLSD.fit", "src/subgroups/quality_measures", "src/subgroups/algorithms/subgroup_sets/bsd.py: BSD.fit, CBSD.fit, CPBSD.fit"]}

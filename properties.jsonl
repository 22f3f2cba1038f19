{"id": "C01", "title": "The root is an exact histogram of everything fitted", "statement": "After any sequence of ifit calls that all return, tree.root.count is the number of calls, and for every attribute a and value v, tree.root.av_counts[a][v] is the number of fitted instances in which a had value v (absent entry = zero).", "quantifier": "every finite history of instances fitted into a fresh tree, every stream of values returned by random(), every number system used for the category-utility arithmetic (so also IEEE floats with rounding)", "why_tests_cant": "Tests fit a few fixed data sets; the claim is about every history and every random tie-break, i.e. every interleaving of best/new/merge/split/fringe-split.", "anchors": ["concept_formation/cobweb.py:CobwebTree.ifit", "concept_formation/cobweb.py:CobwebTree.cobweb", "concept_formation/cobweb.py:CobwebNode.increment_counts", "concept_formation/cobweb.py:CobwebNode.update_counts_from_node"]}
{"id": "C02", "title": "Children always partition their parent", "statement": "In every tree produced by ifit calls, at every concept with children, count equals the sum of the children's counts, and each attribute-value count equals the sum of the children's counts for it.", "quantifier": "every finite history of instances fitted into a fresh tree, every stream of values returned by random(), every number system used for the category-utility arithmetic (so also IEEE floats with rounding)", "why_tests_cant": "The repository's verify_counts checks this on random data sets; it cannot cover all sequences of restructuring operations.", "anchors": ["concept_formation/cobweb.py:CobwebTree.cobweb", "concept_formation/cobweb.py:CobwebNode.merge", "concept_formation/cobweb.py:CobwebNode.split", "concept_formation/cobweb.py:CobwebNode.create_new_child", "concept_formation/cobweb.py:CobwebNode.__init__"]}
{"id": "C03", "title": "ifit and categorize always terminate", "statement": "Sorting an instance into a tree finishes after at most as many loop steps as there are concepts in the tree plus one, whatever operations are chosen; categorize visits a strictly deeper concept at each step.", "quantifier": "every tree reachable by fitting, every instance, every choice of operation (including choices distorted by floating-point error)", "why_tests_cant": "Non-termination cannot be observed by a test, and the split branch loops without descending.", "anchors": ["concept_formation/cobweb.py:CobwebTree.cobweb", "concept_formation/cobweb.py:CobwebTree._cobweb_categorize"]}
{"id": "C04", "title": "The concept hierarchy is a proper tree", "statement": "After any history: the root has no parent; a concept is listed in exactly one concept's children, its parent; following parent links from any concept reaches the root; no concept occurs twice; every concept that has children has at least two.", "quantifier": "every finite history of instances fitted into a fresh tree, every stream of values returned by random(), every number system used for the category-utility arithmetic (so also IEEE floats with rounding)", "why_tests_cant": "Pointer consistency under all sequences of in-place surgery (fringe split, merge, split) is a global invariant over histories.", "anchors": ["concept_formation/cobweb.py:CobwebTree.cobweb", "concept_formation/cobweb.py:CobwebNode.merge", "concept_formation/cobweb.py:CobwebNode.split", "concept_formation/cluster.py:k_cluster (relies on >=2 children)"]}
{"id": "C05", "title": "ifit returns a leaf that describes the instance", "statement": "The concept returned by ifit(i) is a leaf of the resulting tree and assigns probability 1 to every visible attribute value of i and gives no visible attribute that i lacks.", "quantifier": "every finite history of instances fitted into a fresh tree, every stream of values returned by random(), every number system used for the category-utility arithmetic (so also IEEE floats with rounding)", "why_tests_cant": "Depends on which branch the loop ends in for every tree shape.", "anchors": ["concept_formation/cobweb.py:CobwebTree.ifit", "concept_formation/cobweb.py:CobwebTree.cobweb", "concept_formation/cobweb.py:CobwebNode.is_exact_match"]}
{"id": "C06", "title": "Leaves only ever hold identical instances", "statement": "In every reachable CobwebTree each leaf with n>0 instances has, for every visible attribute it stores, exactly one value and that value has count n.", "quantifier": "every finite history of instances fitted into a fresh tree, every stream of values returned by random(), every number system used for the category-utility arithmetic (so also IEEE floats with rounding)", "why_tests_cant": "An invariant over all histories.", "anchors": ["concept_formation/cobweb.py:CobwebNode.is_exact_match", "concept_formation/cobweb.py:CobwebTree.cobweb"]}
{"id": "C07", "title": "Leaves persist", "statement": "A concept that is a non-empty leaf stays a leaf of the tree, under the same concept_id, through every later ifit; its count never decreases and its set of visible attribute values never changes. (So labels handed out earlier stay meaningful; cluster and depth_labels rely on this.)", "quantifier": "every history split in two at any point, every random stream", "why_tests_cant": "Quantifies over all futures of a returned concept.", "anchors": ["concept_formation/cobweb.py:CobwebTree.ifit", "concept_formation/cluster.py:cluster_iter", "concept_formation/cluster.py:depth_labels"]}
{"id": "C08", "title": "categorize is read-only and ends in a leaf", "statement": "categorize (and infer_missing) leave every concept's counts, table, parent and children unchanged and the root the same; categorize returns a leaf of the tree reached from the root through child links.", "quantifier": "every reachable tree, every instance, every random stream", "why_tests_cant": "Absence of side effects over all trees.", "anchors": ["concept_formation/cobweb.py:CobwebTree.categorize", "concept_formation/cobweb.py:CobwebTree._cobweb_categorize", "concept_formation/cobweb.py:CobwebNode.shallow_copy"]}
{"id": "C09", "title": "ifit only changes the path it took", "statement": "After ifit(i) every concept that survives either has exactly the table it had before, or that table with i added once; the concepts that gained i are exactly the returned leaf and its ancestors. Concepts disappear only by split, and a disappearing concept is never a leaf.", "quantifier": "every finite history of instances fitted into a fresh tree, every stream of values returned by random(), every number system used for the category-utility arithmetic (so also IEEE floats with rounding)", "why_tests_cant": "A frame property over the whole heap for all operation sequences.", "anchors": ["concept_formation/cobweb.py:CobwebTree.cobweb"]}
{"id": "C10", "title": "Relative CU ranks children as true CU does", "statement": "For every concept with children and any instance, cu_for_insert(child) = relative_cu_for_insert(child)/(n*(count+1)) + compute_relative_CU_const; hence the child picked by two_best_children maximises cu_for_insert and the CU it reports equals cu_for_insert of that child.", "quantifier": "every concept, children tables and instance over exact real arithmetic, every random stream", "why_tests_cant": "The docstring asserts a guarantee ('guaranteed to have the same rank ordering'); only algebra over all tables establishes it.", "anchors": ["concept_formation/cobweb.py:CobwebNode.two_best_children", "concept_formation/cobweb.py:CobwebNode.relative_cu_for_insert", "concept_formation/cobweb.py:CobwebNode.compute_relative_CU_const", "concept_formation/cobweb.py:CobwebNode.cu_for_insert"]}
{"id": "C11", "title": "The committed operation has maximal category utility", "statement": "get_best_operation returns an operation among those that are applicable (merge only with more than two children, split only if the best child has children) whose category utility is maximal; among ties the one with the largest random draw wins, so any tied operation can win; if the draws are the same too, the operation whose name comes last wins.", "quantifier": "every concept, instance, and random stream", "why_tests_cant": "Requires all orderings of scores and draws.", "anchors": ["concept_formation/cobweb.py:CobwebNode.get_best_operation"]}
{"id": "C12", "title": "Predicted CU equals CU after really performing the operation", "statement": "cu_for_insert, cu_for_new_child, cu_for_merge, cu_for_split and cu_for_fringe_split return exactly the category_utility that the concept has after the corresponding operation is actually carried out (insert: the child is incremented too; merge: the merged child is incremented too). In trees built with distinct draws from instances with a visible attribute every one of these predictions returns, and this also holds for Cobweb3Tree.", "quantifier": "every concept with consistent children and every instance, over exact arithmetic", "why_tests_cant": "Equality of two different computations for all tables.", "anchors": ["concept_formation/cobweb.py:CobwebNode.cu_for_insert", "concept_formation/cobweb.py:CobwebNode.cu_for_new_child", "concept_formation/cobweb.py:CobwebNode.cu_for_merge", "concept_formation/cobweb.py:CobwebNode.cu_for_split", "concept_formation/cobweb.py:CobwebNode.cu_for_fringe_split", "concept_formation/cobweb.py:CobwebNode.category_utility"]}
{"id": "C13", "title": "expected_correct_guesses is a probability", "statement": "For every concept built from at least one instance with a visible attribute, CobwebNode.expected_correct_guesses lies in (0,1], and is 1 exactly when every visible attribute has one value occurring in all instances.", "quantifier": "every multiset of instances", "why_tests_cant": "Bound over all tables.", "anchors": ["concept_formation/cobweb.py:CobwebNode.expected_correct_guesses"]}
{"id": "C14", "title": "Category utility of a partition is never negative", "statement": "For every concept whose children partition it (C02) and whose instances have visible attributes, 0 <= category_utility <= 1/n for n children.", "quantifier": "every partitioned concept", "why_tests_cant": "A convexity fact over all tables, and it involves the per-concept attribute-count normalisation.", "anchors": ["concept_formation/cobweb.py:CobwebNode.category_utility"]}
{"id": "C15", "title": "Concept probabilities form a distribution", "statement": "For every non-empty concept and attribute: probability(attr, v) is in [0,1]; get_weighted_values(attr) has non-negative weights summing to 1; the weight listed for a value equals probability(attr, value), with None standing for 'missing'.", "quantifier": "every concept reachable by fitting, every attribute", "why_tests_cant": "Universally quantified numeric identity.", "anchors": ["concept_formation/cobweb.py:CobwebNode.probability", "concept_formation/cobweb.py:CobwebNode.get_weighted_values"]}
{"id": "C16", "title": "predict returns a value the concept supports", "statement": "With 'most likely', predict returns a value of maximal probability; with 'sampled' it never returns a value of probability 0; with allow_none=False it never returns None for an attribute the concept knows.", "quantifier": "every concept, attribute, random draw", "why_tests_cant": "Depends on the random draw and all ties.", "anchors": ["concept_formation/cobweb.py:CobwebNode.predict", "concept_formation/utils.py:most_likely_choice", "concept_formation/utils.py:weighted_choice"]}
{"id": "C17", "title": "infer_missing only adds", "statement": "infer_missing returns an instance that agrees with the input on every input attribute; every added attribute/value pair is known to the concept it was categorised to; with allow_none=False every attribute of that concept is filled in; the tree and the input are unchanged.", "quantifier": "every reachable tree, instance, choice function and random stream", "why_tests_cant": "Quantifies over all trees and draws.", "anchors": ["concept_formation/cobweb.py:CobwebTree.infer_missing"]}
{"id": "C18", "title": "log_likelihood of a contained leaf is defined and non-positive", "statement": "For every concept of a reachable tree and every leaf below it, log_likelihood(leaf) raises nothing (log is never applied to 0) and is <= 0.", "quantifier": "every reachable tree, every concept/leaf pair", "why_tests_cant": "Needs the partition invariant for all trees.", "anchors": ["concept_formation/cobweb.py:CobwebNode.log_likelihood", "concept_formation/cluster.py:AIC", "concept_formation/cluster.py:BIC"]}
{"id": "C19", "title": "Rejected instances leave no trace, accepted ones are fitted as they are", "statement": "If an instance has an attribute that is unhashable or not subscriptable (or empty), or a value that is unhashable or None, then ifit, categorize and infer_missing raise ValueError and the tree is unchanged. An instance without such attributes and values is accepted: ifit adds one instance with exactly these pairs to the tree, categorize adds nothing.", "quantifier": "every tree and every such instance", "why_tests_cant": "All positions of the offending attribute in the instance.", "anchors": ["concept_formation/cobweb.py:CobwebTree._sanity_check_instance", "concept_formation/cobweb.py:CobwebTree.ifit"]}
{"id": "C20", "title": "Fitting valid instances never raises", "statement": "If every fitted instance has at least one visible attribute and no two random() draws coincide, every ifit and categorize returns normally.", "quantifier": "every history of such instances, every random stream without coincidences", "why_tests_cant": "Absence of exceptions on all inputs.", "anchors": ["concept_formation/cobweb.py:CobwebTree.ifit", "concept_formation/cobweb.py:CobwebTree.cobweb", "concept_formation/cobweb.py:CobwebNode.expected_correct_guesses"]}
{"id": "C21", "title": "An ifit that raises leaves the tree as it was, unless two random draws coincide", "statement": "If ifit raises and no two random() draws coincide, the tree is left exactly as it was before the call, even when earlier instances had no visible attribute. When draws may coincide the code does not guarantee this: a tie in utility and draw makes Python compare two nodes, a TypeError, after ancestors were already incremented.", "quantifier": "every history, including instances without visible attributes", "why_tests_cant": "The failing histories are specific; exception safety is about every abort point.", "anchors": ["concept_formation/cobweb.py:CobwebTree.cobweb", "concept_formation/cobweb.py:CobwebNode.expected_correct_guesses"]}
{"id": "C22", "title": "Concept names are unique and never reused", "statement": "Within a tree no two concepts have the same concept_id, and a concept created later never takes an id used before (also not one used by a temporary copy).", "quantifier": "every finite history of instances fitted into a fresh tree, every stream of values returned by random(), every number system used for the category-utility arithmetic (so also IEEE floats with rounding)", "why_tests_cant": "Uniqueness over all histories.", "anchors": ["concept_formation/cobweb.py:CobwebNode.gensym", "concept_formation/cobweb.py:CobwebNode.__init__"]}
{"id": "C23", "title": "Tree queries agree with the tree", "statement": "num_concepts() of the root is the number of concepts reachable through children; depth() is the number of edges to the root; a.is_parent(b) holds exactly when a is b or an ancestor of b.", "quantifier": "every reachable tree and concepts in it", "why_tests_cant": "Relates three independent traversals over all trees.", "anchors": ["concept_formation/cobweb.py:CobwebNode.num_concepts", "concept_formation/cobweb.py:CobwebNode.depth", "concept_formation/cobweb.py:CobwebNode.is_parent"]}
{"id": "C24", "title": "fit is order-independent at the root", "statement": "fit(instances, iterations=k, randomize_first=b) adds exactly k copies of each instance: the root's count grows by k*len(instances) and its table by k times the histogram, whatever the shuffles; the caller's list is not modified. This holds for fit on any tree, new or not, of CobwebTree and of Cobweb3Tree (numbers included); for TrestleTree the root's count grows by k*len(instances). If an ifit raises, fit stops there with that exception, and the tree is the one after the calls made so far. Without randomize_first the first pass is in the given order.", "quantifier": "every list, k, flag, and every sequence of permutations used by shuffle", "why_tests_cant": "All permutations.", "anchors": ["concept_formation/cobweb.py:CobwebTree.fit"]}
{"id": "C25", "title": "clear forgets everything", "statement": "After clear() the tree behaves as a newly constructed one (up to concept ids and random draws): same counts and shape for every later history. Cobweb3 and Trestle also forget attribute scales and the symbol counter.", "quantifier": "every prior history and every later history", "why_tests_cant": "Behavioural equivalence over all futures.", "anchors": ["concept_formation/cobweb.py:CobwebTree.clear", "concept_formation/cobweb3.py:Cobweb3Tree.clear", "concept_formation/trestle.py:TrestleTree.clear"]}
{"id": "C26", "title": "Hidden attributes never influence concept formation", "statement": "Two histories whose instances agree on visible attributes produce, with the same random draws, trees of the same shape and ids with the same visible tables, and categorize picks the same concept.", "quantifier": "every pair of histories differing only in hidden attributes; every number system", "why_tests_cant": "A two-run (non-interference) property.", "anchors": ["concept_formation/cobweb.py:CobwebNode.attrs", "concept_formation/cobweb.py:CobwebNode.is_exact_match", "concept_formation/cobweb.py:CobwebNode.expected_correct_guesses"]}
{"id": "C27", "title": "ContinuousValue computes the exact mean and sum of squared deviations", "statement": "After update_batch(xs) on a fresh ContinuousValue: num = len(xs), mean = arithmetic mean of xs and meanSq = sum of (x-mean)^2.", "quantifier": "every list of numbers, over exact arithmetic", "why_tests_cant": "Incremental algorithm against closed form for all lists.", "anchors": ["concept_formation/continuous_value.py:ContinuousValue.update", "concept_formation/continuous_value.py:ContinuousValue.update_batch"]}
{"id": "C28", "title": "combine equals concatenation", "statement": "If two ContinuousValues summarise xs and ys (not both empty), combining them yields the summary of xs++ys; so combine is commutative and associative, and update order is irrelevant.", "quantifier": "every pair/triple of lists, every permutation, exact arithmetic", "why_tests_cant": "Algebraic identity over all lists.", "anchors": ["concept_formation/continuous_value.py:ContinuousValue.combine"]}
{"id": "C29", "title": "Standard deviation estimates are well defined", "statement": "biased_std of a non-empty summary and unbiased_std of any summary raise nothing, are >= 0, are 0 exactly when all values are equal, and biased_std squared is the population variance; scaled variants treat scale <= 0 as 1.", "quantifier": "every list of numbers", "why_tests_cant": "Requires that meanSq can never become negative and that the c4 table covers every count.", "anchors": ["concept_formation/continuous_value.py:ContinuousValue.biased_std", "concept_formation/continuous_value.py:ContinuousValue.unbiased_std", "concept_formation/utils.py:c4"]}
{"id": "C30", "title": "The c4 correction table is correct", "statement": "c4(n) is defined for every integer n>=2, lies in (0,1], never decreases, and for 2<=n<=29 agrees with sqrt(2/(n-1))*Gamma(n/2)/Gamma((n-1)/2) to 3e-16; for n<=1 it raises ValueError.", "quantifier": "every integer n", "why_tests_cant": "Agreement with a transcendental closed form; monotone over all n.", "anchors": ["concept_formation/utils.py:c4", "concept_formation/utils.py:c4n_table"]}
{"id": "C31", "title": "Cobweb/3 tables summarise the history exactly", "statement": "After any history of ifit on a Cobweb3Tree, the root's entry for a numeric attribute has the number, mean and sum of squared deviations of all values fitted for it, the nominal entries are exact counts, and each concept's numeric summary is the combination of its children's.", "quantifier": "every history of instances with nominal and numeric values, every random stream, exact arithmetic for the summaries", "why_tests_cant": "All histories and restructurings; combine is used on merge and copy.", "anchors": ["concept_formation/cobweb3.py:Cobweb3Node.increment_counts", "concept_formation/cobweb3.py:Cobweb3Node.update_counts_from_node", "concept_formation/cobweb3.py:Cobweb3Tree.cobweb"]}
{"id": "C32", "title": "Cobweb/3 expected_correct_guesses is a probability", "statement": "With the acuity noise term, each numeric attribute contributes at most P(attr)^2 and Cobweb3Node.expected_correct_guesses lies in (0,1], with or without scaling and inner-attribute scaling, also for attributes having both nominal and numeric values.", "quantifier": "every concept table, every scaling setting", "why_tests_cant": "Real-analysis bound over all tables.", "anchors": ["concept_formation/cobweb3.py:Cobweb3Node.expected_correct_guesses"]}
{"id": "C33", "title": "Cobweb/3 numeric probability is in [0,1]", "statement": "Cobweb3Node.probability(attr, x) for numeric x lies in [0, P(attr is numeric)] and is largest at the concept's mean.", "quantifier": "every concept table, every number x, every scaling", "why_tests_cant": "Bound over a continuum.", "anchors": ["concept_formation/cobweb3.py:Cobweb3Node.probability"]}
{"id": "C34", "title": "integral_of_gaussian_product is a symmetric score in (0,1]", "statement": "For all summaries a,b: a.integral_of_gaussian_product(b) = b.integral_of_gaussian_product(a), lies in (0,1], and equals 1 for two summaries with zero spread and equal means.", "quantifier": "every pair of ContinuousValues", "why_tests_cant": "Continuum of inputs.", "anchors": ["concept_formation/continuous_value.py:ContinuousValue.integral_of_gaussian_product"]}
{"id": "C35", "title": "Cobweb/3 leaves only hold identical instances", "statement": "In every reachable Cobweb3Tree, all instances summarised in a leaf have identical visible attributes, nominal and numeric (mean equals the common number and the spread is 0).", "quantifier": "every history, every random stream, exact arithmetic", "why_tests_cant": "Invariant over all histories.", "anchors": ["concept_formation/cobweb3.py:Cobweb3Node.is_exact_match"]}
{"id": "C36", "title": "Nominal values cannot be confused with numeric summaries", "statement": "Fitting nominal values never disturbs numeric summaries. The code violates this for the string '#ContinuousValue#', which collides with the internal table key.", "quantifier": "every nominal value, including the reserved string", "why_tests_cant": "A single poisoned value among infinitely many.", "anchors": ["concept_formation/cobweb3.py:cv_key", "concept_formation/cobweb3.py:Cobweb3Node.increment_counts"]}
{"id": "C37", "title": "Numeric scaling is unit-free", "statement": "With scaling on, changing the unit of numeric attributes (multiplying by a positive constant and shifting, per inner attribute) leaves the tree grown, every expected_correct_guesses, hence all category utilities, and the concept categorize returns unchanged, as long as each categorized number was seen or the numbers seen under its inner attribute are not all equal. Without that proviso the code violates it for categorize.", "quantifier": "every sequence of calls, every positive factor and shift per attribute, exact arithmetic", "why_tests_cant": "Continuum of unit changes.", "anchors": ["concept_formation/cobweb3.py:Cobweb3Node.expected_correct_guesses", "concept_formation/cobweb3.py:Cobweb3Tree.update_scales"]}
{"id": "C38", "title": "Scales are available when needed", "statement": "In every reachable Cobweb3Tree, every attribute with a numeric summary in any concept has an entry in the tree's attribute scales, so probability never raises KeyError; the entry summarises all numeric values fitted under the inner attribute.", "quantifier": "every history", "why_tests_cant": "All histories.", "anchors": ["concept_formation/cobweb3.py:Cobweb3Tree.update_scales", "concept_formation/cobweb3.py:Cobweb3Tree.get_inner_attr", "concept_formation/cobweb3.py:Cobweb3Node.probability"]}
{"id": "C39", "title": "weighted_choice samples in proportion to weight", "statement": "For r drawn from [0,total): option k is returned exactly when r lies in [w0+..+w(k-1), w0+..+wk), an interval of length wk; an option of weight 0 is never returned; the call raises only for empty or negative input or r>=total.", "quantifier": "every list of choices and every r", "why_tests_cant": "All r in a continuum.", "anchors": ["concept_formation/utils.py:weighted_choice"]}
{"id": "C40", "title": "most_likely_choice returns a maximal option", "statement": "most_likely_choice returns an option with maximal weight, breaking ties by the random draw; it raises ValueError on empty input or any negative weight.", "quantifier": "every list of choices, every random stream", "why_tests_cant": "All orders and ties.", "anchors": ["concept_formation/utils.py:most_likely_choice"]}
{"id": "C41", "title": "Tuplizer round trip", "statement": "Tuplizer.undo_transform(Tuplizer.transform(i)) = i when string relations are in canonical form (single spaces, no leading nested relation, no numeric tokens); in general it is not (numeric tokens make undo raise, '((a b) c)' is misparsed, '()' raises IndexError).", "quantifier": "every instance in the class; witnesses outside", "why_tests_cant": "All nesting shapes.", "anchors": ["concept_formation/preprocessor.py:Tuplizer._tuplize_relation", "concept_formation/preprocessor.py:Tuplizer._stringify_relation"]}
{"id": "C42", "title": "NameStandardizer renames apart consistently and can be undone", "statement": "transform replaces every variable name by a fresh generated name, the same name for the same variable, different names for different variables, changes nothing else; undo_transform restores the instance when every variable attribute holds a component or list. In general undo does not restore variable attributes with nominal or numeric values, nor relations with component values.", "quantifier": "every nested instance; witnesses for the failures", "why_tests_cant": "All nested instances.", "anchors": ["concept_formation/preprocessor.py:NameStandardizer.transform", "concept_formation/preprocessor.py:NameStandardizer.undo_transform", "concept_formation/preprocessor.py:rename_relation"]}
{"id": "C43", "title": "Flattener round trip", "statement": "For nested instances with string attributes, no empty component and no component attribute named '_', Flattener.undo_transform(Flattener.transform(i)) = i, and distinct leaf paths get distinct flat attributes. Without the restrictions data is lost (empty components) or changed.", "quantifier": "every nested instance of any depth; witnesses outside the class", "why_tests_cant": "All nesting depths.", "anchors": ["concept_formation/preprocessor.py:Flattener._flatten", "concept_formation/preprocessor.py:Flattener._structurize", "concept_formation/preprocessor.py:Flattener._get_path"]}
{"id": "C44", "title": "Hidden components stay hidden when flattened", "statement": "Attributes inside a hidden component ('_x': {...}) are still ignored by concept formation after flattening. The code violates this.", "quantifier": "every nested instance", "why_tests_cant": "The violation only shows for components, which no test exercises.", "anchors": ["concept_formation/preprocessor.py:Flattener._flatten", "concept_formation/cobweb.py:CobwebNode.attrs"]}
{"id": "C45", "title": "Pipelines compose and undo in reverse", "statement": "If each stage's undo inverts its transform then the Pipeline's undo_transform inverts its transform; one-way preprocessors' undo is the identity.", "quantifier": "every list of preprocessors and every instance", "why_tests_cant": "All lengths and compositions.", "anchors": ["concept_formation/preprocessor.py:Pipeline"]}
{"id": "C46", "title": "ListProcessor round trip", "statement": "Extracting list elements and converting lists to relations, then undoing, restores the instance for non-empty lists, also when the attributes come back in another order; in general it does not (empty lists come back as empty components, partial orders raise although the documentation says they are left alone). The relations of a list are, for each element and the next, one with the two texts, and for each element one with the element itself, and nothing else.", "quantifier": "every nested instance with lists in the class; witnesses outside", "why_tests_cant": "All nestings of lists and components.", "anchors": ["concept_formation/preprocessor.py:ExtractListElements", "concept_formation/preprocessor.py:ListsToRelations", "concept_formation/preprocessor.py:ListProcessor"]}
{"id": "C47", "title": "SubComponentProcessor round trip", "statement": "For flattened instances whose variables each have a single occurrence path made of variables, pulling sub-components to the top level with has-component relations can be undone exactly; it is not when the parent is a constant.", "quantifier": "every flattened instance in the class; witnesses outside", "why_tests_cant": "All nesting depths.", "anchors": ["concept_formation/preprocessor.py:SubComponentProcessor"]}
{"id": "C48", "title": "Structure mapping never merges two components", "statement": "Every mapping the structure mapper can return maps distinct components of the target to distinct names, each either itself or a component of the base, and the set of unmapped base components is exactly the complement of the image. Where a mapping does merge attributes, renaming keeps the value of the last one.", "quantifier": "every target, base, every optimal assignment returned by the assignment solver, every number of hill-climbing steps with any acceptance decisions", "why_tests_cant": "All search trajectories.", "anchors": ["concept_formation/structure_mapper.py:hungarian_mapping", "concept_formation/structure_mapper.py:StructureMappingOptProblem.successors", "concept_formation/structure_mapper.py:StructureMappingOptProblem.swap_two", "concept_formation/structure_mapper.py:StructureMappingOptProblem.swap_unnamed", "concept_formation/structure_mapper.py:flat_match"]}
{"id": "C49", "title": "Structure mapping renames without losing data and can be undone", "statement": "StructureMapper.transform keeps every value (no two attributes collide) and undo_transform(transform(i)) = i.", "quantifier": "every flat instance and base with disjoint variables", "why_tests_cant": "All instances and all mappings.", "anchors": ["concept_formation/structure_mapper.py:rename_flat", "concept_formation/structure_mapper.py:StructureMapper.transform", "concept_formation/structure_mapper.py:StructureMapper.undo_transform", "concept_formation/preprocessor.py:rename_relation"]}
{"id": "C50", "title": "TRESTLE never hits the name collision exception", "statement": "In a TrestleTree, the variables of a newly standardised instance never occur in the root's table, so flat_match never raises 'Objects in target and base must not collide'.", "quantifier": "every history of ifit/categorize/infer_missing calls", "why_tests_cant": "All histories of interleaved calls.", "anchors": ["concept_formation/trestle.py:TrestleTree.gensym", "concept_formation/trestle.py:TrestleTree.trestle", "concept_formation/structure_mapper.py:flat_match", "concept_formation/preprocessor.py:NameStandardizer"]}
{"id": "C51", "title": "cluster does not touch the caller's tree and yields refining labelings", "statement": "cluster/cluster_iter leave the given tree unchanged; each yielded labeling has one label per instance; each later labeling refines the earlier one; all labels of one labeling are concepts directly below the root (or the root itself).", "quantifier": "every tree, instances, heuristic, split order", "why_tests_cant": "All heuristics and trees.", "anchors": ["concept_formation/cluster.py:cluster_iter", "concept_formation/cluster.py:cluster"]}
{"id": "C52", "title": "k_cluster returns at most k clusters", "statement": "k_cluster(tree, instances, k) returns a labeling with at most k distinct labels for every k>=2. The code violates this: it raises TypeError.", "quantifier": "every tree, instances, k", "why_tests_cant": "The defect is independent of data; but the property quantifies over all.", "anchors": ["concept_formation/cluster.py:k_cluster", "concept_formation/cluster.py:cluster_iter"]}
{"id": "C53", "title": "minsplit selects a later clustering", "statement": "cluster(..., minsplit=m, maxsplit=n) yields the clusterings after m..n splits. The code violates this for every m>=2: nothing is yielded.", "quantifier": "every tree, instances, m>=2", "why_tests_cant": "For-all over parameters.", "anchors": ["concept_formation/cluster.py:cluster_iter", "concept_formation/cluster.py:cluster_split_search"]}
{"id": "C54", "title": "depth_labels is a rectangular refinement chain", "statement": "depth_labels returns rows of equal length (one entry per instance); the first row is constant (the root); each row refines the previous; the last row labels each instance with its leaf.", "quantifier": "every reachable tree and instance list", "why_tests_cant": "All trees.", "anchors": ["concept_formation/cluster.py:depth_labels"]}
{"id": "C55", "title": "incremental_evaluation tests before it trains", "statement": "Each score in a run is computed on a tree that has been trained with exactly the preceding instances of that run; the instance given to the scorer never contains the predicted attribute (unless that value is None).", "quantifier": "every tree implementation, instances, run length, shuffles", "why_tests_cant": "All runs and shuffles.", "anchors": ["concept_formation/evaluation.py:incremental_evaluation", "concept_formation/evaluation.py:probability", "concept_formation/evaluation.py:error"]}
{"id": "C56", "title": "incremental_evaluation table has run_length columns", "statement": "Each row of the returned table has run_length entries. The code violates this: rows have min(len(instances), run_length+2) entries.", "quantifier": "every run length and instance list", "why_tests_cant": "For-all over lengths.", "anchors": ["concept_formation/evaluation.py:incremental_evaluation"]}
{"id": "C57", "title": "num_instances limits the number of loaded instances", "statement": "load_*(num_instances=n) returns at most n instances. The code violates this: it returns n+1 when the file has that many.", "quantifier": "every n and every file", "why_tests_cant": "For-all over n.", "anchors": ["concept_formation/datasets.py:_load_json"]}
{"id": "C58", "title": "visualize_clusters trims at the given clusters", "statement": "The exported tree stops at the concepts of the clustering, whether given as labels or as concept nodes. For nodes the code violates this: names never match, so nothing is trimmed. Trimming leaves keeps exactly the internal concepts and the root.", "quantifier": "every tree and clustering", "why_tests_cant": "All trees.", "anchors": ["concept_formation/visualize.py:visualize_clusters", "concept_formation/visualize.py:_trim_to_clusters", "concept_formation/visualize.py:_trim_leaves"]}
{"id": "C59", "title": "DummyTree always predicts from the overall histogram", "statement": "After any history, DummyTree.categorize returns the root for every instance and the root is the histogram of all instances.", "quantifier": "every history and instance", "why_tests_cant": "All histories.", "anchors": ["concept_formation/dummy.py:DummyTree"]}
{"id": "C60", "title": "NumericToNominal, NominalToNumeric and Sanitizer produce what they promise", "statement": "NumericToNominal leaves no numeric value among its targets, at any depth, and changes nothing else. NominalToNumeric, at any depth, turns every target into float of its value, drops or zeroes strings that are no numbers if asked to, changes nothing else, and otherwise raises the error of some target: ValueError (only with 'break') or TypeError (always). Sanitizer('cobweb') output always passes the sanity check of the tree when no attribute is empty and no value is None. Sanitizer('trestle') leaves only strings and tuples of them as attributes and no lists as values, makes nothing up, loses nothing unless two attributes are spelled alike, and changes nothing the second time.", "quantifier": "every instance", "why_tests_cant": "All value types.", "anchors": ["concept_formation/preprocessor.py:NumericToNominal", "concept_formation/preprocessor.py:NominalToNumeric", "concept_formation/preprocessor.py:Sanitizer"]}
{"id": "C61", "title": "ObjectVariablizer renames relations together with objects", "statement": "When an object attribute is variablized to '?'+name, relations mentioning the object are renamed accordingly. The code violates this: the mapping used for relations is always empty.", "quantifier": "every instance", "why_tests_cant": "Documented behaviour over all instances.", "anchors": ["concept_formation/preprocessor.py:ObjectVariablizer"]}
{"id": "C62", "title": "Cobweb/3 trees keep the structural guarantees of Cobweb trees", "statement": "ifit and categorize on a Cobweb3Tree terminate, the hierarchy stays a proper tree in which internal concepts have at least two children, categorize is read-only and ends in a leaf, ifit changes only the path it took, ids are never reused, and rejected instances leave no trace. An accepted instance is fitted as the pairs it consists of: one more occurrence of each nominal value, one more number under each numeric attribute.", "quantifier": "every history of nominal/numeric instances, every random stream, every number system (so also IEEE doubles)", "why_tests_cant": "All histories, all random streams.", "anchors": ["concept_formation/cobweb3.py:Cobweb3Tree.ifit", "concept_formation/cobweb3.py:Cobweb3Tree.cobweb", "concept_formation/cobweb.py:CobwebTree.cobweb"]}
{"id": "C63", "title": "Fitting valid instances into a Cobweb3Tree never raises", "statement": "If every instance has a visible attribute and avoids the reserved string, and no two random() draws coincide, every ifit and categorize of a Cobweb3Tree returns normally.", "quantifier": "every history of such instances, every scaling setting, exact arithmetic", "why_tests_cant": "Absence of exceptions on all inputs.", "anchors": ["concept_formation/cobweb3.py:Cobweb3Node.expected_correct_guesses", "concept_formation/cobweb3.py:Cobweb3Tree.cobweb"]}
{"id": "C64", "title": "Cobweb/3 extends Cobweb", "statement": "On purely nominal instances (without the reserved string) Cobweb3Tree behaves exactly as CobwebTree: same results, same shape and ids, same counts.", "quantifier": "every sequence of calls with nominal instances, every random stream, every number system", "why_tests_cant": "A two-program equivalence over all runs.", "anchors": ["concept_formation/cobweb3.py:Cobweb3Node", "concept_formation/cobweb.py:CobwebNode"]}
{"id": "C65", "title": "Cobweb/3 ifit returns a leaf describing the instance, and leaves persist", "statement": "The concept ifit returns is a leaf whose visible entries are exactly those of copies of the instance (numbers: mean = the number, spread 0); later calls other than clear keep every leaf, which at most gains more copies.", "quantifier": "every history, every random stream, exact arithmetic", "why_tests_cant": "Invariant over all histories.", "anchors": ["concept_formation/cobweb3.py:Cobweb3Node.is_exact_match", "concept_formation/cobweb3.py:Cobweb3Tree.cobweb"]}
{"id": "C66", "title": "Hidden attributes do not influence Cobweb/3, apart from shared scales", "statement": "Two runs that differ in hidden attributes only give the same results, shape and visible tables, provided no hidden number shares its inner attribute with a visible attribute (always so when inner-attribute scaling is off). Without the proviso the code violates it: the hidden '_t' changes the scale of the visible ('_t','o').", "quantifier": "every pair of runs, every number system", "why_tests_cant": "A two-run (non-interference) property.", "anchors": ["concept_formation/cobweb3.py:Cobweb3Tree.update_scales", "concept_formation/cobweb3.py:Cobweb3Tree.get_inner_attr", "concept_formation/cobweb.py:CobwebNode.attrs"]}
{"id": "C67", "title": "Incorporating an instance climbs by category utility", "statement": "At every concept visited while ifit descends, the operation taken (create a child, merge the two best, split the best, or descend into the best) has maximal category utility among the operations Cobweb considers there (with the documented tie breaking by order), and the resulting state is exactly the sequence of these operations.", "quantifier": "every reachable tree, every instance, every random stream, exact arithmetic", "why_tests_cant": "Quantifies over all trees and all descents; a test sees only final shapes.", "anchors": ["concept_formation/cobweb.py:CobwebTree.cobweb", "concept_formation/cobweb.py:CobwebNode.get_best_operation"]}
{"id": "C68", "title": "Categorize descends greedily", "statement": "categorize follows, from the root down to a leaf, the child with the greatest category utility for the instance, and changes nothing.", "quantifier": "every reachable tree, every instance", "why_tests_cant": "All trees and all paths.", "anchors": ["concept_formation/cobweb.py:CobwebTree._cobweb_categorize"]}
{"id": "C69", "title": "Cobweb/3 climbs and categorizes greedily as well", "statement": "The statements of C67 and C68 for Cobweb3Tree, with numeric attributes and scaling.", "quantifier": "every reachable tree, every instance, every scaling, exact arithmetic", "why_tests_cant": "All trees and all descents.", "anchors": ["concept_formation/cobweb3.py:Cobweb3Tree.cobweb", "concept_formation/cobweb3.py:Cobweb3Node.expected_correct_guesses"]}
{"id": "C70", "title": "Repeating one instance keeps one concept", "statement": "A tree has the root as its only concept exactly when all instances fitted since the last clear agree on their visible attributes; fitting such an instance again returns the root. In general fitting the same instance again need not return the same leaf: the code can hold one instance in two leaves.", "quantifier": "every history", "why_tests_cant": "The positive part is for all histories of any length; the negative part needs a seven-instance history.", "anchors": ["concept_formation/cobweb.py:CobwebTree.cobweb", "concept_formation/cobweb.py:CobwebNode.is_exact_match"]}
{"id": "C71", "title": "utils.mean and utils.std are the sample mean and the population standard deviation", "statement": "mean(values) is the sum divided by the number of values and std(values) the square root of the mean squared deviation from that mean; both raise ValueError exactly on an empty list.", "quantifier": "every list of real numbers", "why_tests_cant": "All lists of all lengths; tests compare a few lists.", "anchors": ["concept_formation/utils.py:mean", "concept_formation/utils.py:std"]}
{"id": "C72", "title": "What a Cobweb/3 concept predicts reflects the instances it covers", "statement": "For every concept of every Cobweb/3 tree: probability(attr, v) is the share of its instances with that nominal value (or none); get_weighted_values is a distribution over the values, 'number' and missing; without allow_none the missing case is left out and the rest renormalised; predict('most likely') returns a value held by the most instances, a number being the mean of the covered numbers; 'sampled' returns a value with positive share and with exactly that frequency in the uniform draw; with allow_none=False the answer is None only for attributes no instance has.", "quantifier": "every reachable tree, concept, attribute, random stream; exact arithmetic", "why_tests_cant": "Quantifies over all histories and all draws; a sampling frequency is never observed exactly.", "anchors": ["concept_formation/cobweb3.py:Cobweb3Node.probability", "concept_formation/cobweb3.py:Cobweb3Node.get_weighted_values", "concept_formation/cobweb3.py:Cobweb3Node.predict"]}
{"id": "C73", "title": "infer_missing on a Cobweb/3 tree only adds what the matched concept knows", "statement": "infer_missing keeps every attribute-value of the given instance, adds only visible attributes the matched leaf knows, never adds a missing value when allow_none is False, does not change the tree, and rejects instances with unhashable or non-string attributes without touching anything; it returns normally for every well-formed instance.", "quantifier": "every reachable tree, instance, choice function and arithmetic", "why_tests_cant": "All trees and instances, including failing ones.", "anchors": ["concept_formation/cobweb.py:CobwebTree.infer_missing", "concept_formation/cobweb3.py:Cobweb3Node.predict"]}
{"id": "C74", "title": "log_likelihood is the log-likelihood of the leaf's instance", "statement": "For a concept and a leaf below it, log_likelihood(leaf) is the sum over the attributes of ln of the share of the concept's instances that agree with the leaf's instance on it; for a number, the share with a number times the normal density (mean and corrected std of the concept's numbers, widened by 1/(2 pi)) at the leaf's number. It is defined and at most 0.", "quantifier": "every reachable tree, every concept and leaf below it, every enumeration order of the sets; exact arithmetic", "why_tests_cant": "All trees; the code loops over pairs of values and only one pair per attribute contributes.", "anchors": ["concept_formation/cobweb.py:CobwebNode.log_likelihood", "concept_formation/cobweb3.py:Cobweb3Node.log_likelihood"]}
{"id": "C75", "title": "A TrestleTree is a Cobweb/3 tree of structure mapped instances", "statement": "What ifit counts is the instance after standardising, flattening and extracting components, with its components renamed one-to-one; the tree is a proper hierarchy and its root's counts are those of the mapped instances since the last clear.", "quantifier": "every history of TrestleTree calls, including failing ones; every answer of the searches; any arithmetic", "why_tests_cant": "All histories, all mappings the search could return.", "anchors": ["concept_formation/trestle.py:TrestleTree.trestle", "concept_formation/structure_mapper.py:StructureMapper.transform", "concept_formation/cobweb3.py:Cobweb3Tree.cobweb"]}
{"id": "C76", "title": "Fitting sensible instances into a TrestleTree never raises", "statement": "If every fitted instance has non-empty attribute names without numbers, a visible attribute, and strings, numbers or other hashable values at its leaves, and no two random() draws coincide, then every ifit and every categorize of a TrestleTree returns normally.", "quantifier": "every history, every answer of the searches, every scaling setting, exact arithmetic", "why_tests_cant": "Absence of exceptions in all histories.", "anchors": ["concept_formation/trestle.py:TrestleTree.ifit", "concept_formation/trestle.py:TrestleTree.categorize", "concept_formation/structure_mapper.py:flat_match", "concept_formation/structure_mapper.py:mapping_cost"]}
{"id": "C77", "title": "The whole TRESTLE pipeline can be undone", "statement": "If the pipeline of TrestleTree (NameStandardizer, Flattener, SubComponentProcessor, StructureMapper) transforms an instance of components with names of their own, plain attributes and relations between components of the top level, then undoing it gives the instance back, up to the order of dictionaries, whatever mapping was chosen; the only exception possible is a RecursionError. (A relation that names a component inside another component is not restored.)", "quantifier": "every such instance, of any depth; every tree state, symbol counter and answer of the searches; any arithmetic", "why_tests_cant": "All instances and all mappings.", "anchors": ["concept_formation/trestle.py:TrestleTree.infer_missing", "concept_formation/preprocessor.py:Pipeline.undo_transform", "concept_formation/structure_mapper.py:StructureMapper.undo_transform", "concept_formation/preprocessor.py:SubComponentProcessor.undo_transform"]}
{"id": "C78", "title": "What infer_missing of a TrestleTree keeps of the instance", "statement": "TrestleTree.infer_missing does not change the tree. Before the preprocessors are undone it only adds values that the leaf has seen. If the instance consists of objects and uses no name that the tree has generated, the returned instance has each attribute of the given instance itself and each component's attributes, with their values; all are where they were if the concept has no other owner for a component of the instance, in particular if no component inside a component was ever fitted. Without these conditions it fails: a component named like a generated name is merged with an inferred one and loses its value, and a component can be moved into another one.", "quantifier": "every history, instance, choice function, recursion limit and answer of the searches; witnesses for the refuted parts", "why_tests_cant": "All trees, nested instances and structure mappings.", "anchors": ["concept_formation/trestle.py:TrestleTree.infer_missing", "concept_formation/preprocessor.py:NameStandardizer.undo_transform", "concept_formation/preprocessor.py:SubComponentProcessor.undo_transform", "concept_formation/preprocessor.py:Flattener.undo_transform", "concept_formation/structure_mapper.py:StructureMapper.undo_transform"]}
{"id": "C79", "title": "incremental_evaluation returns a table on sensible instances", "statement": "On a tree that has only been fitted and queried, incremental_evaluation with the default score returns a table when every instance has the predicted attribute and another visible one. (Without the first part it fails: if the first instance of a run lacks the attribute, the score of the empty tree divides by zero.)", "quantifier": "every history, list of instances, run length, number of runs, shuffle and stream of distinct random draws", "why_tests_cant": "All histories, instance lists and shuffles.", "anchors": ["concept_formation/evaluation.py:incremental_evaluation", "concept_formation/evaluation.py:probability", "concept_formation/cobweb.py:CobwebNode.probability"]}
{"id": "C80", "title": "The default evaluation score on a CobwebTree is 0 or 1", "statement": "On a CobwebTree the default score of a visible attribute is 1 if the leaf that the instance without the attribute is sorted to has exactly this value, and 0 otherwise.", "quantifier": "every history, instance, attribute and value", "why_tests_cant": "All trees and instances; depends on what a leaf can hold.", "anchors": ["concept_formation/evaluation.py:probability", "concept_formation/cobweb.py:CobwebNode.probability"]}
{"id": "C81", "title": "DummyTree handles numeric values", "statement": "On a DummyTree the probability of a number can be asked from the concept that categorize returns, and instances with numbers can be fitted with structure mapping. The code violates both: the attribute scaling is never set, so AttributeError is raised. As long as no numbers occur, it maps an instance exactly as a TrestleTree whose root has the same table would.", "quantifier": "every history, attribute and number", "why_tests_cant": "Any history in which the attribute had a number.", "anchors": ["concept_formation/dummy.py:DummyTree.__init__", "concept_formation/cobweb3.py:Cobweb3Node.probability", "concept_formation/cobweb3.py:Cobweb3Node.expected_correct_guesses"]}
{"id": "C82", "title": "A DummyTree.ifit that raises leaves no trace", "statement": "If DummyTree.ifit raises, the counts are as before. This holds for failures of the preprocessing; the code violates it for values that cannot be counted (such as a list): the instance has already been counted, as there is no sanity check.", "quantifier": "every state, instance and mode", "why_tests_cant": "All failing instances.", "anchors": ["concept_formation/dummy.py:DummyTree.ifit", "concept_formation/cobweb3.py:Cobweb3Node.increment_counts"]}
{"id": "C83", "title": "The error scores compare the given value with the value of the matched leaf", "statement": "error, absolute_error and squared_error of evaluation.py compare the value given with the one value that all instances of the leaf share to which the instance without the attribute is sorted: the difference (its absolute value, its square) for numbers, 0 or 1 for other values (equal or not), an exception if exactly one of the two is missing and the other is a number. The random numbers drawn by the prediction do not matter.", "quantifier": "every history, instance, visible attribute, given value, random stream (exact arithmetic)", "why_tests_cant": "All trees, instances and random streams.", "anchors": ["concept_formation/evaluation.py:error", "concept_formation/evaluation.py:absolute_error", "concept_formation/evaluation.py:squared_error", "concept_formation/cobweb.py:CobwebNode.predict", "concept_formation/cobweb3.py:Cobweb3Node.predict"]}
{"id": "C84", "title": "The error scores can be used in incremental_evaluation", "statement": "incremental_evaluation with error, absolute_error or squared_error returns a table when every instance has the attribute, for nominal and numeric attributes. The code violates it for numbers: the first score of each run asks the empty tree, whose prediction is missing, and the score raises. For an attribute without numbers it returns a table of 0s and 1s.", "quantifier": "every history, list of instances, shuffle, run length; the raising part for every arithmetic", "why_tests_cant": "All histories, instance lists, arithmetics and shuffles.", "anchors": ["concept_formation/evaluation.py:incremental_evaluation", "concept_formation/evaluation.py:error"]}
{"id": "C85", "title": "The clustering heuristic CU is minus the category utility of the partition", "statement": "CU(clusters, leaves) is minus the category utility of the partition, by the clusters, of the instances held by the leaves (computed from the instances alone, not from the tables), and lies in (-1/k, 0] for k clusters; every leaf is counted as often as it is listed, so that CU is not the utility of the clustered instances when two of them share a leaf.", "quantifier": "every history, sequence of splits, list of leaves, antichain of concepts above them, enumeration order of sets (exact arithmetic); witness for the last part", "why_tests_cant": "All trees and clusterings.", "anchors": ["concept_formation/cluster.py:CU", "concept_formation/cobweb.py:CobwebNode.category_utility", "concept_formation/cobweb.py:CobwebNode.expected_correct_guesses"]}
{"id": "C86", "title": "AIC, AICc and BIC score a clustering by its likelihood and its parameters", "statement": "For the clusters and leaves that cluster_iter passes, with x the sum over the leaves of the logarithm of the likelihood of the leaf's instance in its cluster (a number of instances that agree, or a normal density, over the number of instances) and k the number of visible attribute values that occur in the distinct clusters (numbers of an attribute count 2): AIC = 2k - 2x, AICc = AIC + 2k(k+1)/(n-k-1) or infinity if n <= k+1, BIC = k ln n - 2x; x <= 0; the tree is not changed; cluster_iter with these heuristics never raises. k is not what the documentation says (values in the root times clusters).", "quantifier": "every history, sequence of splits, clustering, enumeration order of sets, Cobweb and Cobweb/3 (exact arithmetic); witness for the last part", "why_tests_cant": "All trees and clusterings.", "anchors": ["concept_formation/cluster.py:AIC", "concept_formation/cluster.py:AICc", "concept_formation/cluster.py:BIC", "concept_formation/cluster.py:cluster_iter"]}
{"id": "C87", "title": "is_partial_match says whether a mapping can be completed", "statement": "For attributes whose names are non-empty strings: if some completion of the mapping (names of the concept's variables for unmapped variables) turns the relation into the concept's attribute, is_partial_match answers True; if it answers True and no unmapped variable occurs twice, there is such a completion; it never raises on them. With a variable that occurs twice it can answer True though no mapping makes them equal. contains_component says exactly whether the name occurs, and binding a name that does not occur changes nothing.", "quantifier": "every mapping, relation of any nesting, concept attribute; witness for the refuted part", "why_tests_cant": "All nested relations and all partial mappings.", "anchors": ["concept_formation/structure_mapper.py:is_partial_match", "concept_formation/structure_mapper.py:bind_flat_attr", "concept_formation/structure_mapper.py:contains_component"]}
{"id": "C88", "title": "A random successor of a mapping is one of its successors", "statement": "Whatever is drawn, the state that random_successor returns is one of those successors yields, so it keeps the invariant of the search (a one-to-one mapping of the instance's components, the rest of the base unmapped). With a component of the base unmapped it returns for every draw in (0,1); without one it returns as soon as a mapped component is drawn and another one is mapped. It does not always return: with every component keeping its name and nothing unmapped it loops forever for all draws, with just one mapped and nothing unmapped it raises ZeroDivisionError, and a random() of 0 can raise IndexError.", "quantifier": "every state and sequence of draws; any arithmetic for the first part, exact arithmetic for the rest; witnesses for the refuted parts", "why_tests_cant": "All sequences of draws, including infinite ones.", "anchors": ["concept_formation/structure_mapper.py:random_successor", "concept_formation/structure_mapper.py:successors", "concept_formation/structure_mapper.py:swap_two", "concept_formation/structure_mapper.py:swap_unnamed"]}
{"id": "C89", "title": "TrestleTree's sanity check rejects exactly what cannot be counted", "statement": "If the structure mapped instance has a name without a first element (a number, an empty string or tuple, also inside a relation at any depth) or an unhashable value, ifit and categorize raise ValueError and leave concepts, root and scales alone; if it has none, the check raises nothing and exactly the mapped attributes and values reach the Cobweb/3 code; a call that returns had none.", "quantifier": "every tree state, instance and answer of the searches", "why_tests_cant": "All nestings of relations.", "anchors": ["concept_formation/trestle.py:TrestleTree._sanity_check_instance", "concept_formation/trestle.py:TrestleTree._sanity_check_relation", "concept_formation/trestle.py:TrestleTree.trestle"]}
{"id": "C90", "title": "load_quadruped gives well-formed animals that TRESTLE can learn", "statement": "load_quadruped(n) returns n instances; each has a hidden type (dog, cat, horse or giraffe) and eight components with nine numbers each: sizes are positive, textures between 170 and 180, axes in [-1,1], the four legs are equally long, stand under the corners of the torso and reach its lower side, the neck begins at the front of the torso and the head is at its end. Every size and axis lies in the interval that the table of its kind gives, and every point of these intervals occurs. The hidden type can be read off the height of the neck (or of a leg). The tail of every animal is behind its torso (refuted for cats and horses). The generator returns whenever every interval is hit again and again, and fitting such animals into a TrestleTree never raises.", "quantifier": "every sequence of random draws, every number of instances; every TrestleTree trained with such animals", "why_tests_cant": "Random data: a test sees one seed; rejection sampling may loop forever.", "anchors": ["concept_formation/data_files/generate_quadruped.py:bellrand", "concept_formation/data_files/generate_quadruped.py:generate_animals", "concept_formation/data_files/generate_quadruped.py:generate_cat", "concept_formation/datasets.py:load_quadruped"]}
{"id": "C91", "title": "Clusterings of a TrestleTree", "statement": "cluster_iter on a TrestleTree leaves the given tree as it was (nodes, root, scales and the gensym counter); its labelings have one label per instance, are cuts of the trained copy, each obtained from the previous one by splitting one concept with the least heuristic value; depth_labels lists the ancestors of the leaves level by level; k_cluster never returns and minsplit > 1 yields nothing. For instances that TRESTLE can work with, such as the generated quadrupeds, cluster returns at least one labeling.", "quantifier": "every reachable TrestleTree, every non-empty list of structured instances, every heuristic that only reads the tree, every outcome of the searches and of random choices", "why_tests_cant": "The tests cluster only nominal trees with a fixed seed.", "anchors": ["concept_formation/cluster.py:cluster_iter", "concept_formation/cluster.py:depth_labels", "concept_formation/cluster.py:k_cluster", "concept_formation/trestle.py:TrestleTree.ifit", "concept_formation/trestle.py:TrestleTree.categorize"]}
{"id": "C92", "title": "What Cobweb/3's scores compute, in terms of the instances", "statement": "In a Cobweb3Tree, expected_correct_guesses of every concept is computed from the instances behind it: the squared frequencies of the nominal values, plus for each numeric attribute its squared frequency times 1/(2 sqrt(pi) sqrt(d^2 + 1/(4 pi))) with d the estimated deviation of its numbers in units of the deviation of all numbers fitted under that inner attribute divided by scaling, per visible attribute. category_utility of every concept with children, and minus the heuristic CU of every clustering, is the resulting gain of the partition.", "quantifier": "every reachable tree over instances with a visible attribute, every scaling (None, 0, any number) and inner_attr_scaling, every concept, every clustering, every iteration order of the set of labels; exact arithmetic", "why_tests_cant": "The value depends on the whole history through the scales; tests compare single numbers of a few hand-made concepts.", "anchors": ["concept_formation/cobweb3.py:Cobweb3Node.expected_correct_guesses", "concept_formation/cobweb3.py:Cobweb3Tree.update_scales", "concept_formation/cobweb.py:CobwebNode.category_utility", "concept_formation/cluster.py:CU"]}
{"id": "C93", "title": "What the structure mapper's cost measures", "statement": "mapping_cost of a mapping that keeps components apart is minus the expected rate of correct guesses of the base's instances together with the target's, renamed by the mapping: for an instance against any concept, in TrestleTree against the root (all instances fitted since the last clear), and for an av_counts table of another concept if some attribute is in every instance behind it. Without such an attribute the number of instances is taken too small and the cost is wrong (violated by the code: the count is the maximum over the attributes). get_mapping after transform answers exactly the mapping by which the target was renamed.", "quantifier": "every reachable tree and concept, every instance with a visible attribute, every one-to-one mapping (complete or not), every scaling; exact arithmetic", "why_tests_cant": "The cost is only compared with other costs inside the search; tests see the mapping that wins for a few hand-made instances.", "anchors": ["concept_formation/structure_mapper.py:mapping_cost", "concept_formation/structure_mapper.py:StructureMapper.get_mapping", "concept_formation/trestle.py:TrestleTree.ifit"]}
{"id": "C94", "title": "batch_undo after batch_transform", "statement": "batch_undo applied to the result of batch_transform gives the batch back for preprocessors that keep no memory between calls (Flattener, Tuplizer, SubComponentProcessor). A NameStandardizer keeps only the reverse mapping of the last instance: the last one comes back, every other instance keeps the generated names (violated by the code for any batch of two instances with components). A pipeline of distinct objects gives the last instance back.", "quantifier": "every batch of any length, every state of the object and of the name counter", "why_tests_cant": "The batch methods are tested, if at all, on stateless processors; the loss needs two instances and a stateful processor.", "anchors": ["concept_formation/preprocessor.py:Preprocessor.batch_transform", "concept_formation/preprocessor.py:Preprocessor.batch_undo", "concept_formation/preprocessor.py:NameStandardizer"]}
{"id": "C95", "title": "What the structure mapper can find", "statement": "From a starting mapping the structure mapper's search can visit exactly the mappings that match at least as many components as the start. Its successors are exactly: the partners of two components exchanged (unless neither has one), or a component mapped to an unused base component. So no component is ever unmatched, none is added to a supplied initial mapping, and a mapping with fewer matches than the start is out of reach even if it is cheaper. A dict passed as initial_mapping, as documented, is iterated over its keys: it raises ValueError unless every name has two characters, and is ignored then. If the target's visible values are all nominal, matching further components never raises the cost, so a mapping as good as any other can always be visited; with numbers the best mapping can be out of reach of a given start.", "quantifier": "every pair of mappings between any two sets of components, every cost function, every search order", "why_tests_cant": "Reachability of every mapping over any number of components is a statement about all paths of the search; tests look at one result.", "anchors": ["concept_formation/structure_mapper.py:flat_match", "concept_formation/structure_mapper.py:StructureMappingOptProblem.successors", "concept_formation/structure_mapper.py:StructureMappingOptProblem.swap_two", "concept_formation/structure_mapper.py:StructureMappingOptProblem.swap_unnamed"]}
{"id": "C96", "title": "Printing a tree shows every concept once and can be read back", "statement": "After any sequence of calls, str(tree) succeeds, changes nothing and has one line per concept of the tree: each concept once, before its children, these from left to right, indented by one tab per level. If no label contains a line break, two trees that print the same text have the same shape and labels. Two CobwebTrees fitted with strings, integers and booleans that print the same text have the same shape and the same tables. For Cobweb3Tree (which prints str instead of repr of attributes and values) this fails: one instance can print like a tree with three concepts.", "quantifier": "all call sequences, number systems, random sources; all strings, integers, booleans and nested tuples", "why_tests_cant": "Whether two different trees can print alike is a statement about all pairs of trees and all strings, including quotes, escapes and line breaks inside values.", "anchors": ["concept_formation/cobweb.py:958-984", "concept_formation/cobweb3.py:289-321"]}
{"id": "C97", "title": "The exported counts are those of the concept when attributes and values print differently", "statement": "If the attributes and the values fitted are pairwise printed differently by str, then for every concept of the tree the entry 'counts' of output_json shows, for each attribute and value, its count in the concept, and nothing else; in Cobweb3Tree the numbers of an attribute are shown under '#ContinuousValue#', provided no value prints like that. Otherwise counts are lost: after fitting {a: 1} and {a: '1'} the root has size 2 and shows {'a': {'1': 1}}.", "quantifier": "all call sequences, number systems, str functions; every concept", "why_tests_cant": "Tests look at few trees with strings only; the loss needs values of different types whose texts coincide, and the positive claim is about every concept of every tree.", "anchors": ["concept_formation/cobweb.py:1045-1051", "concept_formation/cobweb3.py:580-590"]}
{"id": "C98", "title": "DummyTree.infer_missing completes an instance with the overall average", "statement": "After any history of sensible instances, DummyTree.infer_missing changes neither the counts nor the root. If neither the instance nor the earlier ones have components it returns (unless two random draws coincide) the instance with all its values and, for each attribute that some earlier instance had, the kind of value that is most frequent in the whole history, for numbers the mean of all numbers; with allow_none=False every such attribute gets a value unless None is one of its values. With components it adds values of earlier instances to the mapped instance; it raises AttributeError if the mapping meets a number, and an Exception if a component was counted without mapping under a name that gensym makes.", "quantifier": "all histories, instances, choice functions and random sources", "why_tests_cant": "The repository has no test of it; the claim is about every history.", "anchors": ["concept_formation/trestle.py:171-207", "concept_formation/dummy.py:20-87"]}
{"id": "C99", "title": "evaluation.py on a TrestleTree tests before it trains, but asks for the instance's own names", "statement": "On a TrestleTree the four scores change no concept, and incremental_evaluation computes every score on a tree that was given, since it was cleared, exactly the preceding instances of a permutation of the list; each row has min(run_length+2, number of instances) scores. The probability of a nominal value (other than None) is the share of the instances at the leaf found without the attribute that have the value under that attribute, and with sensible instances that have a value (other than None) for the attribute the default evaluation returns numbers between 0 and 1. The three errors compare the given value with the one value that the instances of that leaf have under the attribute, as in a Cobweb3Tree; a list differs from everything, a component raises. An attribute with a component gets its score too, whatever the component is called. The code violates the last part: the concept is asked for the name in the instance, not for the one it was mapped to, so such a value has probability 0 and error 1 even if every instance had it, and scores depend on the names of components.", "quantifier": "all histories, lists of instances, attributes, scores, shuffles and answers of the searches", "why_tests_cant": "The repository's test evaluates a plain attribute of a few data sets; the claim is about all lists and names.", "anchors": ["concept_formation/evaluation.py:18-247", "concept_formation/trestle.py:132-256"]}
{"id": "C100", "title": "The structure mapper starts from the best mapping for the costs of single components", "statement": "If Munkres' algorithm returns a cheapest assignment, the mapping that hungarian_mapping returns, and that every flat_match without an initial mapping starts from, has the smallest sum of costs among all mappings of the instance's components to themselves or to different components of the concept, where a component's cost is the mapping cost if it alone is renamed. Infinite entries are never chosen. It is also the best mapping for the cost of the whole. The code violates the last part: relations between two components only count once both are mapped, so the start can be worse than another mapping.", "quantifier": "all cost functions, component names, and answers of Munkres' algorithm", "why_tests_cant": "Minimality is about all mappings, whose number is exponential; tests compare a few.", "anchors": ["concept_formation/structure_mapper.py:227-285", "concept_formation/structure_mapper.py:173-224"]}
{"id": "C101", "title": "TRESTLE does not depend on the names of components, only on their alphabetical order", "statement": "If two instances differ only in the names of their components and in the order in which their dictionaries were built, and the attributes in each dictionary keep their alphabetical order, NameStandardizer makes the same instance of both; ifit and categorize return the same concept and leave the same tree, infer_missing differs only in the names it puts back, and so a whole history of calls builds the same tree. The result also does not depend on the alphabetical order of the names, nor on the order in which Python goes through a set. The code violates the last part: the components are numbered in the alphabetical order of the printed attributes, and those of a relation, which is sorted before its components, in the order of a set of strings, which changes from one Python process to the next; the first instance is stored under these numbers.", "quantifier": "all instances, renamings, reorderings at every depth, tree states, answers of the searches and histories of calls", "why_tests_cant": "Tests use a few spellings of a few instances and one hash seed.", "anchors": ["concept_formation/preprocessor.py:451-534", "concept_formation/trestle.py:132-256"]}
{"id": "C102", "title": "The order of the attributes in an instance's dictionary does not matter", "statement": "Two histories of ifit, categorize and clear whose instances have the same attributes and values but list them in different orders return the same concepts and build the same tree, with tables that are equal as dictionaries and so give the same probabilities; the sanity check accepts or refuses the same instances. This holds for CobwebTree and, for instances without the reserved value, for Cobweb3Tree under every scaling, also when several attributes share a scale. It holds in exact arithmetic. On IEEE doubles the code violates it: the sums of expected_correct_guesses are taken in the order of the dictionary, rounding breaks ties differently, and five small instances give trees of different shape.", "quantifier": "all histories, instances, reorderings, random numbers and scalings", "why_tests_cant": "Tests read instances from one file in one order; a permutation changes the tree only in rare ties.", "anchors": ["concept_formation/cobweb.py:340-407", "concept_formation/cobweb.py:913-937", "concept_formation/cobweb3.py:95-105", "concept_formation/cobweb3.py:147-287"]}
{"id": "C103", "title": "What attributes and values are called does not matter", "statement": "Give the attributes and the nominal values new names, distinct names to distinct ones, hidden names (leading underscore) to hidden attributes and visible ones to visible attributes. Then every history of ifit, categorize and clear on the renamed instances returns the same concepts and builds the same tree, with the renamed tables; this holds in any arithmetic, for CobwebTree and, when the reserved value key keeps its name and the shared scale of an inner attribute is renamed with it, for Cobweb3Tree under every scaling. If no two random draws coincide, infer_missing of a renamed instance gives the renamed answer or the same exception, by either tree; a Cobweb3 concept gives a renamed value the probability of the original. Giving a visible attribute a hidden name is not such a renaming, and changes the tree.", "quantifier": "all histories, instances, renamings, arithmetics, random numbers and scalings", "why_tests_cant": "Tests use one vocabulary; a hidden comparison of names would show only in a tie.", "anchors": ["concept_formation/cobweb.py:340-407", "concept_formation/cobweb.py:913-937", "concept_formation/cobweb3.py:147-287", "concept_formation/utils.py:153-179"]}
{"id": "C104", "title": "An attribute with the same value in every instance changes nothing", "statement": "In exact arithmetic, when all instances have the same visible attributes (at least one), adding one more visible attribute with one and the same value to every instance, at any position, leaves every history of ifit, categorize and clear with the same returned concepts and the same tree; every table gets one entry more, which counts the instances of the concept. The score of every operation is changed by the same increasing linear map: trees that score by e and by al*e+be with al > 0 are the same. The same holds for Cobweb3Tree, under every scaling, for a nominal constant and for a constant number, provided that number shares its scale with no other visible attribute; the other scales are the same too. When the instances do not all have the same attributes this is false: an example with exact rationals ends in different trees.", "quantifier": "all histories, instances, positions, constants, and random numbers without repetition (or any, as long as no call raised)", "why_tests_cant": "The scores of the two runs differ everywhere; only their order agrees, in every comparison of every run.", "anchors": ["concept_formation/cobweb.py:380-445", "concept_formation/cobweb.py:447-530", "concept_formation/cobweb.py:913-937"]}
{"id": "C105", "title": "Random numbers only break ties", "statement": "If at every concept a call passes through no two children with the same count have the same score, and no two open operations the same category utility, then the outcome does not depend on the random numbers: for every other stream the whole history returns the same results, ends in the same tree with the same tables and identifiers, and uses as many draws. Whether a history has ties does not depend on the random numbers either. Without ties no call raises, even when draws coincide. With a tie the draws do decide: an example ends in different trees for two streams and raises for a constant one. The same holds for ifit, categorize and clear of a TrestleTree, given the answers of the mapping search.", "quantifier": "all histories of ifit, categorize and clear, all pairs of streams of random numbers, any arithmetic (doubles included), CobwebTree, Cobweb3Tree and TrestleTree", "why_tests_cant": "A test runs with a few seeds; the claim compares every stream with every other one on every history.", "anchors": ["concept_formation/cobweb.py:447-538", "concept_formation/cobweb.py:540-574", "concept_formation/cobweb.py:152-217"]}
{"id": "C106", "title": "A tree of n instances has at most n leaves and 2n-1 concepts", "statement": "After n >= 1 instances since the last clear, none of whose ifit calls raised, a CobwebTree, Cobweb3Tree or TrestleTree has at most n leaves, at most 2*leaves-1 <= 2n-1 concepts (which is what num_concepts() of the root returns), and no concept is more than leaves-1 <= n-1 links below the root. The bounds are attained.", "quantifier": "every history, every arithmetic (doubles included), every random source", "why_tests_cant": "A bound on size has to hold for every history and every choice among merge, split and new; tests sample a few.", "anchors": ["concept_formation/cobweb.py:115-202", "concept_formation/cobweb.py:1017-1031", "concept_formation/cobweb3.py:107-113"]}
{"id": "C107", "title": "A value None of a TrestleTree is taken for a missing value", "statement": "A TrestleTree accepts None as a value and counts it like any other. A value that an attribute had in every instance should then have probability 1, and infer_missing with allow_none=False should give every attribute that the concept knows a value. The code violates both: None is its mark for a missing value, so the score of None is the share of the instances of the leaf that have no value at all under the attribute (ZeroDivisionError on an empty tree, hence in incremental_evaluation), and a predicted None is left out. infer_missing of a TrestleTree or DummyTree never adds a None; with allow_none=False only attributes one of whose values is None can be left out.", "quantifier": "every history, instance, attribute and answer of the searches; witnesses for the refuted parts", "why_tests_cant": "No test stores None; that nothing else is left out or scored as missing is a claim about every history.", "anchors": ["concept_formation/trestle.py:85-116", "concept_formation/trestle.py:167-207", "concept_formation/cobweb3.py:362-479", "concept_formation/evaluation.py:18-120"]}
{"id": "C108", "title": "A CobwebTree recognises the instance fitted last", "statement": "Categorizing an instance that was fitted should lead to a leaf that holds just that instance (its visible values). When all instances have the same visible attributes, this holds for the instance fitted last: categorize returns a leaf all of whose instances agree with it, also after any number of further categorize calls. It does not hold for instances fitted earlier: a tie-free history exists after which, for every stream of random numbers, a fitted instance is categorized into a leaf none of whose instances has its value of some attribute. Nor does it hold for the instance fitted last when instances lack attributes. The positive part also holds in a Cobweb3Tree for instances without numbers.", "quantifier": "all histories of ifit, categorize and clear whose calls returned, all instances over the same visible attributes, all streams of random numbers, real arithmetic; witnesses in exact rationals for the refuted parts", "why_tests_cant": "The claim is about the greedy descent in every tree that can arise; the failures need particular histories of seven instances.", "anchors": ["concept_formation/cobweb.py:115-217", "concept_formation/cobweb.py:253-273", "concept_formation/cobweb.py:447-665"]}
{"id": "C109", "title": "output_json writes the statistics of a concept's numbers", "statement": "For every concept of a Cobweb3Tree and every attribute with numbers, ContinuousValue.output_json returns without an exception: n is how many numbers the instances of the concept have under the attribute, mean their arithmetic mean, and std 0 for a single number and otherwise sqrt(sum of squared deviations / (n-1)) / c4(n). At the root these are all numbers fitted since the last clear, and an attribute without numbers has no such entry.", "quantifier": "every history of nominal/numeric instances, every concept and attribute, every random stream, real arithmetic", "why_tests_cant": "The summaries are built by merging, copying and updating along every path through the tree; tests look at a few.", "anchors": ["concept_formation/continuous_value.py:219-224", "concept_formation/continuous_value.py:81-96", "concept_formation/cobweb3.py:561-597"]}
{"id": "C110", "title": "Hill climbing on mappings ends at a locally best mapping", "statement": "If the search moves to a cheaper successor as long as there is one, it ends, from every mapping, after fewer moves than there are mappings of the target's components to themselves or the base's components. The mapping it ends with is the one it started from or cheaper: with it the concept is expected to guess at least as well after adding the instance. No exchange of the partners of two components, and no assignment of an unused component of the base, makes it cheaper. So flat_match returns such a mapping, whatever moves are made.", "quantifier": "every strict order of costs and every cost function; with mapping_cost: every concept of every Cobweb3Tree, every instance with other component names, every starting mapping, exact arithmetic", "why_tests_cant": "The number of mappings grows exponentially with the components; a test tries a few instances and cannot show that no cycle of moves exists.", "anchors": ["concept_formation/structure_mapper.py:173-224", "concept_formation/structure_mapper.py:329-436", "concept_formation/structure_mapper.py:288-326"]}
{"id": "C111", "title": "What the concepts of a TrestleTree hold, and how it sorts", "statement": "In a TrestleTree the root summarises exactly the structure mapped instances fitted since the last clear (counts, and number, mean and squared deviations of the numbers); a leaf summarises mapped instances that agree on everything visible; expected_correct_guesses of a concept with a visible attribute is in (0,1]. ifit sorts the mapped instance into the tree as it was before, taking a best operation at every concept, and returns a leaf holding exactly copies of the mapped instance; that leaf stays, gaining at most more copies, until clear. categorize goes at every concept to a best child for the mapped instance.", "quantifier": "all histories of ifit, categorize, infer_missing and clear on a TrestleTree, all structured instances without the reserved nominal value, all results of the mapping search, exact arithmetic", "why_tests_cant": "Structure mapping depends on the tree built so far, so the histories to try are unbounded.", "anchors": ["concept_formation/trestle.py:132-169", "concept_formation/trestle.py:209-256", "concept_formation/cobweb.py:103-217", "concept_formation/cobweb3.py:60-122"]}

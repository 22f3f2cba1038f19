# Design of the formal model of `concept_formation`

The source in `/repo/concept_formation` is modelled in Rocq/Coq 8.16.1 under
`rocq/theories`. Properties are listed in `properties.jsonl` (C01 ...); the map
property -> theorems is in `MANIFEST.json`.

## 1. How Python is represented

| Python | model | file |
|---|---|---|
| `dict` | association list in insertion order, update in place / append at the end (`dget`, `dset`) | `Base.v` |
| raising an exception | `res A := Ok a \| Err e`; in stateful code the state at the point of the raise is kept | `Base.v` |
| `float` arithmetic | an arbitrary record of operations `NumOps` **without any laws**; instances: real numbers (`ROps`) and IEEE binary64 (`FloatOps`, Coq primitive floats) | `Num.v` |
| counts (`count`, `av_counts[a][v]`, `cv.num`) | `nat` (Python keeps them as int/float; exact below 2^53) | `Nominal.v` |
| `random()` | an arbitrary stream read through a position counter; every theorem quantifies over the stream | `TreeModel.v` |
| object identity of nodes | the concept id (ids are unique, C22); heap = finite map id -> record with parent, children, table | `TreeModel.v` |
| `hash`/unhashable values, `None`, non-subscriptable attributes | explicit constructors of raw instances; sanity check modelled | `Nominal.v` |
| attribute names | `AStr s` or `ATup [...]` | `Base.v` |
| `shuffle`, Munkres, hill climbing, `deepcopy`, hash order of sets | oracle arguments (any permutation / any optimal assignment / any accepted successor path / copy of the state / any enumeration order) | per file |
| `while` loops | fuel computed from the data; a theorem shows that fuel is never exhausted | |

The tree algorithm is written once, over a record `NodeClass` (the methods a
subclass may override: increment_counts, update_counts_from_node,
expected_correct_guesses, is_exact_match), and instantiated for CobwebNode and
Cobweb3Node, mirroring the Python inheritance.

Layers for the tree: (1) `TreeModel.v`, the heap program, branch by branch;
(2) `TreeFun.v`, the same algorithm on inductive trees; (3) `TreeRefine.v`
proves that (1) computes (2) on every well-formed heap, also when it raises.
Invariants are proved by induction on (2) and stated about (1).

## 2. Trusted base

* Coq's kernel (and `coqchk`). What `Print Assumptions` lists for every theorem
  named in `MANIFEST.json` is in `ASSUMPTIONS.md`, which
  `tools/assumptions.py` generates from the built development. Structural theorems are closed under the
  global context; theorems about real arithmetic depend on the axioms of the
  standard library's reals (`ClassicalDedekindReals.sig_forall_dec`,
  `ClassicalDedekindReals.sig_not_dec`,
  `FunctionalExtensionality.functional_extensionality_dep`, and where `exp`,
  `ln`, trigonometry are used also `Classical_Prop.classic`); examples run with
  primitive floats depend on the float and int63 primitives.
* The reading of the Python code as written in the model's comments; the model
  was written by hand.
* Not modelled: rounding in theorems stated over the reals (those theorems are
  about exact arithmetic); NaN/inf; memory exhaustion and recursion limits;
  user code calling internal methods or mutating nodes; multi-threading;
  HTML/browser output; downloading.

### Which code is modelled

| File in /repo/concept_formation | Modelled (Coq file) | Not modelled |
|---|---|---|
| cobweb.py | CobwebTree: `__init__`, clear, _sanity_check_instance, ifit, fit, cobweb, _cobweb_categorize, infer_missing, categorize; CobwebNode: every method except those on the right (TreeModel, Nominal, Query, TreeGen, Vis, Print) | `__hash__` |
| cobweb3.py | everything except the right column (Cobweb3, Query3, Vis, Print) | the text output_json and pretty_print make of numbers (a parameter) |
| continuous_value.py | everything except the right column (CV; output_json in PropsCVJson) | `__hash__`; `__repr__` (formats what output_json returns) |
| trestle.py | everything (Trestle) | |
| structure_mapper.py | get_component_names, rename_flat, bind_flat_attr, contains_component, flat_match, hungarian_mapping, mapping_cost, swap_two, swap_unnamed, successors, is_partial_match, StructureMapper (StructMap), random_successor (PropsRand), mapping_cost of av_counts tables and get_mapping (StructTab), node_value and goal_test (PropsHill) | py_search's hill climbing and munkres (any result of the right shape; in C100 and C110 a cheapest assignment and moves to cheaper successors) |
| preprocessor.py | everything except the right column (Preproc, Preproc2, PreStd, PreObj, PreSub, ListProc; batch_transform and batch_undo in PropsBatch) | - |
| cluster.py | everything (Cluster, Info; on a TrestleTree: TCluster) | |
| evaluation.py | everything (Eval; on a TrestleTree: TEval) | |
| utils.py | everything (Utils, CV) | |
| dummy.py | everything, with the inherited infer_missing (Dummy) | |
| datasets.py, data_files/generate_quadruped.py | _load_json (Vis); the generator of quadrupeds (Quadruped) | download, the files themselves |
| visualize.py | _trim_leaves, visualize_no_leaves, _trim_to_clusters, visualize_clusters (Vis) | files, HTML, the browser |

## 3. Plan per property

Tree core (heap model + refinement + induction over functional trees):

* C01, C02 - invariant `counts`: root table = histogram of history; every
  internal table = pointwise sum of children. Induction over the loop, for any
  NumOps.
* C03 - measure: number of proper descendants of `current` decreases in every
  branch (best: child; split: one concept removed; merge: needs more than two
  children, so some sibling is left out). Fuel = heap size is never exhausted.
* C04 - `rep` invariant (heap represents a tree, NoDup ids) + at least two children.
* C05, C06, C07, C09 - invariants/frames of the functional loop, transported.
* C08 - categorize changes only the random position and the id counter.
* C10, C11, C12 - algebra over R on the modelled scoring functions; C11 for any
  total order.
* C13, C14 - inequalities over R (C14: Cauchy-Schwarz/convexity).
* C15, C16, C39, C40 - list sums over R; interval characterisation of sampling.
* C17, C18, C19 - from C02 + C15.
* C20 - all divisors are non-zero when every table has a visible attribute.
* C21 - proved when no two random draws coincide (a raising call leaves the
  tree as it was); refuted without that (a TypeError half-way down).
* C22 - ids bounded by the counter + NoDup.
* C23 - equalities of traversals on the represented tree.
* C24 - C01 + permutations.
* C25 - clear gives the fresh state; behaviour equal up to id renaming.
* C26 - homomorphism theorem: the loop commutes with dropping hidden attributes.

Cobweb/3:

* `CV.v`, `CVFacts.v`, `C4Facts.v`, `PropsCV.v` - C27-C30, C34: ContinuousValue
  and c4 (c4 via the recurrence c4(n)c4(n+1) = sqrt((n-1)/n), c4(2) = sqrt(2/pi)).
* `Cobweb3.v` models Cobweb3Node/Cobweb3Tree as another instance of
  `NodeClass`; the tree's attribute scales are the class's context, updated
  before each fit as cobweb3.py:107-113 does. `Query3.v` models probability,
  get_weighted_values, predict, log_likelihood.
* `C3Facts.v` (tables against lists of instances, for any number system with a
  law relating ContinuousValues to lists), `C3Scales.v` (the scales),
  `C3R.v`, `C3Tree.v`, `C3Total.v`, `C3Prob.v` (exact arithmetic).
* C31, C35, C38, C62, C65 - invariants with the same tree machinery
  instantiated at Cobweb3; C32, C33, C63 - bounds and totality over R.
* C37, C64, C66 - two-run properties by simulation: `TreeRel.v`/`TreeSim.v` for
  two classes related table by table, `TreeWorld.v` when the relation depends
  on the history so far (units: the scales depend on what was fitted).
* C36 - holds away from the reserved key, refuted for it.
* C67-C70 (`TreeClimb.v`, `TreeOne.v`, `PropsClimb.v`, `PropsClimbX.v`) - the
  descent of ifit is a path of operations each of maximal category utility
  among the offered ones (a relation stated over states, proved by following
  the loop); single-concept trees; a seven-instance refutation computed in
  IEEE doubles.
* C71-C74 (`QueryPredict.v`, `C3Query.v`, `PropsQ3.v`, `PropsQ3I.v`,
  `PropsLL.v`) - a Cobweb/3 table is flattened to a nominal one (all numbers of
  an attribute become one key); probability, get_weighted_values and predict
  commute with the flattening, so the nominal theorems transfer.  Statements
  count instances (`having l a k`).
* Simplification: Python's dynamic `isinstance(v, Number)` is a constructor
  (`VNum`/`VNom`, decided by `isNumber`: a number that is not a bool or nan).  The model's `nexp`/`nln`
  for IEEE doubles are not computed (Coq has no float exp/log), so examples on
  doubles avoid them.

Preprocessing (`PyVal.v`, `Preproc*.v`, `Pre*.v`, `PropsPre*.v`, `StructMap.v`):

* Instances before flattening are nested data `pv X`: strings, other scalars of
  an arbitrary type `X`, lists, dictionaries. Python's `==` on them is `peq`
  (`ieq` for instances): dictionaries in any order.
* Python functions that are not computed are parameters of the model, and the
  theorems hold for all of them: `str` of a tuple (`pystr`) and of a number
  (`xstr`, `numstr`), the enumeration order of a set (`setord`, any
  enumeration of the same elements), `float(...)` (`sfloat`, `xfloat`, may
  fail), `str.lower` (`lower`), `Sanitizer._cob_str` (`cobstr`).
* Preprocessor objects live in a heap: a Pipeline is a list of object names, a
  NameStandardizer's state is its reverse mapping, the symbol counter is
  global.
* C41-C47, C49, C60, C61 - round trips by structural induction, with
  refutations by concrete witnesses where the code loses data.
* C48, C49 (`StructMap.v`, `StructFacts.v`, `PropsStruct.v`) - invariant of
  successor steps (injectivity and partition). Munkres' algorithm and
  py_search's hill climbing are not modelled: an `oracle` answers for them
  (any complete assignment, any sequence of moves to successors), as does
  the enumeration order of a set. Of hill climbing it is assumed that it
  starts at the given state and only moves to members of `successors`.
  `PropsClash.v`: rename_flat when two attributes get one name.
* C25, C50, C75, C76, C78 (`Trestle.v`, `SpecTrestle.v`, `Trestle*.v`,
  `PropsTrestle*.v`) - TrestleTree as a Cobweb/3 tree behind the pipeline of
  four preprocessors. C50: every name in a table was made by gensym before,
  every name of a standardised instance after. C75: a history of TrestleTree
  calls is a history of Cobweb3Tree calls on the mapped instances. C76: the
  pipeline is total on sensible instances (`t_fits`), then C63.
  C77 (`PreObj.v`, `PropsTrestleU.v`): `t_obj` instances stay `t_obj` under
  renaming and reordering, which gives what each later stage asks for; then
  C41, C43, C44, C49 stage by stage (C45).
  Each call takes the answers of its searches, the number of nodes they create
  and the number of random draws they use (`torc`) as arbitrary inputs.
  Assumed: `oracle_ok` (see C48), set iteration visits the set's elements,
  normalvariate only moves the generator on. `None` passes the sanity check and
  is counted like any other atom (`NNone`); that the readers of a prediction and
  of a score take it for a missing value is modelled (`some_val`, C107).

Clients:

* C51-C54 (`Cluster.v`, `SpecCluster.v`, `Cluster*.v`, `PropsCluster*.v`) -
  cluster.py: cluster_iter, cluster, k_cluster, cluster_split_search,
  depth_labels, CU. The loop keeps the invariant that the split copy's
  first level are concepts of the tree before the splits. The heuristic is any
  function that only reads the tree; CU is shown to be one and, on trees whose
  tables have visible attributes, not to raise. Not modelled:
  naming a heuristic by a string; the flag `labels` (a label and its node are
  the same id here). Simplified: a generator is run to its end (what it yields
  before an exception is kept); with NaNs `sorted` may pick another split.
* C85 (`PropsCU.v`, `PropsClusterX.v`) - what CU computes. `guess_rate` and
  `partition_utility` define expected_correct_guesses and category_utility from
  lists of instances; the tables are related to the instances by `tabulates`.
* C86 (`Info.v`, `PropsInfo.v`, `PropsInfoT.v`) - AIC, AICc, BIC. Splits only
  remove concepts (`split_from_back`), so the tables and the order of the
  concepts are those of the tree before the splits, where C74 gives the
  log-likelihoods. The order in which log_likelihood visits its sets is a
  parameter (`ord`), and so is infinity. `loglik`, `parameters` (and `…3`)
  define the two ingredients from lists of instances.
* C55, C56, C79, C80, C83, C84 (`Eval.v`, `PropsEval*.v`) - evaluation.py:
  probability, error, absolute_error, squared_error, incremental_evaluation, over CobwebTree and
  Cobweb3Tree. The scores are shown to leave the tree as a sequence of
  categorizations would, so that the state before each score is reached by the
  preceding instances of the run only. Which nominal values are booleans or
  numbers is a parameter. Simplified: the shuffle is a parameter.
* C99 (`TEval.v`, `PropsTEval*.v`) - the same on a TrestleTree, with values that
  are lists or components. The state before a score is reached by calls of
  categorize and ifit (`tgiven`: what ifit was given); the concept is a
  Cobweb/3 leaf of mapped instances (C75), so C72 and C33 apply. That a name of
  the instance is unknown follows from the names of C50.
* C57, C58 (`Vis.v`, `PropsVis*.v`) - datasets.py `_load_json`; output_json,
  `_trim_leaves`, `_trim_to_clusters`, visualize_no_leaves, visualize_clusters.
  `shows s K j` says what an exported object must contain; the trimmings are
  proved against it by induction over the tree. Not modelled: files, HTML, the
  browser, str() of attributes and values.
* C59, C81, C82, C98 (`Dummy.v`, `PropsDummy*.v`) - dummy.py: __init__, ifit (with
  and without mapping), categorize, the inherited clear and infer_missing;
  probability at its root. By induction over the run, with the counting lemmas
  of Cobweb/3; C98 for instances without components: the pipeline is shown to
  do nothing to them in either direction. `PropsDummyM.v`: without numbers the
  scores, hence the costs, hence the mapper agree with those of a TrestleTree.

* C100 (`PropsHung.v`, `PropsHungX.v`) - hungarian_mapping is optimal if Munkres
  is (`munkres_best`): assignments of finite cost correspond to mappings, with
  the same sum (`priced_apart`, `apart_priced`). An oracle that tries all
  assignments shows that the assumption can be met.

* C60 (`PropsPre2.v`, `PropsPre3.v`) - the one-way preprocessors at every depth,
  stated with `within`/`reaches` (an attribute has a value somewhere in the
  instance) and `complains` (what float says to a value).

* C101 (`PropsRename.v`, `PropsRenameX.v`) - instances that differ only in the
  names of components (alphabetical order kept) and in the order of their
  dictionaries, at every depth, give the same tree. Refuted without the order
  of the names, and for another order of Python's sets (the hash seed).
* C102 (`PropsOrder.v`, `PropsOrder3.v`, `PropsOrderX.v`) - the order of the
  attributes in the dictionaries of the instances changes nothing, in exact
  arithmetic, for both trees. Refuted on IEEE doubles.
* C103 (`PropsNames.v`, `PropsNames3.v`, `PropsNamesI.v`, `PropsNamesI3.v`,
  `PropsNamesX.v`) -
  an injective renaming of attributes and values that keeps hidden attributes
  hidden renames the tables and changes nothing else, for both trees and any
  arithmetic; with distinct draws it also renames what the trees infer.
* C104 (`TreeAff.v`, `PropsConst.v`, `PropsConst3.v`,
  `PropsConstX.v`) - a visible attribute
  with the same value everywhere leaves the tree as it is, in exact arithmetic
  and when all instances have the same visible attributes.  `TreeAff.v` shows
  for any node class that an increasing linear change of the expected correct
  guesses does not change the tree: category utility of every operation changes
  by the same factor, because the counts of the children add up.  Without the
  condition on attributes the claim is refuted with exact rationals (`QOps`).
* C105 (`PropsTies.v`, `PropsTiesX.v`) - the random numbers only break ties:
  when the scores met on the way are different, every stream of draws gives the
  same run.  No law of arithmetic is used.  `PropsTies.v` also has a decision
  procedure for the absence of ties, with which the example is checked.
* C106 (`PropsSize.v`, `PropsSizeX.v`) - bounds on the number of leaves, the
  number of concepts and the depth of a tree by the number of instances, for any
  node class and any arithmetic, and three instances that attain them.
* C107 (`PropsNone.v`, `PropsNoneX.v`) - a None that was stored in a TRESTLE
  instance (`NNone`, modelled as one particular atom) is taken for a missing
  value by `probability`, the errors and `infer_missing`; the theorems of C78,
  C98 and C99 say so too.
* C108 (`TreeLead.v`, `Recall.v`, `PropsRecall.v`, `PropsRecallX.v`) - the
  instance fitted last is categorized into a leaf that holds only it, when all
  instances have the same visible attributes.  `TreeLead.v` keeps, beside the
  shape of the changes to a tree, the order facts the descent relied on;
  `Recall.v` computes the gain of inserting an instance.  Both restrictions are
  needed: the two refutations drop one each.
* C24 (`Fit.v`, `PropsFit.v`, `PropsFitX.v`) - fit over any ifit, since
  Cobweb3Tree, TrestleTree and DummyTree inherit it: a sequence of calls of ifit
  with every instance `iterations` times, cut off by the first exception.
* C109 (`PropsCVJson.v`) - ContinuousValue.output_json at every concept, from the
  invariant behind C31 and C30's facts on c4.
* `C12_all_foretold`, `C12_all_foretold3` (`PropsPredict.v`) - C12 with the
  existence of the predictions, from the totality facts behind C20 and C63.
* C110 (`PropsHill.v`, `PropsHillR.v`) - hill climbing over the mappings: the
  costs along a descent are different, so it visits no mapping twice; local
  optimality by C95's description of the successors.
* C111 (`PropsTLift.v`) - the statements of C31, C32, C35, C65 and C69 for
  TrestleTree, about the mapped instances.
* C105 for TrestleTree (`PropsTTies.v`) - the draws made while the mapped
  instance is sorted only break ties; infer_missing is left out.
* C108 for Cobweb3Tree (`PropsRecall3.v`) - instances without numbers, by C64.
  With numbers it is open: no failure was found in a search, and there is no
  proof.
* C46 (`ListProc.v`, `ListExt.v`, `ListRel.v`, `ListOrd.v`, `PropsLists.v`) -
  preprocessor.py:723-1201: ExtractListElements, ListsToRelations,
  ListProcessor, both directions, with the gensym counter threaded and the
  exceptions of missing keys, unhashable elements and failed removals.
  Values, not references: that undo_transform stores the lists into the
  components of the very instance it was given is not visible in the model.
  The order of a dictionary's items is the order of insertion. `extract` is
  proved by a relation between an entry and the items it contributes
  (`good1`, `chain`); the relations by splitting an instance into its
  skeleton and its lists with their paths. `ListOrd.v` does the way back for
  any order of the transformed instance's items.
  `PropsLists2.v`: which instances are refused, and the exact attributes
  written for a list at the top level.
* C87 (`PropsMatch.v`) - is_partial_match on attributes whose names are non-empty
  strings (`''[0]` raises in the code). A variable that occurs twice in the
  relation may be matched with two different names: refuted for these.
* C88 (`PropsRand.v`) - random_successor. The draws of `choice` are numbers taken
  modulo the length, `random()` is any number; the `while` loop takes a list of
  draws and is out of fuel when they are used up, so "forever" means: for lists
  of any length.
* C78 (`PathLook.v`, `TKeys.v`, `TObjKeys.v`, `TrestleKeep.v`, `PropsTrestleK.v`,
  `PropsTrestleY.v`) - what infer_missing keeps, for `t_obj` instances (those of
  C77). "Where it was" is a path of keys (`plook`). The user's names must not
  be ones the tree generated (`C78_infer_adds_refuted` has one that is), and for
  unmoved components the concept must not know another owner
  (`C78_owner_moved_refuted`). Relations are only claimed to be kept under the
  condition on owners.
* C89 (`PropsTrestleS.v`) - `_sanity_check_instance` of TrestleTree. It is given
  the mapped instance, so the statement is about that one.
* C90 (`Quadruped.v`, `PropsQuad.v`, `PropsQuadS.v`) - the random quadrupeds. The four functions
  have the same statements with different numbers, so the model has one function
  and four tables of numbers (`kind`). normalvariate and choice are streams of
  answers; `generated d` quantifies over all of them.
* C91 (`TCluster.v`, `PropsTCluster.v`) - cluster.py on a TrestleTree. Only ifit
  and categorize differ from a Cobweb3Tree; the loop over the concepts and the
  specification `read_off` / `depth_table` are those of C51 and C54.
* C92 (`PropsCU3.v`) - the values of Cobweb/3's scores from the instances:
  `deviation`, `unit_of`, `number_guess`, `guess_rate3` and `partition_utility3`
  mention no tables and no ContinuousValue; exact arithmetic.
* C93 (`StructTab.v`, `PropsStructTab.v`) - `mapping_cost` in terms of the
  instances, for instances and for av_counts tables, and `get_mapping`.  The
  renaming a mapping stands for is specified as a function on names
  (`stands_for`, `rename_all`); exact arithmetic.
* C94 (`PropsBatch.v`) - `batch_transform` and `batch_undo` of any
  preprocessor object; what is lost when the object remembers only the last
  transform.
* C95 (`PropsSearch.v`; with the real cost `PropsSearchR.v`) - the space the structure mapper's search moves in:
  which mappings can be visited from a start (independent of cost and order),
  what a successor is, and what a dict as initial mapping does.
* C96 (`Print.v`, `PropsPrint.v`, `PropsPrintR.v`, `PropsPrintX.v`) - printing.
  The walk is modelled on the heap with the text after "|-" as a parameter;
  `outline` and `is_line` define the lines from the child links. Reading back:
  cut at the first line break, and the number of tabs tells where a subtree
  ends. For CobwebTree Python's repr is modelled for strings (bytes; non-ASCII
  is escaped), integers, booleans and tuples, and shown to be self-delimiting.
* C97 (`PropsCounts.v`, `PropsPrintX.v`) - the counts of output_json; `written`
  looks up the exported dictionary by texts.

Statuses and gaps are kept in `MANIFEST.json`.

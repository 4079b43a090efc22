# Formal model of krooonal/col_gen_estimator in Rocq (Coq 8.16.1)

The claims are in `properties.jsonl`, their status in `MANIFEST.json`, wrong-program experiments in
`seeded/LOG.jsonl`. This file says what is modelled, how each claim is proved, and what is trusted.

## Layout (`rocq/theories`)

| file | contents |
|---|---|
| `Base.v` | exceptions as values, Python list access, rational sums (no theorems about the code) |
| `Lp.v` | the OR-Tools model object (variables, objective, constraints), feasibility, optimality |
| `TunerModel.v`, `TunerFloatModel.v` | `_parameter_tuner.py`, over exact rationals and over binary64 |
| `SolveModel.v` | `BaseSubproblem.get_tunable_params` / `solve_model` |
| `FitModel.v` | `ColGenClassifier.__init__` / `fit`, over an arbitrary master, subproblems and clock |
| `BdrModel.v` | `_bdr_classifier.py`: master problem, exact pricing, heuristic, predict |
| `BdrFitModel.v` | `FitModel` instantiated with the boolean rule classes: a whole `fit` of the rule estimators |
| `TreeModel.v` | `_dtree_classifier.py`: data classes, path functions, master problem with cuts, predict |
| `TreePricingModel.v` | `_dtree_classifier.py`: path heuristic and the three exact pricing models |
| `TreeFitModel.v` | `DTreeClassifier.__init__` and a whole `fit` of the tree estimator |
| `ExpModel.v` | `examples/dtree_experiment.py`: split registry, nodes, initial paths, reduction, preprocessing |
| `ExpMainModel.v` | `examples/dtree_experiment.py`: `main` from the data to the rows of the results file |
| `Spec*.v`, `*Obs.v` | small specifications used in theorem statements; they never call the model's algorithms |
| `*Proofs.v`, `LpBrute.v`, `LpCheck.v`, `TreeCheck.v`, `TreeLpBuild.v`, `BdrWitness.v` | lemmas, checkers and witnesses |
| `Prop*.v` | the property theorems, each followed by `Print Assumptions`, and non-vacuity examples |

## Modelling conventions

* Python numbers that are floats in the code are exact rationals `Q` (see trusted base). Comparisons of finite
  floats are exact, so threshold tests are faithful; accumulated sums are modelled without rounding.
* Exceptions are values: `res A = Ok a | Err e`.
* A Python object mutated in place becomes a record returned by the function.
* `for` loops are folds, `while` loops are recursion on fuel with an explicit out-of-fuel result.
* Sets are duplicate-free lists; where the code's result depends on set iteration order, the order is an argument.
* External code (OR-Tools solvers, `random`, `time()`, scikit-learn validation) is an argument of the model:
  a solver answer, a stream of draws, a stream of clock readings. Theorems quantify over all of them; where a
  theorem needs a property of the answer (feasible, optimal, dual feasible) it is a hypothesis in the statement,
  and an enumerating solver is exhibited that meets it (`C26_exact_solver_exists`, `C65_solvers`, `LpBrute.v`).

## Plan per property

* C01-C02 tuner statistics: run any history of push/clear on the model, compare with batch mean/variance of the
  suffix after the last clear; induction over the history. Binary64 non-negativity with Flocq.
* C03-C06 tuner: invariant over operation histories with an arbitrary random stream.
* C07 `solve_model`: functional model over an arbitrary solver outcome; the division by zero is an `Err`.
* C08-C18 `fit`: the loop is modelled over an arbitrary world (master, subproblems, clock). The model records
  the calls it makes; an inductive specification describes the legal call traces; the claims are corollaries.
* C19-C32 boolean rules: the model builds the OR-Tools model object; specification of problem (1) and (2) written
  independently; pricing exactness and the optimality certificate by weak duality over exact rationals.
* C33-C35, C50 tree geometry: heap positions by induction on the depth; the route of a sample as specification.
* C36-C42, C51, C58 tree master: the master state is described by an invariant kept by every operation (build, add a
  column, solve with cut rounds, solve as integer program); the polyhedral claims are proved over rational vectors.
* C43-C46, C63 tree pricing: the model of the pricing problem is built term by term; a decoded path is shown to have
  the reduced cost it was priced with, and every path has a feasible encoding.
* C47, C64 certificates: weak duality with the duals the master reports, for the three exact pricing classes. An LP
  solver works with tolerances, so the certificates are also stated for any duals whose signs are right up to a
  tolerance (`near_dual` in `SpecDual.v`) in terms of their own dual objective (`..._any_duals`), and for pricing
  solvers that stop within a gap of the optimum (`near_optimal`, `gap_pricing`); the exact optimum is a corollary
  (`DualProofs.v`).
* C48 predict: total for class targets; a training run that ends with a tree whose predict raises refutes the rest.
* C49, C59 constructor: functional model of the checks.
* C52-C57 experiment helpers: functional models and invariants; the time-limited loop takes a stream of clock readings.
* C60-C62 whole `fit` of the rule estimators: Hoare-style rules for the generic loop (`FitHoareProofs.v`), with the
  rule invariant; termination by counting the possible clauses. The LP solver may report duals that are wrong by
  up to 1e-6 (`near_rmp` in `SpecBdr.v`; exact solvers are the case 0, `C28_exact_solvers`), except that the code asserts
  the sign of the duals of the positive samples: `C60_dual_sign_needed` is a run with an arbitrarily small error that
  ends in AssertionError.
* C65-C66 whole `fit` of the tree estimator: the same rules with the tree invariant; termination by counting the
  possible paths, each with a whole cost (`iteration_bound` in `SpecTreeTrain.v`). The LP solver may leave reduced costs
  wrong by up to the 1e-6 at which the code compares them.
* C67 value of the trained tree: the run invariant of C65 extended with "no column costs more than the weight it
  classifies correctly" (`modest`), proved of every subproblem's paths; optimality of the final IP (up to a gap below 1:
  the weights are whole numbers) gives the comparison with the initial tree and C66 the gap.
* C68 the whole preparation (`prepare`): one lemma per step (registry, nodes, paths, reduction, preprocessing), chained
  to a record of facts about the output (`prep_result` in `PrepProofs.v`); the hypotheses only describe the CART trees
  and the data (`experiment` in `SpecPrep.v`).
* C69 against CART: C67's run invariant, with row weights that count the merged raw rows (`weigh`), and the fact that
  the final CART tree's leaf paths, and those of every complete additional tree, are among the initial ones. Which
  splits survive the reduction is stated by counting votes (`support`, `kept_at`, `dropped_at` in `SpecPrep.v`). `C69_extra_needed` is a complete depth-2 run in which an
  additional CART tree has a test at a node where it is no candidate, and the result is worse than CART.
* C70-C71 the whole script (`main`): preparation, training, the two rows of the results file and the clocks of `main`,
  `preprocess` and `fit`. C70 chains C68, C65 and C69 with a model of the scores; C71 carries an invariant of world and
  call trace through `fit` (`FitEventProofs.v`). The time limit is refuted where preprocessing uses all of it.
* C72 scikit-learn's conversion of samples to float32: `single` is any map to a closest float32 number (`SpecSingle.v`, formats as
  sets of rationals). CART's own predictions are modelled on converted samples (`cart_predict`), everything else on raw ones.
  Rounding is monotone and keeps float32 numbers, so a value on one side of the midpoint of two float32 numbers is rounded to the
  same side, except on the midpoint itself; `C72_tie_refuted` is a run of the script with such a tie.
* C73 the records of `preprocess_rows` and `preprocess`: `describes` (`SpecRows.v`) says what a row's record must contain in
  terms of trees of candidate splits. The quadratic loop of `preprocess_rows(aggressive=True)`, which the package itself does
  not use, is proved by an invariant over its rounds (`TreeAggrProofs.v`).
* C74, C75 `remove_gen_vars` and `merge_all_nodes_last_split`, which nothing in the repository calls (`SpareModel.v`): the solutions
  of the restricted model are characterised through the LP invariant behind C36; the merge is an induction over the dictionary.
* C76 completeness of `add_cuts`: the CP-SAT model (C36's invariant) has a solution for every possible row, whose integer objective differs
  from the LP weight of the row's paths by less than one per path; `SpecCut.v` says what an optimal CP-SAT answer is.
* C77 aggressive `preprocess` without interruption: loop invariant `separated` (rows processed so far have no later match left), turned into an
  iff with the converse of the row comparison (`same_way_alike`); two uninterrupted runs are compared step by step. Script level: the
  number of clock readings before preprocessing is computed from the two loops over CART trees. Witness: 6000 rows and a limit that is
  used up exactly when preprocessing starts.
* C78 time of `fit`: the run is cut at the clock readings into a `timeline` (`SpecReport.v`); an invariant over `fit` (`TimelineProofs.v`) says that
  every counter is the sum of the intervals that contain a call of its kind.
* C79 cuts and times of the results file: `CutCountProofs.v` (each new constraint is counted once), `CutPaceProofs.v` (ten per round, rounds only
  in every tenth iteration), both as invariants of `fit`; the script's columns are read off the trained estimator. The time spent on
  generating cuts (`mster_cuts_time`) is the subject of C86.
* C80 options: `ScriptModel.v` models getopt's result as a list of options and `int` as an argument; induction over the list from the right against
  `asked` in `SpecScript.v`, which says for each setting which option counts.
* C81 labels and tables: a table is a list of column names with rows over any type of values; `LabelEncoder` is sorted insertion. Proved by induction for
  every strict total order; `C81_data` and `C81_failures` decide all outcomes of loading, `C81_input` gives the hypotheses of C70 and C71 for the loaded data.
  That the label column of the test data is found by position is shown by `C81_label_position_refuted`.
* C82 results file: the file system is a function from names to contents, `script` returns how the run ends and the new files. File names are compared
  character by character (what follows the last `/` and the last `_`; decimal numbers are injective). `C82_returns` composes C80, C81 and C70.
* C83 parameters: an object of a rule classifier is a record of its parameter attributes and the objects built by its constructor; get_params, set_params,
  clone follow scikit-learn's documented behaviour (version 0.24 or later: get_params raises for a missing attribute). Histories are lists of actions;
  `fit_ext` (ParamsProofs.v) shows that fit only depends on the answers for existing subproblems, so runs of the objects are runs of BdrFitModel.v.
  For the tree classifier attributes are a list of names in the order of the assignments. Values of other types and nested names are not modelled.
* C84 second classifier from the same lists: `ReuseModel.again` gives the constructor arguments as a training leaves them (paths, nodes, splits, and the rows if
  shared). Proved from the invariant of the reachable master states and the termination theorem of C65 applied twice. The witnesses for cuts and shared rows are
  reachable master states, not states after a completed `fit`. Other aliasing of the lists (e.g. two classifiers alive at once) is not modelled.
* C85 life of an estimator: `LifeModel` puts label encoding and decoding and the checks of `check_X_y`, `check_array` and `check_is_fitted` around `FitModel.fit`; a user's calls are a list of operations, their results a
  list of replies. The general theorems quantify over any `kind` of estimator (objects plugged into fit, what a raising call leaves behind, function from samples to class codes); `C85_same_predict` ties the two instances to the
  models of predict used by C19 and C45. By induction over the list of calls; the renaming theorem is a simulation between runs over two label types.
* C86 time for cuts: `CutTimeModel.v` adds the readings of the clock inside `solve_rmp` to the model of training; every call of the master problem records
  what it read. An erasure argument (`CutTimeProofs.v`) shows that training without the readings is that of `TreeFitModel.v`; the bound compares the readings inside a call with
  those of `fit` around it (`one_clock`), by induction over the timeline of C78. The witness of `C86_refit_refuted` is computed: eleven trainings of one iteration each.
* C87 record of the solves: an invariant over `fit` and over the list of trainings (`TunedProofs.v`) ties the attributes of each subproblem to a list of solves, one for each call that asks
  it for columns; the state of each parameter is the one C03-C06 speak about after the corresponding calls. `C87_first_settings` follows from C04.
* C88 end of the cut rounds: induction over `cut_rounds` (`TreeSettleProofs.v`) finds the state in which the last round looked for cuts; each earlier round added a constraint, so fewer new
  constraints than rounds means that there was such a round. C76's argument, stated for any state that meets the invariant (`complete_inv`), and C42's apply to it. `PropSettleNeeded.v` has the witness that unused rounds are needed.
* C89 two problems with the same sides: a simulation. `TwinProofs.v` shows function by function that the master problem, the subproblems and prediction read samples and thresholds only
  through comparisons that come out the same, and that the two states differ in samples and tests of splits only; `RelProofs.v` lifts related calls to related trainings for any world. The
  corollaries (increasing functions, reordered columns, samples between thresholds) instantiate it.
* C90 larger limits: `MoreProofs.v` compares the two trainings piece by piece: each piece behaves the same, or the first one has just set time_limit_reached_ and returns while the second
  goes on; by induction on the fuel the loop with the larger limits passes through the state in which the other stops, up to clock readings, and only appends to the trace and the paths. The
  last part joins this with C37 (every tree made of generated paths is a solution of the selection problem) and C67 (weights of the selected paths). `PropMoreNeeded.v` has the witness that right promises are needed. `MoreRuleProofs.v` and `PropMoreRules.v` do the same for the rule classifiers with C28 and C62.
* C91 bound of rule training: `RuleBoundProofs.v` adds to the invariant of a training run that every generated clause is no longer than the budget or the heuristic allows. The last LP
  solution of one training is then a solution of problem (1) for the other, and C28 bounds it. `PropRuleBoundNeeded.v` runs the model on three samples where a longer heuristic clause
  changes the bound from 1 to 2/3.
* C92 tree training against other trainings: the tree learned by one estimator is a tree over the candidate splits of the other (the outcome lemma of `TreeOutcomeProofs.v`), so C66 and
  C67 bound it; whole weights turn a gap below 1 into 0.
* C93 rows and features: `RuleRowsProofs.v` carries a solution of problem (1) over to fewer rows (permutation of the penalties) and to other columns (renaming the literals); the
  bound of one training is attained by such a solution (as in C91), and C28 applies to the other training.
* C94 tree trainings on different data: every correctly classified row of the part is one of the whole (injection of the rows), so C66 and C67 for the whole data bound
  the tree learned from the part; applied in both directions for the order of the rows.
  `PropMerged.v` replaces the injection by a transport of the row weights, which covers merged and copied rows.
* C15, C32, C48, C58, C71 (time limit), C72 (ties), C77 (preprocessing limit), C81 (label column), C83 (set_params), C84 (unconditional reuse), C85 (failed fit without effect, training again), C86 (several trainings) are claims a user relies on that the code violates: proved as `..._refuted` with witnesses, next
  to the strongest true version.

## What is modelled and what is not

Modelled, function by function with line references in the comments:

* `_parameter_tuner.py`: all of `RunningStat` and `Parameter` except `print_stats`.
* `_col_gen_classifier.py`: `BaseSubproblem.get_tunable_params`, `solve_model`; `ColGenClassifier.__init__`, `fit`.
* `_bdr_classifier.py`: `BDRMasterProblem`, `BDRSubProblem`, `BDRHeuristic`, both classifiers (their parameters in `ParamsModel.v`).
* `_dtree_classifier.py`: `Row`, `Path`, `Node`, `Leaf`, `Split`, the row/cut/path functions, `CutGenerator`,
  `DTreeMasterProblem`, `DTreeSubProblem`, `DTreeSubProblemSat` with `PathGenerator`, `DTreeSubProblemHeuristic`,
  `DTreeSubProblemOld`, `DTreeClassifier`.
* `examples/dtree_experiment.py`: the functions from `add_rows_to_splits` (386) to `reduce_splits` (791), and `main`
  (`prepare` in `ExpModel.v`, training and the reported values in `ExpMainModel.v`, options, data files, label encoding
  and the results file in `ScriptModel.v`).

Not modelled:

* printing, statistics shown only in the log, the debugging output of models;
* the OR-Tools solvers themselves, their tolerances and their time limits (their answers are arguments);
* scikit-learn: `check_X_y`, `check_array` beyond the shape checks of C85, `unique_labels`, CART fitting (its arrays are arguments), cross validation;
* `getopt`, `int()`, the text of data files (`read_csv` is an argument that gives a table or an exception) and of numbers
  in the results file;
* rounding of floating-point arithmetic, except for the running statistics (C02), and overflow everywhere;
* `setup.py`, `doc/`, and the tests.

## Trusted base

* Coq 8.16.1's kernel (and `vm_compute`, used in the examples and witnesses).
* That the definitions in `*Model.v` say what the Python says. The line references in the comments are there to check
  it. `seeded/LOG.jsonl` records which edits of the model each theorem notices.
* `Print Assumptions` after every theorem. All theorems are "Closed under the global context" except:
  * `C02_binary64_variance_never_negative`, `C02_binary64_mean_within_pushed_values` (Flocq over the standard reals):
    `ClassicalDedekindReals.sig_not_dec`, `ClassicalDedekindReals.sig_forall_dec`,
    `FunctionalExtensionality.functional_extensionality_dep`, `Classical_Prop.classic`;
  * `C05_exploitation_choice`, `C05_every_eligible_choice_is_possible` (square roots): the first three of these.
* No axiom, parameter, functor or module type is declared here, and no kernel check is switched off.
* `coqchk` (the separate checker) was run on compiled copies of `TreeOutcomeProofs`, `RuleBoundProofs`, `MoreProofs` and `MoreRuleProofs` with everything they
  import. It accepted them. The axioms it lists are those of the standard reals, which the loaded library files contain; there are no others, and no
  constant relies on type-in-type, unsafe fixpoints or assumed positivity.

{"id": "C01", "title": "Running statistics equal batch statistics", "statement": "After any sequence of RunningStat.push and clear calls, num_data_values() is the number of values pushed since the last clear, mean() is their arithmetic mean (0.0 when none) and variance() is their sample variance with denominator n-1 (0.0 when n<=1).", "quantifier": "every finite history of push/clear calls with arbitrary (exact) values", "why_tests_cant": "the recurrence is incremental; a test only samples a few short histories and never clear-then-push interleavings of every length", "anchors": ["col_gen_estimator/_parameter_tuner.py:RunningStat"]}
{"id": "C02", "title": "Running statistics stay in range", "statement": "variance() is never negative for any history, so standard_deviation() never raises a math domain error, and mean() lies between the smallest and largest value pushed since the last clear. The non-negativity also holds for IEEE binary64 arithmetic when nothing overflows.", "quantifier": "every history of push/clear calls", "why_tests_cant": "a negative accumulator would only show on particular value sequences", "anchors": ["col_gen_estimator/_parameter_tuner.py:RunningStat.variance", "col_gen_estimator/_parameter_tuner.py:RunningStat.standard_deviation"]}
{"id": "C03", "title": "get_best_value always returns a registered value", "statement": "For every history of calls and every random stream, once at least one value was added get_best_value returns one of the added values and its internal 'bucket is never empty' assertion never fires; with no values it raises and changes nothing.", "quantifier": "every history of add_value/adjust_score/set_*/get_best_value calls, every random stream", "why_tests_cant": "the assertion depends on accumulated scores and random draws", "anchors": ["col_gen_estimator/_parameter_tuner.py:Parameter.get_best_value"]}
{"id": "C04", "title": "Exploration schedule of the tuner", "statement": "While explore_count_ > 0 each get_best_value decrements it by one and does not look at scores; with exactly two values it returns the second one iff (switch_flag & explore_count) > 0; so with flag 2^k any 2^(k+1) consecutive exploring calls return each of the two values exactly 2^k times, and after explore_count calls it exploits.", "quantifier": "every explore count, switch flag, score history, random stream", "why_tests_cant": "quantifies over all counts and flags", "anchors": ["col_gen_estimator/_parameter_tuner.py:Parameter.get_best_value", "col_gen_estimator/_parameter_tuner.py:Parameter.set_switch_flag", "col_gen_estimator/_parameter_tuner.py:Parameter.set_explore_count"]}
{"id": "C05", "title": "Exploitation picks under-sampled or near-best values", "statement": "When exploration is over, if some value was scored fewer than 4 times get_best_value returns a value scored fewer than 4 times; otherwise it returns a value whose final score plus a tenth of its standard deviation is at least the maximum final score, and every such value can be returned by some random draw.", "quantifier": "every tuner state reachable by any history, every random stream", "why_tests_cant": "depends on the joint state of all counters and scores", "anchors": ["col_gen_estimator/_parameter_tuner.py:Parameter.get_best_value"]}
{"id": "C06", "title": "Tuner score bookkeeping", "statement": "After any history, the count of a value is the number of scores credited to it, total_counts_ is the sum of all counts, and its final score is 5.0 if never scored and otherwise (mean of credited scores) + c_fac/count; adjust_score() without index credits exactly the value last returned by get_best_value and no other value.", "quantifier": "every history of tuner calls", "why_tests_cant": "history property", "anchors": ["col_gen_estimator/_parameter_tuner.py:Parameter.adjust_score", "col_gen_estimator/_parameter_tuner.py:Parameter.add_value"]}
{"id": "C07", "title": "Solve scoring of the pricing solver", "statement": "Every solve_model call runs the solver with registered parameter values, appends exactly one wall time and one gap, and credits the same score -(time+gap) once to each tunable parameter, to the value used in that solve; the gap score lies in [0,1] (0 iff optimal or no gap), and the only failing outcome is a FEASIBLE status with objective = bound = 0 (division by zero).", "quantifier": "every solver status, objective, bound, wall time and tuner history", "why_tests_cant": "the solver outcome cannot be enumerated", "anchors": ["col_gen_estimator/_col_gen_classifier.py:BaseSubproblem.solve_model", "col_gen_estimator/_col_gen_classifier.py:BaseSubproblem.get_tunable_params"]}
{"id": "C08", "title": "Iteration cap", "statement": "If max_iterations > 0, fit performs at most max_iterations iterations and iter_ equals the number of solve_rmp calls; for max_iterations <= 0 (zero included) the cap never ends the loop.", "quantifier": "every master problem, subproblem list, clock and iteration limit", "why_tests_cant": "must hold for all subclasses plugged into the template", "anchors": ["col_gen_estimator/_col_gen_classifier.py:ColGenClassifier.fit"]}
{"id": "C09", "title": "mp_optimal_ means a complete unsuccessful pricing round", "statement": "mp_optimal_ is True after fit iff in the last iteration every subproblem of every level was asked for columns with the duals of that iteration, none of the returned columns was accepted by add_column, and no time check failed. It is False when the loop ended by the iteration cap or the time limit.", "quantifier": "every master problem, subproblem list, clock and limit", "why_tests_cant": "depends on exit path of a nested loop with three break conditions", "anchors": ["col_gen_estimator/_col_gen_classifier.py:ColGenClassifier.fit"]}
{"id": "C10", "title": "Call protocol and level discipline of fit", "statement": "Every iteration is: one solve_rmp, then update_subproblem exactly once on every subproblem in level order with that solve's duals, then generate_columns in level order with the same duals until one subproblem gets a column accepted; a subproblem is asked only if all earlier ones (all of the lower levels) produced no accepted column in this iteration; every generated column is offered to add_column exactly once in order.", "quantifier": "every plugged-in master/subproblem behaviour and every clock", "why_tests_cant": "trace property of the template method", "anchors": ["col_gen_estimator/_col_gen_classifier.py:ColGenClassifier.fit"]}
{"id": "C11", "title": "Column accounting", "statement": "num_col_added_sp_ has the shape of subproblems and its entry (l,i) is exactly the number of columns produced by subproblem (l,i) that add_column accepted during this fit; columns accepted in one iteration all come from one subproblem.", "quantifier": "every run of fit", "why_tests_cant": "history property over all runs", "anchors": ["col_gen_estimator/_col_gen_classifier.py:ColGenClassifier.fit"]}
{"id": "C12", "title": "Time limit", "statement": "With time_limit > 0 no subproblem is asked for columns when the elapsed time read just before exceeds the limit; the first such reading sets time_limit_reached_, ends the loop in that iteration and leaves mp_optimal_ False. With time_limit <= 0 the clock has no influence on the sequence of calls.", "quantifier": "every clock, limit and subproblem behaviour", "why_tests_cant": "schedules of wall-clock readings cannot be enumerated", "anchors": ["col_gen_estimator/_col_gen_classifier.py:ColGenClassifier.fit"]}
{"id": "C13", "title": "End of fit", "statement": "When fit returns, solve_ip was called exactly once, after all column generation, iff rmp_is_ip, it reported success, and the estimator is marked fitted; if solve_ip reports failure fit raises AssertionError and does not mark the estimator fitted.", "quantifier": "every run of fit", "why_tests_cant": "exit-path property", "anchors": ["col_gen_estimator/_col_gen_classifier.py:ColGenClassifier.fit"]}
{"id": "C14", "title": "Single-class targets are rejected before any work", "statement": "fit raises ValueError iff y has fewer than two distinct labels, and in that case neither the master problem nor any subproblem is called.", "quantifier": "every target vector", "why_tests_cant": "all inputs", "anchors": ["col_gen_estimator/_col_gen_classifier.py:ColGenClassifier.fit"]}
{"id": "C15", "title": "performed_iter_ counts iterations", "statement": "The documented attribute performed_iter_ equals the number of column generation iterations performed. (The code never increments it: refuted for every run with at least one iteration.)", "quantifier": "every run of fit", "why_tests_cant": "documented attribute, never tested", "anchors": ["col_gen_estimator/_col_gen_classifier.py:ColGenClassifier.fit"]}
{"id": "C16", "title": "num_improving_iter_ counts improving master solves", "statement": "num_improving_iter_ equals the number of iterations in which rmp_objective_improved() returned True, hence is at most iter_.", "quantifier": "every run of fit", "why_tests_cant": "history property", "anchors": ["col_gen_estimator/_col_gen_classifier.py:ColGenClassifier.fit"]}
{"id": "C17", "title": "Time accounting", "statement": "With a non-decreasing clock all reported times (master, every subproblem, column addition, integer solve) are non-negative and their sum is at most the total duration of fit; time_elapsed_ is the duration since the start (or since the last timer reset).", "quantifier": "every non-decreasing clock and every run", "why_tests_cant": "all clock schedules", "anchors": ["col_gen_estimator/_col_gen_classifier.py:ColGenClassifier.fit"]}
{"id": "C18", "title": "Progress and termination of column generation", "statement": "Every iteration except the last one adds at least one column, so iter_ <= 1 + total number of accepted columns; with max_iterations > 0, or when only finitely many columns can ever be accepted, the loop terminates.", "quantifier": "every run of fit", "why_tests_cant": "liveness over unbounded loops", "anchors": ["col_gen_estimator/_col_gen_classifier.py:ColGenClassifier.fit"]}
{"id": "C19", "title": "Boolean rule prediction is the DNF of the explanation", "statement": "BooleanDecisionRuleClassifier.predict returns for every sample the second class label iff the sample has all features of some clause of the explanation non-zero, and the first label otherwise; each prediction depends only on its own sample.", "quantifier": "every explanation, every input matrix, every pair of labels", "why_tests_cant": "all inputs", "anchors": ["col_gen_estimator/_bdr_classifier.py:BooleanDecisionRuleClassifier.predict", "col_gen_estimator/_bdr_classifier.py:BDRMasterProblem.satisfies_clause"]}
{"id": "C20", "title": "Predicted rule is monotone", "statement": "Changing zero features of a sample to non-zero never changes its prediction from positive to negative; adding clauses to the explanation never removes a positive prediction; extending a clause never adds one.", "quantifier": "every sample pair and explanation", "why_tests_cant": "relational property over all inputs", "anchors": ["col_gen_estimator/_bdr_classifier.py:BDRMasterProblem.satisfies_clause"]}
{"id": "C21", "title": "The restricted master problem is exactly problem (1) restricted to the generated clauses", "statement": "After generate_mp and any sequence of successful or failed add_column calls the solver model is: minimise p*sum xi + sum_k (number of negative samples satisfying clause k)*w_k subject to xi_i + sum of w_k over clauses satisfied by the i-th positive sample >= 1 and sum (1+|k|) w_k <= C, xi,w >= 0 - no other coefficient, variable or constraint.", "quantifier": "every binary data set and every sequence of clauses", "why_tests_cant": "invariant over histories", "anchors": ["col_gen_estimator/_bdr_classifier.py:BDRMasterProblem.generate_mp", "col_gen_estimator/_bdr_classifier.py:BDRMasterProblem.add_column", "col_gen_estimator/_bdr_classifier.py:BDRMasterProblem.get_clause_coeffs", "col_gen_estimator/_bdr_classifier.py:BDRMasterProblem.get_objective_coeff_mp"]}
{"id": "C22", "title": "Rejected columns leave the master untouched", "statement": "add_column of an empty clause returns False and of an already present clause raises AssertionError, in both cases without any change of the model; otherwise it returns True and adds exactly one variable and no constraint.", "quantifier": "every master state and clause", "why_tests_cant": "all histories", "anchors": ["col_gen_estimator/_bdr_classifier.py:BDRMasterProblem.add_column"]}
{"id": "C23", "title": "Lexicographic clause enumeration is a bijection", "statement": "generate_lexicographic_clause(i) is the strictly increasing list of the positions of the one-bits of i; distinct indices give distinct clauses and every strictly increasing clause is generated by exactly one index.", "quantifier": "every natural number", "why_tests_cant": "infinite domain", "anchors": ["col_gen_estimator/_bdr_classifier.py:BDRMasterProblem.generate_lexicographic_clause"]}
{"id": "C24", "title": "The clause heuristic enumerates exactly the improving short clauses", "statement": "BDRHeuristic.generate_columns returns, without repetition, exactly the strictly increasing clauses of 1..K existing features whose reduced cost is below -1e-6, shorter first and lexicographically within a size.", "quantifier": "every data set, K and non-negative duals", "why_tests_cant": "all inputs", "anchors": ["col_gen_estimator/_bdr_classifier.py:BDRHeuristic.generate_columns"]}
{"id": "C25", "title": "The heuristic reduced cost is the LP reduced cost of the column", "statement": "The number the heuristic compares with -1e-6 equals the objective coefficient minus the dual-weighted constraint coefficients of the column that add_column would create for that clause, for the dual values returned by solve_rmp.", "quantifier": "every data set, clause and dual vector with the sign a minimisation LP has", "why_tests_cant": "relation between two independently written computations", "anchors": ["col_gen_estimator/_bdr_classifier.py:BDRHeuristic.generate_columns", "col_gen_estimator/_bdr_classifier.py:BDRMasterProblem.add_column", "col_gen_estimator/_bdr_classifier.py:BDRMasterProblem.solve_rmp"]}
{"id": "C26", "title": "Exact pricing of clauses", "statement": "Every feasible point of the subproblem integer program selects a clause of at most D features and its objective is at least that clause's reduced cost; conversely every clause of at most D features is a feasible point whose objective equals its reduced cost. If the solver returns an optimal solution, generate_columns returns [] iff no clause of at most D features has reduced cost below -1e-6, and a returned clause has the smallest reduced cost; a merely feasible solution still yields only improving clauses of at most D features (but may return [] although an improving clause exists).", "quantifier": "every data set, D, duals and solver answer that is feasible/optimal", "why_tests_cant": "quantifies over exponentially many clauses", "anchors": ["col_gen_estimator/_bdr_classifier.py:BDRSubProblem.create_submip", "col_gen_estimator/_bdr_classifier.py:BDRSubProblem.generate_columns"]}
{"id": "C27", "title": "Re-pricing equals rebuilding the subproblem", "statement": "On the same data, after any sequence of generate_columns calls the subproblem model is identical to a freshly created one for the latest duals.", "quantifier": "every sequence of dual vectors", "why_tests_cant": "history property", "anchors": ["col_gen_estimator/_bdr_classifier.py:BDRSubProblem.update_objective", "col_gen_estimator/_bdr_classifier.py:BDRSubProblem.create_submip"]}
{"id": "C28", "title": "Optimality certificate of boolean rule column generation", "statement": "If fit ends with mp_optimal_ and the LP and pricing solvers are exact, the last RMP solution is LP-optimal and no solution of problem (1) over all clauses of at most C features, fractional or integer, has an objective below the last RMP objective by more than 1e-6*C; in particular no decision rule of complexity at most C has p*(missed positives) + sum over its clauses of accepted negatives below it. With an LP solver whose duals are right up to tau <= 1e-6 and pricing solutions optimal up to g, the same bound holds for the dual objective of the last duals, lowered by (1e-6 + g + tau)*C + tau*(number of positive samples). With an integer solver that is optimal up to g the learned rule's training loss is at most that cost of every rule made of generated clauses plus g.", "quantifier": "every data set, parameter and run", "why_tests_cant": "bounds an exponentially large LP", "anchors": ["col_gen_estimator/_bdr_classifier.py:BooleanDecisionRuleClassifier", "col_gen_estimator/_col_gen_classifier.py:ColGenClassifier.fit"]}
{"id": "C29", "title": "The explanation respects the complexity budget and its loss is bounded by the integer objective", "statement": "After solve_ip with a feasible integer solution the explanation consists of distinct generated clauses, sum over clauses of (1+length) <= C, and on the training data p*(missed positives) + (accepted negatives) of predict is at most the integer objective value.", "quantifier": "every data set and feasible integer solution", "why_tests_cant": "all inputs and solver answers", "anchors": ["col_gen_estimator/_bdr_classifier.py:BDRMasterProblem.solve_ip", "col_gen_estimator/_bdr_classifier.py:BooleanDecisionRuleClassifier.predict"]}
{"id": "C30", "title": "Master and pricing models are always feasible", "statement": "For C >= 0 the restricted master (LP and integer) is feasible in every reachable state, and for D >= 0 the clause pricing problem is feasible, so the has_solution assertions cannot fail with a complete solver.", "quantifier": "every data set and history", "why_tests_cant": "all inputs", "anchors": ["col_gen_estimator/_bdr_classifier.py:BDRMasterProblem.solve_ip", "col_gen_estimator/_bdr_classifier.py:BDRSubProblem.generate_columns"]}
{"id": "C31", "title": "The duplicate-clause assertion does not fire under valid duals", "statement": "If the duals are dual feasible for the current RMP up to 1e-6, neither the heuristic nor the exact pricing returns a clause already in the RMP (except the rejected empty one cannot be returned either), so fit never fails on 'Avoid adding duplicates'.", "quantifier": "every data set, history and dual vector", "why_tests_cant": "needs LP duality reasoning", "anchors": ["col_gen_estimator/_bdr_classifier.py:BDRMasterProblem.add_column", "col_gen_estimator/_bdr_classifier.py:BDRHeuristic.generate_columns", "col_gen_estimator/_bdr_classifier.py:BDRSubProblem.generate_columns"]}
{"id": "C32", "title": "Refitting uses the new data", "statement": "A second fit of the same estimator on different data trains on the new data. (generate_mp returns early once generated: refuted.)", "quantifier": "every pair of data sets", "why_tests_cant": "history over several fits", "anchors": ["col_gen_estimator/_bdr_classifier.py:BDRMasterProblem.generate_mp", "col_gen_estimator/_dtree_classifier.py:DTreeMasterProblem.generate_mp", "col_gen_estimator/_col_gen_classifier.py:ColGenClassifier.fit"]}
{"id": "C33", "title": "Leaf and path geometry of the complete tree", "statement": "For every depth d and leaf id < 2^d, create_leaf lists exactly the d ancestors of heap position 2^d-1+id, each once, in left_nodes iff the leaf is in its left subtree and right_nodes otherwise; set_leaf lists the same nodes from bottom to root; different leaves of one depth have different left/right signatures.", "quantifier": "every depth and leaf id", "why_tests_cant": "unbounded depth", "anchors": ["col_gen_estimator/_dtree_classifier.py:Leaf.create_leaf", "col_gen_estimator/_dtree_classifier.py:Path.set_leaf"]}
{"id": "C34", "title": "Every sample follows exactly one path of a tree", "statement": "If one split is assigned to every internal node of the complete tree of depth d and each leaf's path uses those splits, then every sample (seen or unseen) satisfies exactly one of the 2^d paths: the one of the leaf reached by walking from the root with feature <= threshold going left.", "quantifier": "every depth, split assignment and sample", "why_tests_cant": "all samples and depths", "anchors": ["col_gen_estimator/_dtree_classifier.py:row_satisfies_path", "col_gen_estimator/_dtree_classifier.py:DTreeClassifier.predict"]}
{"id": "C35", "title": "Set-based row membership equals direct evaluation", "statement": "If every split's left_rows/right_rows are the rows with feature <= threshold and the others (as add_rows_to_splits produces), get_satisfied_rows(path) is exactly the set of rows for which row_satisfies_path holds.", "quantifier": "every data set, split list and path", "why_tests_cant": "two independent implementations", "anchors": ["col_gen_estimator/_dtree_classifier.py:get_satisfied_rows", "col_gen_estimator/_dtree_classifier.py:row_satisfies_path", "examples/dtree_experiment.py:add_rows_to_splits"]}
{"id": "C36", "title": "The tree master model is the path formulation for every history", "statement": "After generate_mp and any sequence of add_column, add_beta_cuts and add_cuts calls, the solver model has for every path one variable with its cost as objective coefficient, and its coefficient is 1 in the constraint of its leaf, in the constraints of exactly the added rows and cuts it satisfies, and in exactly the consistency constraints of its (leaf,node,split) choices, and 0 elsewhere.", "quantifier": "every instance and every sequence of operations", "why_tests_cant": "invariant over histories; generate_mp and add_column compute coefficients differently", "anchors": ["col_gen_estimator/_dtree_classifier.py:DTreeMasterProblem.generate_mp", "col_gen_estimator/_dtree_classifier.py:DTreeMasterProblem.add_column", "col_gen_estimator/_dtree_classifier.py:DTreeMasterProblem.add_beta_cuts", "col_gen_estimator/_dtree_classifier.py:DTreeMasterProblem.add_cuts"]}
{"id": "C37", "title": "Integer master solutions are decision trees and predict evaluates them", "statement": "If all paths use candidate splits of their nodes, any integer feasible solution of the master selects exactly one path per leaf and the selected paths agree on the split of every common node; predict then returns for every sample the target of the leaf reached by walking that tree.", "quantifier": "every instance, solution and sample", "why_tests_cant": "all solver answers and all unseen samples", "anchors": ["col_gen_estimator/_dtree_classifier.py:DTreeMasterProblem.solve_ip", "col_gen_estimator/_dtree_classifier.py:DTreeClassifier.predict"]}
{"id": "C38", "title": "The integer objective is the training accuracy of the prediction", "statement": "If each path's cost is the (weighted) number of training rows following it whose class is the path's target, the integer master objective equals the (weighted) number of training rows predict classifies correctly.", "quantifier": "every instance and integer feasible solution", "why_tests_cant": "all solver answers", "anchors": ["col_gen_estimator/_dtree_classifier.py:DTreeMasterProblem.solve_ip", "col_gen_estimator/_dtree_classifier.py:DTreeClassifier.predict"]}
{"id": "C39", "title": "Omitted row constraints are implied", "statement": "Every integer solution of the leaf and consistency constraints satisfies each row constraint (exactly one selected path per row), and every fractional solution satisfies the row constraint of each row that can reach at most two leaves - so removing such rows from the master never changes the feasible set.", "quantifier": "every instance, fractional solution and row", "why_tests_cant": "polyhedral statement", "anchors": ["col_gen_estimator/_dtree_classifier.py:DTreeMasterProblem.preprocess_rows", "col_gen_estimator/_dtree_classifier.py:DTreeMasterProblem.generate_mp"]}
{"id": "C40", "title": "Reachable leaves are computed exactly", "statement": "preprocess_rows records leaf l as reachable for a row iff some choice of candidate splits sends the row to l, and marks the row removed_from_master iff at most two leaves are reachable.", "quantifier": "every depth, candidate splits and row", "why_tests_cant": "unbounded depth", "anchors": ["col_gen_estimator/_dtree_classifier.py:DTreeMasterProblem.preprocess_rows", "examples/dtree_experiment.py:preprocess"]}
{"id": "C41", "title": "Generated cuts are violated, consistent and never remove a tree", "statement": "Every cut added by add_cuts is violated by the LP solution it was generated from, its coefficients agree with the coefficients add_column gives to later paths, and every integer solution that is a decision tree satisfies it.", "quantifier": "every LP solution, cut-model solution and tree", "why_tests_cant": "all solver answers", "anchors": ["col_gen_estimator/_dtree_classifier.py:DTreeMasterProblem.add_cuts", "col_gen_estimator/_dtree_classifier.py:CutGenerator", "col_gen_estimator/_dtree_classifier.py:DTreeMasterProblem.create_cut_gen_model", "col_gen_estimator/_dtree_classifier.py:get_satisfied_cuts"]}
{"id": "C42", "title": "Row cuts are bounded, new and violated", "statement": "Each add_beta_cuts call adds at most 10 constraints, each for a row not removed and not yet present whose LP path sum differs from 1 by more than 1e-6, with coefficient 1 exactly for the paths the row follows; if it adds fewer than 10 no violated eligible row remains.", "quantifier": "every master state and LP solution", "why_tests_cant": "all states", "anchors": ["col_gen_estimator/_dtree_classifier.py:DTreeMasterProblem.add_beta_cuts", "col_gen_estimator/_dtree_classifier.py:DTreeMasterProblem.violated_row_constraint"]}
{"id": "C43", "title": "Heuristic tree paths are well-formed and new", "statement": "Every path returned by DTreeSubProblemHeuristic belongs to a given leaf, has exactly its nodes, uses for each node one of its candidate splits with no split used twice, has reduced cost above 1e-6, and no two returned paths are the same; at most 100 are returned and successes plus failures grow by exactly 100 per call.", "quantifier": "every instance, duals and random stream", "why_tests_cant": "random stream", "anchors": ["col_gen_estimator/_dtree_classifier.py:DTreeSubProblemHeuristic.generate_columns"]}
{"id": "C44", "title": "Heuristic tree reduced cost is the LP reduced cost", "statement": "get_reduced_cost(path) equals the path's cost minus the dual-weighted coefficients of the column add_column creates for it, for the duals returned by solve_rmp.", "quantifier": "every master state, path over candidate splits, and dual values", "why_tests_cant": "two independent computations", "anchors": ["col_gen_estimator/_dtree_classifier.py:DTreeSubProblemHeuristic.get_reduced_cost", "col_gen_estimator/_dtree_classifier.py:DTreeMasterProblem.add_column", "col_gen_estimator/_dtree_classifier.py:DTreeMasterProblem.solve_rmp"]}
{"id": "C45", "title": "Heuristic target is the majority class", "statement": "The target chosen by the heuristic maximises the weighted number of rows following the path over all classes and the cost is that maximum, independent of the set iteration order (the target may differ only among ties).", "quantifier": "every data set, weights, path and iteration order", "why_tests_cant": "iteration order of sets", "anchors": ["col_gen_estimator/_dtree_classifier.py:DTreeSubProblemHeuristic.generate_columns"]}
{"id": "C46", "title": "Decoding of the tree pricing models", "statement": "Every integral feasible point of the pricing model decodes to a path with exactly one candidate split per node, y_r = 1 iff row r follows it, and an objective at most the true reduced cost; conversely every path and target is a feasible point whose objective is its reduced cost. Any path returned by the callback has reduced cost above 1e-6.", "quantifier": "every instance, duals and feasible point", "why_tests_cant": "exponentially many paths", "anchors": ["col_gen_estimator/_dtree_classifier.py:DTreeSubProblemSat", "col_gen_estimator/_dtree_classifier.py:DTreeSubProblem", "col_gen_estimator/_dtree_classifier.py:DTreeSubProblemOld", "col_gen_estimator/_dtree_classifier.py:PathGenerator"]}
{"id": "C47", "title": "Upper bound certificate for trees", "statement": "If no path has reduced cost above eps for duals of the current RMP, every decision tree over the candidate splits classifies at most (RMP objective + eps * number of leaves) training rows correctly; with duals whose signs are right only up to tau the bound is their dual objective plus eps * number of leaves plus tau * number of inner nodes, whatever the LP solver did.", "quantifier": "every instance and dual vector", "why_tests_cant": "bounds exponentially many trees", "anchors": ["col_gen_estimator/_dtree_classifier.py:DTreeMasterProblem", "col_gen_estimator/_dtree_classifier.py:DTreeSubProblemSat"]}
{"id": "C48", "title": "predict is total on numeric samples", "statement": "A fitted DTreeClassifier predicts a class label for every numeric sample. (Paths without training rows get target -1 from the heuristic, and predict then fails on unseen samples: refuted; holds when all selected targets are class ids.)", "quantifier": "every fitted model and sample", "why_tests_cant": "needs an unseen sample reaching an empty leaf", "anchors": ["col_gen_estimator/_dtree_classifier.py:DTreeSubProblemHeuristic.generate_columns", "col_gen_estimator/_dtree_classifier.py:DTreeClassifier.predict"]}
{"id": "C49", "title": "Constructor validation", "statement": "DTreeClassifier(...) succeeds iff node ids and leaf ids are 0,1,2,... in order and every initial path has a known leaf, tree_depth nodes and splits, all known, and a known target; otherwise it raises AssertionError.", "quantifier": "every argument combination", "why_tests_cant": "all inputs", "anchors": ["col_gen_estimator/_dtree_classifier.py:DTreeClassifier.__init__"]}
{"id": "C50", "title": "Path equality", "statement": "is_same_as is reflexive, symmetric and transitive on paths with distinct nodes, and holds iff leaf, target, cost and the node-to-split assignment agree regardless of order and of path ids.", "quantifier": "every pair of paths", "why_tests_cant": "all inputs", "anchors": ["col_gen_estimator/_dtree_classifier.py:Path.is_same_as"]}
{"id": "C51", "title": "Cut rounds and dual reporting of the tree master", "statement": "solve_rmp adds cuts only in every 10th call, in at most num_cuts_round rounds, each following an optimal LP solve; row duals are reported for every row (0 for rows without constraint), duals are reported only after an optimal solve, and the returned new cuts are exactly the cuts appended in this call in index order.", "quantifier": "every master state and solver behaviour", "why_tests_cant": "history/solver dependent", "anchors": ["col_gen_estimator/_dtree_classifier.py:DTreeMasterProblem.solve_rmp"]}
{"id": "C52", "title": "Aggressive preprocessing preserves the data", "statement": "For every interruption point of the time-limited quadratic loop, the weights of the kept rows sum to the number of rows per class, and each removed row follows exactly the same paths as a kept row of the same class, so costs computed from kept weighted rows equal costs on all rows.", "quantifier": "every data set, candidate splits and interruption schedule", "why_tests_cant": "all schedules of the clock", "anchors": ["examples/dtree_experiment.py:preprocess", "col_gen_estimator/_dtree_classifier.py:DTreeMasterProblem.preprocess_rows"]}
{"id": "C53", "title": "Rows removed from pricing carry no dual", "statement": "With a non-decreasing clock every row removed_from_sp is also removed_from_master, so its row dual is 0 and skipping it does not change reduced costs.", "quantifier": "every data set and clock", "why_tests_cant": "subtle interaction of two flags", "anchors": ["examples/dtree_experiment.py:preprocess"]}
{"id": "C54", "title": "Split registry", "statement": "get_all_splits and merge_all_splits keep one split per (feature, threshold) with ids 0,1,2,... in insertion order; merging never changes an existing id.", "quantifier": "every sequence of trees merged", "why_tests_cant": "history property", "anchors": ["examples/dtree_experiment.py:get_all_splits", "examples/dtree_experiment.py:merge_all_splits", "examples/dtree_experiment.py:get_splits_list"]}
{"id": "C55", "title": "Initial paths form a tree", "statement": "get_all_leaves_paths returns for every leaf one path using each node's last split, with the majority class of the rows following it as target and its count as cost; hence the initial master is integer feasible.", "quantifier": "every depth, data and last splits", "why_tests_cant": "all inputs", "anchors": ["examples/dtree_experiment.py:get_all_leaves_paths", "examples/dtree_experiment.py:get_path_for_leaf"]}
{"id": "C56", "title": "Split reduction keeps the most frequent candidates", "statement": "reduce_splits keeps for each node the q most frequent candidates (ties by larger id), at most q, in order, and marks a split removed iff no node keeps it. With q = 0 a node is left without candidates.", "quantifier": "every candidate and count list", "why_tests_cant": "all inputs", "anchors": ["examples/dtree_experiment.py:reduce_splits"]}
{"id": "C57", "title": "CART node numbering", "statement": "get_all_nodes numbers the internal nodes of a CART tree by heap position (left child 2i+1, right child 2i+2 of its parent), so a sample descends the renumbered tree along the same splits.", "quantifier": "every binary tree", "why_tests_cant": "all trees", "anchors": ["examples/dtree_experiment.py:get_all_nodes", "examples/dtree_experiment.py:get_is_leaves"]}
{"id": "C58", "title": "Consistency needs candidate splits", "statement": "Integer master solutions are decision trees for every input accepted by the constructor. (The constructor does not check that path splits are candidates of their nodes: refuted.)", "quantifier": "every accepted input", "why_tests_cant": "needs an adversarial instance", "anchors": ["col_gen_estimator/_dtree_classifier.py:DTreeClassifier.__init__", "col_gen_estimator/_dtree_classifier.py:DTreeMasterProblem.generate_mp", "examples/dtree_experiment.py:reduce_splits"]}
{"id": "C59", "title": "Constructor shape check", "statement": "ColGenClassifier accepts subproblems and subproblem_params iff they have the same number of levels and every level the same number of entries; otherwise it raises AssertionError.", "quantifier": "every pair of shapes", "why_tests_cant": "all inputs", "anchors": ["col_gen_estimator/_col_gen_classifier.py:ColGenClassifier.__init__"]}
{"id": "C60", "title": "Fitting a boolean rule classifier never raises", "statement": "On a binary data set in which both labels occur, with an LP solver whose duals are right up to 1e-6 and not negative for the positive samples and integer solvers that return feasible solutions, fit of BooleanDecisionRuleClassifier and BooleanDecisionRuleClassifierWithHeuristic returns normally and marks the estimator fitted: no assertion (signs of duals, duplicate clauses, missing solution) can fail. A dual that an otherwise exact LP solver reports as slightly negative, however small the error, can make fit raise AssertionError.", "quantifier": "every data set, parameters, clock and solver behaviour of that kind", "why_tests_cant": "quantifies over whole runs", "anchors": ["col_gen_estimator/_bdr_classifier.py:BooleanDecisionRuleClassifier", "col_gen_estimator/_bdr_classifier.py:BooleanDecisionRuleClassifierWithHeuristic", "col_gen_estimator/_col_gen_classifier.py:ColGenClassifier.fit"]}
{"id": "C61", "title": "Column generation for rules terminates", "statement": "Under the same solver assumptions fit performs at most 2^n iterations and generates at most 2^n clauses for n features; without a positive time limit and iteration limit it always ends with mp_optimal_.", "quantifier": "every data set, parameters, clock and solver behaviour", "why_tests_cant": "termination of an unbounded loop", "anchors": ["col_gen_estimator/_bdr_classifier.py:BooleanDecisionRuleClassifier", "col_gen_estimator/_col_gen_classifier.py:ColGenClassifier.fit"]}
{"id": "C62", "title": "The learned rule is usable", "statement": "After fit the explanation is a duplicate-free list of sorted generated clauses over the training features of total complexity at most C, and predict returns for every matrix with that many columns one label per row, the second label exactly on the rows the rule accepts.", "quantifier": "every run and every later sample matrix", "why_tests_cant": "all inputs", "anchors": ["col_gen_estimator/_bdr_classifier.py:BDRMasterProblem.solve_ip", "col_gen_estimator/_bdr_classifier.py:BooleanDecisionRuleClassifier.predict"]}
{"id": "C63", "title": "Pricing and master number cuts alike", "statement": "If the heuristic pricing problem has received every set of new cuts reported by solve_rmp so far, in order, it uses for every cut the same number as the master problem; receiving them again through the shared split objects changes nothing.", "quantifier": "every history of columns, solves and cuts", "why_tests_cant": "history property", "anchors": ["col_gen_estimator/_dtree_classifier.py:DTreeSubProblemHeuristic.update_subproblem", "col_gen_estimator/_dtree_classifier.py:DTreeMasterProblem.solve_rmp", "col_gen_estimator/_dtree_classifier.py:DTreeMasterProblem.add_cuts"]}
{"id": "C64", "title": "Exact pricing certifies the tree bound", "statement": "If the master LP is solved with optimal duals and every leaf's pricing problem, solved to optimality, returns no path, then no decision tree of the given depth over the candidate splits classifies more (weighted) active training rows correctly than the master objective plus 2^depth times the pricing tolerance (1e-6; for CP-SAT 1e-6 plus the number of model variables times 1e-5, because it rounds its objective coefficients). With duals whose signs are right up to tau and pricing problems solved only to within a gap of the optimum the same holds for the dual objective of these duals plus 2^depth times the gap (1e-5 of it for CP-SAT, whose objective is scaled) plus tau times the number of inner nodes.", "quantifier": "every data set, weights, history of columns and cuts, and every decision tree and labelling", "why_tests_cant": "quantifies over all trees and all solver behaviours", "anchors": ["col_gen_estimator/_dtree_classifier.py:DTreeMasterProblem.solve_rmp", "col_gen_estimator/_dtree_classifier.py:DTreeSubProblem.generate_columns", "col_gen_estimator/_dtree_classifier.py:DTreeSubProblemSat.generate_columns", "col_gen_estimator/_dtree_classifier.py:DTreeSubProblemOld.generate_columns"]}
{"id": "C65", "title": "Training a decision tree returns and gives a usable tree", "statement": "For arguments that describe a complete tree and contain the paths of one decision tree, training data with at least two classes, an LP solver that solves feasible models with duals whose reduced costs are right up to 1e-6, an integer solver that finds a solution where there is one and pricing solvers that report only solutions, fit of DTreeClassifier returns normally after a number of iterations bounded by the data alone, for every clock, random stream and choice of solutions; the selected paths form one decision tree over the candidate splits, and predict gives every sample the class of the leaf it reaches in that tree.", "quantifier": "every such argument list, data set, solver behaviour, random stream and clock", "why_tests_cant": "quantifies over whole runs and needs termination of an unbounded loop", "anchors": ["col_gen_estimator/_dtree_classifier.py:DTreeClassifier", "col_gen_estimator/_dtree_classifier.py:DTreeMasterProblem", "col_gen_estimator/_dtree_classifier.py:DTreeSubProblemSat", "col_gen_estimator/_dtree_classifier.py:DTreeSubProblemOld", "col_gen_estimator/_dtree_classifier.py:DTreeSubProblemHeuristic", "col_gen_estimator/_col_gen_classifier.py:ColGenClassifier.fit"]}
{"id": "C66", "title": "Training to the end certifies the tree bound", "statement": "If fit of DTreeClassifier ends because no subproblem finds a column (always the case without time and iteration limit), the pricing solvers are exact and the last LP was solved to optimality, then no decision tree over the candidate splits classifies more training weight correctly than the LP objective plus 2^depth times the pricing tolerance (plus CP-SAT's coefficient rounding). With inexact duals and pricing solvers that stop within a gap of the optimum the bound is the dual objective plus the tolerances and the gaps.", "quantifier": "every run of that kind, every decision tree and every labelling of its leaves", "why_tests_cant": "quantifies over all runs and all trees", "anchors": ["col_gen_estimator/_dtree_classifier.py:DTreeClassifier", "col_gen_estimator/_col_gen_classifier.py:ColGenClassifier.fit", "col_gen_estimator/_dtree_classifier.py:DTreeSubProblemSat.generate_columns", "col_gen_estimator/_dtree_classifier.py:DTreeSubProblemOld.generate_columns"]}
{"id": "C67", "title": "Training never does worse than the initial tree", "statement": "If the costs of the initial paths are right and the integer solver is optimal up to a gap below 1, the fitted estimator classifies at least as much training weight correctly as every decision tree made of initial paths. If fit ran until no column was found, no tree over the candidate splits beats it by more than the difference between the LP objective and the cost of the selected paths, up to the tolerances.", "quantifier": "every constructor argument, training set, solver answers, clock and random numbers", "why_tests_cant": "depends on every path any subproblem ever proposed being priced no higher than what it really classifies", "anchors": ["col_gen_estimator/_dtree_classifier.py:DTreeClassifier", "col_gen_estimator/_col_gen_classifier.py:ColGenClassifier.fit", "col_gen_estimator/_dtree_classifier.py:DTreeMasterProblem.solve_ip"]}
{"id": "C68", "title": "The experiment's preparation always succeeds", "statement": "From CART trees of at most the given depth (at least one of which tests something) and any non-empty training set, the experiment script's preparation returns normally: DTreeClassifier accepts the arguments it builds, they describe a complete tree, every initial path is a root-to-leaf path labelled with a majority class of the rows that follow it, costs and ids are right, no two paths are equal, and with a steady clock rows merged by preprocessing are indistinguishable to the candidate splits. If no initial path loses its splits in the reduction, training on the result terminates with a decision tree.", "quantifier": "every depth, list of CART trees, data set, clock and option", "why_tests_cant": "quantifies over all trees and data sets", "anchors": ["examples/dtree_experiment.py:main", "examples/dtree_experiment.py:get_all_leaves_paths", "examples/dtree_experiment.py:merge_all_nodes", "examples/dtree_experiment.py:reduce_splits", "examples/dtree_experiment.py:preprocess"]}
{"id": "C69", "title": "The experiment never does worse than the CART tree it starts from", "statement": "If every initial path keeps its splits at its nodes in the reduction of the candidates to the most frequent ones (as is the case wherever the final tree has a test) and the integer solver is optimal up to a gap below 1, the trained estimator classifies at least as many training rows correctly as the final CART tree and as every additional CART tree that has a kept test at every node, whatever classes these trees have at their leaves; this includes rows removed by preprocessing. (The proviso on the additional CART trees is needed: without it the estimator can end with paths that form no tree and do worse.)", "quantifier": "every experiment input, solver behaviour, clock and number of iterations", "why_tests_cant": "quantifies over whole runs from raw data to the predictions", "anchors": ["examples/dtree_experiment.py:main", "col_gen_estimator/_dtree_classifier.py:DTreeClassifier.fit", "col_gen_estimator/_dtree_classifier.py:DTreeClassifier.predict"]}
{"id": "C70", "title": "The experiment script runs to its end and its accuracies mean what they say", "statement": "For data with at least two classes and CART trees of the wanted depth whose candidate splits are kept, the experiment script's preparation and training return whatever the clocks, options and honest solvers do, and the training accuracy is always computed; the only failure possible is ValueError from predicting a test sample that ends in a leaf without a class. The CART row and the column generation row report the exact shares of right predictions on training and test data, and with an integer solver that is optimal up to a gap below 1 the training accuracy of the second row is at least that of the first, provided scikit-learn's conversion of the training samples to float32 moves none of them across a threshold (C72). Fewer than 300 and 100 CART trees are used only if the preprocessing time was exceeded.", "quantifier": "every data set, CART trees, options, clocks, random streams and solver behaviour", "why_tests_cant": "quantifies over whole runs of the script", "anchors": ["examples/dtree_experiment.py:main", "col_gen_estimator/_dtree_classifier.py:DTreeClassifier", "col_gen_estimator/_col_gen_classifier.py:ColGenClassifier.fit"]}
{"id": "C71", "title": "The experiment's time limit, iteration limit and reported counts", "statement": "The CART row reports the time of the final CART fit and zeros elsewhere. The script performs at most the requested number of iterations; the reported numbers of iterations, improving iterations and added columns are those of the run, and the master problem's columns at the end are the initial paths followed by the added ones. The reported hit rate of the heuristic pricing is the number of paths it returned over 100 times the number of its calls, between 0 and 1. If preprocessing ends before the time limit, every pricing request is made while preprocessing time plus training time is within the limit. (False without that proviso: if preprocessing takes longer than the limit, the remainder is not positive and training runs without any limit.)", "quantifier": "every run of the script, every clock", "why_tests_cant": "depends on all clock readings and whole runs", "anchors": ["examples/dtree_experiment.py:main", "col_gen_estimator/_col_gen_classifier.py:ColGenClassifier.fit", "col_gen_estimator/_dtree_classifier.py:DTreeMasterProblem.add_column"]}
{"id": "C72", "title": "CART's float32 conversion does not change training predictions", "statement": "scikit-learn converts samples to float32 before testing them against float64 thresholds, DTreeClassifier tests the float64 values. For CART trees whose thresholds are float64 midpoints of neighbouring converted training values both take the same branch on every training sample whose value is not exactly a threshold that float32 rounds upwards; so the paths, rows and scores taken from CART trees agree with CART's own predictions. (The proviso is needed: with such a tie the trained estimator can have a lower training accuracy than the CART tree it starts from. It does not extend to unseen samples either.)", "quantifier": "every data set of float64 values, every round-to-nearest conversion, every CART tree with such thresholds", "why_tests_cant": "depends on floating point ties that occur for very few values", "anchors": ["examples/dtree_experiment.py:main", "examples/dtree_experiment.py:get_all_leaves_paths", "col_gen_estimator/_dtree_classifier.py:DTreeClassifier.predict"]}
{"id": "C73", "title": "What preprocessing records about rows", "statement": "preprocess_rows of the master problem and preprocess of the experiment script return on every valid training problem; they record for every training row exactly the splits where it goes left and right, the nodes and the leaves some tree of candidate splits can lead it to, and fill in parents and children of the complete tree. preprocess_rows records exactly the paths the row follows, and removes a row from the master problem iff it can reach at most two leaves or, with aggressive=True, an earlier kept row follows the same paths.", "quantifier": "every training problem, both modes, every clock", "why_tests_cant": "quantifies over all trees of candidate splits and all data sets", "anchors": ["col_gen_estimator/_dtree_classifier.py:DTreeMasterProblem.preprocess_rows", "examples/dtree_experiment.py:preprocess", "examples/dtree_experiment.py:preprocess_nodes"]}
{"id": "C74", "title": "Resetting the master problem removes exactly the generated paths", "statement": "remove_gen_vars of the tree master problem succeeds in every state. Afterwards the LP and integer solutions are exactly the previous ones that use no generated path, with the same objective values; a tree made of initial paths stays available with its value, and the integer program selects only initial paths, which form a decision tree.", "quantifier": "every training problem and every history of columns, cuts and solves", "why_tests_cant": "quantifies over all solutions of the model and all histories", "anchors": ["col_gen_estimator/_dtree_classifier.py:DTreeMasterProblem.remove_gen_vars"]}
{"id": "C75", "title": "Merging only the last splits of nodes", "statement": "merge_all_nodes_last_split keeps every node of the first dictionary with its candidates and counts, takes the last split of every node that also occurs in the second one from there, and ignores unknown nodes.", "quantifier": "every pair of node dictionaries", "why_tests_cant": "quantifies over all dictionaries", "anchors": ["examples/dtree_experiment.py:merge_all_nodes_last_split"]}
{"id": "C76", "title": "Cut generation misses nothing but rounding", "statement": "If CP-SAT solves the cut generation model to optimality and add_cuts adds no cut, then for every sample, seen or not (and every artificial row whose branches are consistent with the order of the thresholds), the LP values of the paths it follows sum to at most 1 + 1e-6 times (number of paths + 1). (The rounding term is needed: the coefficients are rounded down to multiples of 1e-6, and a row that violates its cut by more than 1e-6 can be missed.)", "quantifier": "every training problem, history of columns and cuts, LP solution, sample and optimal solver", "why_tests_cant": "quantifies over all samples and all LP solutions", "anchors": ["col_gen_estimator/_dtree_classifier.py:DTreeMasterProblem.add_cuts", "col_gen_estimator/_dtree_classifier.py:CutGenerator", "col_gen_estimator/_dtree_classifier.py:DTreeMasterProblem.create_cut_gen_model"]}
{"id": "C77", "title": "Aggressive preprocessing merges all rows it can", "statement": "If the time limit does not interrupt it, the experiment script's aggressive preprocessing keeps a row for pricing iff no earlier row of its class follows the same paths of candidate splits, gives it the number of rows of its class that follow them as weight, and keeps its constraint in the master problem iff it can reach more than two leaves and no earlier row follows the same paths; the result does not depend on the clock. The script merges rows only for 5000 or more training rows, and stops when the time since its start exceeds the preprocessing time limit. (False for the last part: if the limit is reached between the script's last two looks at the clock before preprocessing, the remaining time is not positive and the quadratic loop runs without any limit.)", "quantifier": "every training problem, limit and clock; every run of the script", "why_tests_cant": "quantifies over all paths of candidate splits and all clock readings", "anchors": ["examples/dtree_experiment.py:preprocess", "examples/dtree_experiment.py:main"]}
{"id": "C78", "title": "fit attributes its time to the calls that used it", "statement": "When fit returns and the clock never runs backwards, the time between two successive readings of the clock is counted at most once: the master time is exactly the time of the calls that solve the relaxation, the time of every subproblem exactly that of its own updates and column generation, the integer time exactly that of the final integer solve; the time for adding columns is that of the calls that offer columns, plus at most time in which no call was made. If time passes only during the calls, each reported time equals the total duration of its calls.", "quantifier": "every estimator, every clock, every duration of the calls and every run that returns", "why_tests_cant": "depends on the order of all clock readings and calls of a run", "anchors": ["col_gen_estimator/_col_gen_classifier.py:ColGenClassifier.fit"]}
{"id": "C79", "title": "Cuts and times in the results file", "statement": "The reported number of cuts is the number of constraints the master problem gained after it was built; with row constraints as cuts and no generated cuts it is the number of training rows with a constraint, hence at most the number of rows, and it is 0 if neither kind of cuts is enabled. Without generated cuts it is at most ten times the cut rounds for every tenth iteration; the script reports at most 100 cuts per ten iterations, and none at all (so that the relaxation never has a row constraint) in a run of fewer than ten iterations. The script's master, heuristic, exact pricing, column adding and integer times are those of their own calls, are not negative and sum up to at most the reported training time.", "quantifier": "every run of the estimator and the script, every clock", "why_tests_cant": "quantifies over whole runs and all clock readings", "anchors": ["examples/dtree_experiment.py:main", "col_gen_estimator/_dtree_classifier.py:DTreeMasterProblem.solve_rmp", "col_gen_estimator/_dtree_classifier.py:DTreeMasterProblem.add_beta_cuts", "col_gen_estimator/_col_gen_classifier.py:ColGenClassifier.fit"]}
{"id": "C80", "title": "What the command line asks for is what runs", "statement": "For every list of options the experiment script either runs with exactly the values asked for - the last option of a kind counts, short and long names mean the same, a missing option means its documented default, a negative header number means no header line, and a third of the time limit is for preprocessing - or, without reading or writing a file, prints the help text at the first help option, stops with ValueError at the first option whose number is none, or exits with code 2 for an unknown option.", "quantifier": "every list of options, every conversion of text to numbers, all file contents", "why_tests_cant": "quantifies over all option lists and orders", "anchors": ["examples/dtree_experiment.py:main"]}
{"id": "C81", "title": "Labels and features are read as the files say", "statement": "The labels are numbered in increasing order without gaps; equal labels have equal numbers, and renaming the labels in an order-preserving way changes nothing. Encoding labels succeeds iff all of them occur in the training data (else ValueError), and the reported accuracies are the share of samples whose predicted label is the label in the file. The data can be used iff the depth is positive, the test file has the feature columns of the training file and no other labels, and the features are numbers; features are then found by name in both files, in the order of the training file. The exception for each other case is determined. (Refuted: the label of the test data is found by name. The last column of each file is taken.)", "quantifier": "every pair of tables, every totally ordered type of labels, every depth", "why_tests_cant": "quantifies over all data files", "anchors": ["examples/dtree_experiment.py:main"]}
{"id": "C82", "title": "The results file", "statement": "A run of the script changes no file unless it finishes; then it writes only the results file, never the training file. The file has a sorted header and two lines, CART and CG1, with every result of the run under its heading. Two runs write the same file iff results directory, name of the training file without its directory, and depth agree; other options do not matter. With usable data a run finishes, or stops with ValueError (a test sample has no path), or the results file cannot be opened - which is noticed only after training. With an optimal integer solver the reported training accuracy of CG1 is at least that of CART. The number of iterations reported never exceeds the one asked for.", "quantifier": "every command line, data, file system, clock, and solver behaviour", "why_tests_cant": "quantifies over whole runs and all file names", "anchors": ["examples/dtree_experiment.py:main"]}
{"id": "C83", "title": "Parameters set after construction", "statement": "get_params reports for every parameter of the rule classifiers the value it was last set to (otherwise the constructor's), after any history of set_params and fit; set_params raises ValueError exactly for unknown names. A constructed object trains with the values given to it; a clone is an untrained object of the same class that trains with the values reported at that time, and exists iff subproblem_params fits the class. A number of iterations set later is obeyed. (Refuted: the other values set later are used. fit reads only max_iterations and how many entries subproblem_params has, so C, p and the solvers stay those of the construction, a learned rule can exceed the reported C, and model selection over these parameters compares equal models. Also refuted for the tree classifier: get_params and set_params raise AttributeError for every object, because two parameters are not stored.)", "quantifier": "every object, every history of set_params, fit and clone, all solver answers and clocks", "why_tests_cant": "quantifies over all histories and all trainings", "anchors": ["col_gen_estimator/_bdr_classifier.py:BooleanDecisionRuleClassifier", "col_gen_estimator/_bdr_classifier.py:BooleanDecisionRuleClassifierWithHeuristic", "col_gen_estimator/_dtree_classifier.py:DTreeClassifier.__init__", "col_gen_estimator/_col_gen_classifier.py:ColGenClassifier.__init__"]}
{"id": "C84", "title": "A second tree classifier from the same lists", "statement": "Training changes the lists and objects given to the tree classifier: afterwards the caller's list of paths is the given paths, marked initial, followed by the generated ones, all renumbered with distinct ids; every path is a path of the tree over the candidate splits; nodes keep ids and candidates, splits keep threshold and rows. A second classifier can be constructed from them iff every path has one of the classes. If the first training generated no cut (in particular with generate_cuts off) and data_rows is not given or given anew, the second training also returns, and with an optimal integer solver the second classifier gets at least the training weight that the first one's selected paths promise. (Refuted without these conditions: a generated path without class makes the constructor raise AssertionError; cuts stay recorded in the splits, so adding a column raises IndexError; data_rows given again keep old path ids, so the tenth master solve raises KeyError.)", "quantifier": "every argument list, data set, clock and solver behaviour of both trainings", "why_tests_cant": "quantifies over all pairs of trainings", "anchors": ["col_gen_estimator/_dtree_classifier.py:DTreeClassifier.__init__", "col_gen_estimator/_dtree_classifier.py:DTreeMasterProblem.generate_mp", "col_gen_estimator/_dtree_classifier.py:DTreeMasterProblem.add_column"]}
{"id": "C85", "title": "Life of an estimator: calls of fit and predict in any order", "statement": "After any sequence of calls of fit and predict, predict raises NotFittedError iff its argument is a table and no earlier fit returned; predict never changes the estimator; data that are no table or lack labels are rejected with ValueError without changing any later prediction. Predicted labels are labels of the last data fit accepted; renaming labels in an order-preserving way renames all replies; each row is predicted on its own; columns after those needed are ignored. The rule classifier predicts only the two smallest labels, the second one exactly for the samples its rule accepts. A rule classifier trained once on two labels returns from fit and then predicts every table by one rule. (Refuted: a fit that raised leaves the estimator as it was. A fit rejected because of a single label replaces the classes: later predictions give that label where they gave the smallest former one, and otherwise raise ValueError. If the integer solver fails in a second training, fit raises AssertionError and every sample then gets the smallest label. Also refuted: training again learns the new data - the rule of the first data is kept and answers with the new labels, possibly wrong on every sample.)", "quantifier": "every sequence of calls, every totally ordered type of labels, all data, solver answers and clocks; the general part for every estimator built on the library's fit", "why_tests_cant": "quantifies over all histories of calls and all label types", "anchors": ["col_gen_estimator/_col_gen_classifier.py:ColGenClassifier.fit", "col_gen_estimator/_bdr_classifier.py:BooleanDecisionRuleClassifier.predict", "col_gen_estimator/_dtree_classifier.py:DTreeClassifier.predict"]}
{"id": "C86", "title": "Time for cuts is part of the master problem's time", "statement": "Measuring the time for generating cuts does not change a training. If the clock never runs backwards, a call of fit that returns adds to cut_gen_time at least 0 and at most the master time it reports, so that for a first training the column mster_cuts_time of the results file is between 0 and the column master_time. cut_gen_time grows only in every tenth call that solves the relaxation, counted over the life of the estimator, and is 0 before the tenth. (Refuted: cut_gen_time never exceeds the master time. It is not reset by fit, the master time is, so after several trainings it can be larger.)", "quantifier": "every argument list, clock, solver behaviour and history of trainings", "why_tests_cant": "depends on all clock readings of a run and on the history of trainings", "anchors": ["col_gen_estimator/_dtree_classifier.py:DTreeMasterProblem.solve_rmp", "col_gen_estimator/_col_gen_classifier.py:ColGenClassifier.fit", "examples/dtree_experiment.py:main"]}
{"id": "C87", "title": "What the pricing solver's record of its solves says", "statement": "After any number of trainings of a tree classifier, each of its subproblems has recorded exactly one wall time and one gap (between 0 and 1, and 0 exactly for a solve that leaves no gap) for every time it was asked for columns, in order; each tuned solver parameter was asked for a value and credited once per solve, with minus the sum of time score and gap, and the solver was run with the values returned. Whatever the solver answers, the first ten solves of a subproblem use a fixed sequence of numbers of LNS workers and probing levels in which all four combinations occur, and the first fifteen numbers of presolve iterations are random draws. Subproblems of the old kind record nothing.", "quantifier": "every argument list, data set, solver behaviour and history of trainings that return", "why_tests_cant": "quantifies over all histories of trainings and solver answers", "anchors": ["col_gen_estimator/_col_gen_classifier.py:BaseSubproblem.solve_model", "col_gen_estimator/_dtree_classifier.py:DTreeSubProblemSat.generate_columns", "col_gen_estimator/_parameter_tuner.py:Parameter.get_best_value", "col_gen_estimator/_col_gen_classifier.py:ColGenClassifier.fit"]}
{"id": "C88", "title": "When the cut rounds stop early, nothing is violated", "statement": "In every tenth call of the tree master problem's LP solve, if fewer constraints were added than there are cut rounds, then the LP solution that the call stores and reports duals for leaves nothing to cut: with generated cuts and an exact CP-SAT solver, every possible row of data (seen or not) follows columns with a total LP value of at most 1 plus one millionth for each column and one more; with row cuts and a feasible LP solution, every training row that preprocessing kept follows columns with a total LP value of at most 1 plus one millionth, and of at least 1 minus one millionth if it has no constraint of its own. (If the rounds were used up, a possible row may be left with a total value of 3/2 although the LP solution is feasible: a witness shows it.)", "quantifier": "every data set, tree shape, history of calls on the master problem, solver answers and number of cut rounds", "why_tests_cant": "quantifies over all histories, rows of data and solver answers", "anchors": ["col_gen_estimator/_dtree_classifier.py:DTreeMasterProblem.solve_rmp", "col_gen_estimator/_dtree_classifier.py:DTreeMasterProblem.add_cuts", "col_gen_estimator/_dtree_classifier.py:DTreeMasterProblem.add_beta_cuts"]}
{"id": "C89", "title": "The tree classifier sees the data only through the sides of the splits", "statement": "Two tree classifiers that get the same arguments, labels, solver answers and clock, except that the splits of the second test other features or other thresholds, behave alike as long as splits of one feature stay splits of one feature with thresholds in the same order and every sample of the second lies on the same side of every split as its counterpart: both constructors accept or raise the same exception, every training returns or raises the same exception, makes the same calls with the same duals and columns, reports the same attributes and selects the same paths, and predictions on corresponding samples are equal. In particular a feature may be rewritten by any strictly increasing function together with its thresholds, columns of the data may be reordered and unused ones added, and samples that no split tells apart may replace each other.", "quantifier": "every pair of problems, solver answers, clock, labels, number of trainings and samples to predict", "why_tests_cant": "relates two runs for every data set and every increasing transformation", "anchors": ["col_gen_estimator/_dtree_classifier.py:DTreeClassifier", "col_gen_estimator/_dtree_classifier.py:DTreeMasterProblem", "col_gen_estimator/_dtree_classifier.py:DTreeSubProblemHeuristic", "col_gen_estimator/_dtree_classifier.py:DTreeSubProblemSat", "col_gen_estimator/_dtree_classifier.py:DTreeSubProblemOld", "col_gen_estimator/_dtree_classifier.py:DTreeClassifier.predict"]}
{"id": "C90", "title": "Larger limits continue the same training", "statement": "Train the same estimator twice on the same data with the same solver answers and clock, the second time with a max_iterations and a time_limit that are no smaller (or no limit), and let both trainings return. Then the second makes exactly the calls and time checks of the first up to the first one's final integer solve, reports at least as many iterations and improving iterations, and if the first was not stopped by a limit or reports optimality both end in the same state. The tree classifier trained with the larger limits has the paths of the shorter training as its first paths, and with honest solvers and (near-)optimal selection it classifies at least as much training weight correctly as the paths selected in the shorter training promise, hence at least as much as the shorter-trained classifier when those promises are right (otherwise training longer can lower the training score: a witness shows it with honest solvers and an optimal selection). Likewise the boolean rule classifier trained with the larger limits has the clauses of the shorter training as its first clauses, and the loss of its rule on the training data is at most the cost of the shorter training's rule in problem (1), up to the optimality gap of the integer solver.", "quantifier": "every estimator, data, pair of limits, solver answers and clock", "why_tests_cant": "compares two trainings of any length", "anchors": ["col_gen_estimator/_col_gen_classifier.py:ColGenClassifier.fit", "col_gen_estimator/_dtree_classifier.py:DTreeMasterProblem.solve_ip", "col_gen_estimator/_dtree_classifier.py:DTreeClassifier.predict", "col_gen_estimator/_bdr_classifier.py:BDRMasterProblem.solve_ip"]}
{"id": "C91", "title": "The bound of a finished rule training does not depend on how it was reached, and more freedom never makes it worse", "statement": "Train the boolean rule classifier twice on the same data, each time with solvers that answer exactly but otherwise as they like (ties, basis, duals), with any clock and limits, with or without the heuristic pricing, and let both report optimality. If the second has at least the complexity budget and at most the penalty of the first, and the heuristic of the first builds no clause longer than the second's budget, then the second's LP bound is at most the first's plus 1e-6 times its budget; with equal budget and penalty the two bounds agree up to that amount. Every rule learned with no more budget and no smaller penalty, by a training that need not be optimal, costs at least the bound of the second minus that amount. (The heuristic of BooleanDecisionRuleClassifierWithHeuristic builds clauses of one literal.) A heuristic that builds clauses longer than the budget can change the bound, although the budget and the penalty are the same.", "quantifier": "every data set, pair of parameter settings, solver answers, clocks and limits", "why_tests_cant": "compares two arbitrary complete trainings", "anchors": ["col_gen_estimator/_bdr_classifier.py:BDRMasterProblem.solve_rmp", "col_gen_estimator/_bdr_classifier.py:BDRSubProblem.generate_columns", "col_gen_estimator/_bdr_classifier.py:BDRHeuristic.generate_columns", "col_gen_estimator/_col_gen_classifier.py:ColGenClassifier.fit"]}
{"id": "C92", "title": "A finished tree training bounds every other training, and is unbeaten once its gap is closed", "statement": "Train two tree classifiers on the same data with the same depth and list of splits, where the second has at every node at least the candidate splits of the first; initial paths, solvers, clocks, limits, cut settings and kinds of subproblems may all differ. If the second ends because no column was found, then the training weight that the first classifies correctly is at most the dual objective of the second's last LP plus 2^depth times the pricing tolerances and gaps. If the second's last LP and subproblems were solved to optimality, its initial costs are right, and its selected paths reach the LP objective up to less than 1 (tolerances included), then the second classifies at least as much training weight correctly as the first.", "quantifier": "every data set, pair of estimators, solver answers, clocks and limits", "why_tests_cant": "compares two arbitrary complete trainings", "anchors": ["col_gen_estimator/_dtree_classifier.py:DTreeClassifier.__init__", "col_gen_estimator/_dtree_classifier.py:DTreeClassifier.predict", "col_gen_estimator/_dtree_classifier.py:DTreeMasterProblem.solve_ip", "col_gen_estimator/_col_gen_classifier.py:ColGenClassifier.fit"]}
{"id": "C93", "title": "Rule training sees the rows as a collection: order does not matter, fewer rows or more features never raise the bound", "statement": "Train the boolean rule classifier on two data sets, each time with exact solvers and any clock, limits and heuristic, and let both trainings report optimality, the second with no smaller budget and no larger penalty. If every row of the second data set occurs in the first (at least as often, in any order, with any non-zero value counting as set), or if every feature of the first is a feature of the second (columns may be moved, copied and added), then the LP bound of the second training is at most that of the first plus 1e-6 times its budget. With the same rows in another order, the same budget and penalty, the bounds agree up to that amount.", "quantifier": "every pair of data sets related in this way, solver answers, clocks and limits", "why_tests_cant": "compares two arbitrary complete trainings on different data", "anchors": ["col_gen_estimator/_bdr_classifier.py:BDRMasterProblem.generate_mp", "col_gen_estimator/_bdr_classifier.py:BDRMasterProblem.solve_rmp", "col_gen_estimator/_bdr_classifier.py:BDRSubProblem.generate_columns", "col_gen_estimator/_col_gen_classifier.py:ColGenClassifier.fit"]}
{"id": "C94", "title": "Tree training on part of the data never gets more right than a finished training on all of it, and the order of the rows does not matter", "statement": "Train one tree classifier on some of the rows, with any solvers, clock, limits and initial paths, and another one with the same depth and at least the same candidate splits on all rows until no more columns are found. The weight the first classifies correctly on its rows is at most the last LP bound of the second plus its stated tolerances. If the second closed its gap, it classifies at least as much weight correctly on all rows as the first does on its part. If the two data sets are the same rows in another order and both trainings closed their gaps, both classify exactly the same weight correctly. The same holds if rows of one class on the same sides of all splits are merged into one row with their total weight, as the preprocessing does, or copied.", "quantifier": "every pair of data sets related in this way, candidate lists, solver answers, clocks and limits", "why_tests_cant": "compares two arbitrary complete trainings on different data", "anchors": ["col_gen_estimator/_dtree_classifier.py:DTreeClassifier", "col_gen_estimator/_dtree_classifier.py:DTreeMasterProblem.generate_mp", "col_gen_estimator/_dtree_classifier.py:DTreeMasterProblem.add_column", "col_gen_estimator/_dtree_classifier.py:DTreeClassifier.predict", "col_gen_estimator/_col_gen_classifier.py:ColGenClassifier.fit"]}

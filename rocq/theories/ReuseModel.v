(** A second tree classifier built from the arguments of a trained one (definitions only).  The constructor and the master problem keep the caller's
    lists and objects (_dtree_classifier.py:2430-2440 and 545-556) and training changes them: add_column appends the generated path to the caller's list
    of paths (line 864), generate_mp and add_column number the paths (lines 637, 862), the constructor marks all of them as initial (line 2463), cuts are
    recorded in the splits (lines 955-962 and 2026-2033), preprocess_rows links the nodes (lines 739-750), and the rows collect the ids of their
    paths (lines 732, 808, 876). *)
From Verif Require Import Base Lp FitModel TreeModel TreePricingModel TreeFitModel.
Open Scope nat_scope.

(** The arguments [A] as they are when the estimator's master problem is in state [s].  If data_rows was given and [shared], the
    same rows are given again, otherwise equal new rows.  Without data_rows the master makes its own (line 652-653). *)
Definition again (shared : bool) (A : targs) (s : tmaster) : targs :=
  mkTargs (tm_paths s) (tm_leaves s) (tm_nodes s) (tm_splits s) (ta_depth A) (ta_targets A) (ta_max_iterations A) (ta_time_limit A) (ta_rounds A)
    (ta_beta A) (ta_gen A) (match ta_rows A with Some rows => if shared then tm_rows s else Some rows | None => None end) (ta_old A).

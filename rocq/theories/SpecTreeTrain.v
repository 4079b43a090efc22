(** Specification of a whole training run of the decision tree estimator (statement side only). *)
From Verif Require Import Base Lp SpecDual FitModel SpecFit SolveModel SolveObs TreeModel TreePricingModel TreeFitModel SpecTree SpecTreeRun SpecTreeLp
  SpecTreePrice SpecTreeMip SpecTreeFit.
Open Scope nat_scope.

(** Constructor arguments and training data as a setup of SpecTreeRun.v. *)
Definition fit_setup (A : targs) (X : list sample) (y : list nat) : setup :=
  mkSetup (ta_depth A) X y (ta_nodes A) (ta_splits A) (map mark_initial (ta_paths A)) (ta_beta A) (ta_gen A) (ta_rounds A) (ta_rows A).

(** The arguments describe the complete tree and fit the data, there are at least two classes, the classes are 0, 1, ...,
    and the initial paths contain the paths of a decision tree. *)
Record trainable (A : targs) (X : list sample) (y : list nat) : Prop := {
  tr_leaves : ta_leaves A = complete_leaves (ta_depth A);
  tr_setup : valid_setup (fit_setup A X y);
  tr_data : valid_data (fit_setup A X y);
  tr_rows : rows_agree (fit_setup A X y);
  tr_targets : Permutation (ta_targets A) (map Z.of_nat (seq 0 (length (ta_targets A))));
  tr_labels : Forall (fun t => t < length (ta_targets A)) y;
  tr_classes : exists a b, In a y /\ In b y /\ a <> b;
  tr_paths : proper_paths (fit_setup A X y) (ta_paths A);
  tr_tree : exists tree sel, incl sel (ta_paths A) /\ forms_tree (fit_setup A X y) tree sel
}.

(** What is assumed about the solvers and the sources of randomness.  The LP solver solves feasible models and reports duals
    for which no variable has a reduced cost above the tolerance that the subproblems use (1e-6); the integer solver finds a solution if there is one; CP-SAT and the
    solver of the old subproblems report only solutions. *)
Record honest (u : setup) (sv : fsolvers) : Prop := {
  ho_cuts : sound_solvers (fs_tree sv);
  ho_lp : forall i ops cuts s, after u ops cuts s -> (exists x, lp_feasible (tm_lp s) x) ->
    exists x pi, tv_lp (fs_tree sv) i (tm_lp s) = Some (x, pi) /\ forall j, j < num_vars (tm_lp s) -> (reduced_cost (tm_lp s) pi j <= teps)%Q;
  ho_ip : forall i ops cuts s, after u ops cuts s -> (exists x, ip_feasible (tm_lp s) x) ->
    exists x, tv_ip (fs_tree sv) i (tm_lp s) = Some x /\ ip_feasible (tm_lp s) x;
  ho_order : forall k l, Permutation (fs_order sv k l) l;
  ho_sat : forall k st m, Forall (ip_feasible m) (snd (fs_sat sv k st m)) /\ ~ zero_gap_failure (fst (fs_sat sv k st m));
  ho_mip : forall k m x, fs_mip sv k m = Some x -> ip_feasible m x
}.

(** A bound on the number of training iterations that does not depend on the solvers or the clock: (leaf, splits) choices
    times whole numbers up to the total weight of the rows. *)
Definition total_weight (u : setup) : nat := nsum (fun r => 1 + row_weight u r) (seq 0 (length (su_X u))).
Definition iteration_bound (u : setup) : nat :=
  2 ^ su_depth u * length (su_splits u) ^ su_depth u * (total_weight u + 1) + 1.

(** The pricing solvers are exact: the solver of the old subproblems returns an optimum, one of the solutions CP-SAT reports
    is an optimum (for models in 0/1 variables that have a solution). *)
Definition zero_one_model (m : lp) : Prop := lp_max m = true /\ forall v, In v (lp_vars m) -> v = mkVar (Some 0%Q) (Some 1%Q) true.
Definition exact_pricing (sv : fsolvers) : Prop :=
  forall k m, zero_one_model m -> (exists x, ip_feasible m x) ->
    (exists x, fs_mip sv k m = Some x /\ ip_optimal m x) /\
    (forall st, exists x, In x (snd (fs_sat sv k st m)) /\ ip_optimal m x).
(** The same with an optimality gap: the answers are worse than the optimum by at most [g]. *)
Definition gap_pricing (sv : fsolvers) (g : Q) : Prop :=
  forall k m, zero_one_model m -> (exists x, ip_feasible m x) ->
    (exists x, fs_mip sv k m = Some x /\ near_optimal m x g) /\
    (forall st, exists x, In x (snd (fs_sat sv k st m)) /\ near_optimal m x g).
(** The gap per leaf in units of the objective (the objective of the CP-SAT models is scaled by 100000). *)
Definition leaf_gap (A : targs) (g : Q) : Q := if ta_old A then g else (g * (1 # 100000))%Q.
(** How far from the LP bound the certificate of a run can be: per leaf the tolerance and, for CP-SAT, the rounding of the
    objective coefficients of the variables of a pricing model. *)
Definition pricing_vars (A : targs) (X : list sample) (s : tmaster) : nat :=
  2 * length X + length (tm_cut_cons s) + ta_depth A * length (ta_splits A) + length (ta_targets A).
Definition slack (A : targs) (X : list sample) (s : tmaster) : Q :=
  if ta_old A then teps else (teps + inject_Z (Z.of_nat (pricing_vars A X s)) * (1 # 100000))%Q.
(** The weight of row [r] in the objective: rows the subproblems ignore do not count; the old subproblems count rows. *)
Definition training_weight (A : targs) (u : setup) (w : nat -> Q) : Prop := active_weight u (if ta_old A then COld 0 else CSat) w.

(** Specification for C94: tree trainings on different data. *)
From Verif Require Import Base Lp SpecDual FitModel TreeModel TreePricingModel TreeFitModel SpecTree SpecTreeLp SpecTreePrice SpecTreeMip SpecTreeFit SpecTreeTrain SpecTreeResult.
Open Scope nat_scope.

(** Estimators [A] and [A'] build trees of the same depth, and [A'] has at every node all the candidate split numbers that [A]
    has there.  The split objects themselves may differ (they record row numbers). *)
Definition fewer_choices (A A' : targs) : Prop :=
  ta_depth A = ta_depth A' /\
  forall n nd', nth_error (ta_nodes A') n = Some nd' -> exists nd, nth_error (ta_nodes A) n = Some nd /\ incl (n_cands nd) (n_cands nd').
(** Every row [r] of (X, y) is the row [h r] of (X', y'): the same class, the same side of every split, and no more weight.  No
    two rows are the same row there. *)
Definition subset_of (splits : list split) (X : list sample) (y : list nat) (w : nat -> Q)
    (splits' : list split) (X' : list sample) (y' : list nat) (w' : nat -> Q) : Prop :=
  exists h, (forall r r', r < length X -> r' < length X -> h r = h r' -> r = r') /\
    forall r x c, nth_error X r = Some x -> nth_error y r = Some c ->
      exists x', nth_error X' (h r) = Some x' /\ nth_error y' (h r) = Some c /\ (w r <= w' (h r))%Q /\
        forall k, goes_left splits x k = goes_left splits' x' k.

(** Estimator [A] was trained on (X, y) and is in state [s] after that: any honest solvers, clock and limits. *)
Definition trained (A : targs) (X : list sample) (y : list nat) (s : fstate tworld tduals path) : Prop :=
  exists sv clk w0 fuel, dtree_init A = Ok w0 /\ trainable A X y /\ honest (fit_setup A X y) sv /\ tree_fit sv A clk X y fuel (new_estimator w0) = (s, Done tt).
(** The same, and the training found no more columns with exact subproblems, the initial costs are right for the row weights [w],
    the last LP was solved to optimality, and the selected paths reach its value up to less than 1 (tolerances included). *)
Definition trained_closed (A : targs) (X : list sample) (y : list nat) (w : nat -> Q) (s : fstate tworld tduals path) : Prop :=
  exists sv clk w0 fuel x pi sel, dtree_init A = Ok w0 /\ trainable A X y /\ honest (fit_setup A X y) sv /\ exact_pricing sv /\
    training_weight A (fit_setup A X y) w /\ data_weight (fit_setup A X y) w /\
    (ta_old A = true -> forall r, active (fit_setup A X y) r -> 1 <= row_weight (fit_setup A X y) r) /\
    Forall (counts_rows (fit_setup A X y) w) (ta_paths A) /\
    tree_fit sv A clk X y fuel (new_estimator w0) = (s, Done tt) /\ f_optimal s = true /\
    tm_answer (tw_master (f_world s)) = Some (x, pi) /\ lp_kkt (tm_lp (tw_master (f_world s))) x pi /\ tm_selected (tw_master (f_world s)) = Some sel /\
    (objective_value (tm_lp (tw_master (f_world s))) x - qsum p_cost sel + inject_Z (Z.of_nat (2 ^ ta_depth A)) * slack A X (tw_master (f_world s)) < 1)%Q.

(** The weight of every row of (X, y) is distributed over rows of (X', y') of the same class and on the same side of every split, and
    no row receives more than its weight.  [t r r'] is what row [r] gives to row [r']. *)
Definition weight_moved (splits : list split) (X : list sample) (y : list nat) (w : nat -> Q)
    (splits' : list split) (X' : list sample) (y' : list nat) (w' : nat -> Q) : Prop :=
  exists t : nat -> nat -> Q, (forall r r', (0 <= t r r')%Q) /\
    (forall r, r < length X -> (w r == qsum (t r) (seq 0 (length X')))%Q) /\
    (forall r', r' < length X' -> (qsum (fun r => t r r') (seq 0 (length X)) <= w' r')%Q) /\
    forall r r' x c x' c', (0 < t r r')%Q -> nth_error X r = Some x -> nth_error y r = Some c -> nth_error X' r' = Some x' -> nth_error y' r' = Some c' ->
      c = c' /\ forall k, goes_left splits x k = goes_left splits' x' k.

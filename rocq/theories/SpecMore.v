(** Words for property C90: the same estimator with other limits. *)
From Verif Require Import Base FitModel BdrModel BdrFitModel TreeModel TreePricingModel TreeFitModel.
Open Scope nat_scope.

(** The same objects, clock and parameters with another max_iterations and another time_limit. *)
Definition with_limits {W D C} (E : env W D C) (m : Z) (q : Q) : env W D C :=
  mkEnv W D C m q (levels E) (rmp_is_ip E) (clock E) (c_generate_mp E) (c_solve_rmp E) (c_improved E) (c_reset_timer E) (c_update E) (c_generate E) (c_add E) (c_solve_ip E).
Definition args_limits (A : targs) (m : Z) (q : Q) : targs :=
  mkTargs (ta_paths A) (ta_leaves A) (ta_nodes A) (ta_splits A) (ta_depth A) (ta_targets A) m q (ta_rounds A) (ta_beta A) (ta_gen A) (ta_rows A) (ta_old A).
(** Two limits of which the second allows at least as much (0 and negative numbers: no limit). *)
Definition iterations_allowed (m m' : Z) : Prop := (m' <= 0)%Z \/ (0 < m <= m')%Z.
Definition time_allowed (q q' : Q) : Prop := (q' <= 0)%Q \/ (0 < q /\ q <= q')%Q.
(** The training stopped because of a limit. *)
Definition stopped_by_limit {W D C} (m : Z) (t : fstate W D C) : Prop := f_tlr t = true \/ (0 < m <= Z.of_nat (f_iter t))%Z.
Definition params_limits (P : bparams) (m : Z) (q : Q) : bparams := mkBparams (bp_C P) (bp_p P) m q (bp_heuristic P).

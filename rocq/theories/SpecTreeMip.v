(** Vocabulary for the pricing models: histories of a subproblem, and the paths it prices. *)
From Verif Require Import Base Lp SpecDual SolveModel TreeModel SpecTree SpecTreeRun SpecTreeLp SpecTreePrice TreePricingModel.
Open Scope nat_scope.

Definition counts_weight (c : pclass) : bool := match c with COld _ => false | _ => true end.

(** The class numbers 0, 1, ..., [nt] - 1, in some order, contain all labels.  (DTreeSubProblemOld has its own class.) *)
Definition classes_ok (u : setup) (c : pclass) (nt : nat) (targets : list Z) : Prop :=
  length targets = nt /\
  (counts_weight c = true -> Permutation targets (map Z.of_nat (seq 0 nt)) /\ Forall (fun t => t < nt) (su_y u)).

(** Rows the subproblems ignore are rows the master problem ignores. *)
Definition rows_agree (u : setup) : Prop :=
  forall rows r dr, su_rows u = Some rows -> nth_error rows r = Some dr -> r_gone_sp dr = true -> r_gone dr = true.

(** The calls a subproblem for leaf [l] with arguments [c], [targets] receives: an update for each solved master problem,
    in order, and (CP-SAT variant) pricing calls in between.  [cuts] are the cuts it has been told about. *)
Inductive fed (u : setup) (c : pclass) (l : nat) (targets : list Z) : list (list bool) -> pricing -> Prop :=
| fed_new : fed u c l targets [] pricing_init
| fed_update old pr ops sv dl s x pi pr' :
    fed u c l targets old pr -> solved u ops (old ++ d_new_cuts dl) sv dl s x pi ->
    update_subproblem c (create_leaf l (su_depth u)) (tm_nodes s) (tm_splits s) targets (su_depth u) (su_rows u) (su_X u) (su_y u) dl pr = Ok pr' ->
    fed u c l targets (old ++ d_new_cuts dl) pr'
| fed_price cuts pr ops sv dl s x pi rs solver sub ps sub' pr' :
    fed u c l targets cuts pr -> solved u ops cuts sv dl s x pi ->
    sat_generate c (create_leaf l (su_depth u)) (tm_nodes s) (tm_splits s) targets (su_depth u) (su_rows u) rs solver (su_X u) (su_y u) dl sub pr
      = Ok (ps, (sub', pr')) ->
    fed u c l targets cuts pr'.

(** [v] is the number of active rows of class [t] that follow path [p]. *)
Definition class_count (u : setup) (p : path) (t v : nat) : Prop :=
  exists rs, NoDup rs /\ v = length rs /\
    forall r, In r rs <-> nth_error (su_y u) r = Some t /\ active u r /\ covers (su_X u) (su_leaves u) (su_splits u) (KRow r) p.
(** The value a pricing model of kind [c] gives path [p] with class [t]. *)
Definition class_value (u : setup) (c : pclass) (p : path) (t v : nat) : Prop :=
  match c with COld _ => class_count u p t v | _ => class_weight u p t v end.
(** The classes a pricing model of kind [c] can give a path. *)
Definition own_class (c : pclass) (nt t : nat) : Prop := match c with COld t' => t = t' | _ => t < nt end.

(** A path to leaf [l] with a candidate split at each node. *)
Definition path_to (u : setup) (l : nat) (p : path) : Prop :=
  tree_path (su_depth u) (su_splits u) p /\ uses_candidates (su_nodes u) p /\ p_leaf p = l.
(** The cost of [p] is a whole number between 0 and the value of its class; without class it is 0. *)
Definition fair_class (u : setup) (c : pclass) (nt : nat) (p : path) : Prop :=
  (exists t v n, own_class c nt t /\ p_target p = Z.of_nat t /\ class_value u c p t v /\ n <= v /\ (p_cost p == inject_Z (Z.of_nat n))%Q) \/
  (c = CMip /\ p_target p = (-1)%Z /\ (p_cost p == 0)%Q).
(** The cost of [p] is the value of its class. *)
Definition exact_class (u : setup) (c : pclass) (nt : nat) (p : path) : Prop :=
  exists t v, own_class c nt t /\ p_target p = Z.of_nat t /\ class_value u c p t v /\ (p_cost p == inject_Z (Z.of_nat v))%Q.

(** Solution [x] gives the variables of the rows and cuts the value 1 iff the row or cut follows path [p], else 0. *)
Definition marks (u : setup) (cuts : list (list bool)) (pr : pricing) (x : nat -> Q) (p : path) : Prop :=
  (forall r, r < length (su_X u) -> active u r -> exists v, nth_error (pr_y pr) r = Some (Some v) /\ (x v == 0 \/ x v == 1)%Q /\
     ((x v == 1)%Q <-> covers (su_X u) (su_leaves u) (su_splits u) (KRow r) p)) /\
  (forall j z, nth_error cuts j = Some z -> exists v, nth_error (pr_yc pr) j = Some v /\ (x v == 0 \/ x v == 1)%Q /\
     ((x v == 1)%Q <-> covers (su_X u) (su_leaves u) (su_splits u) (KCut z) p)).

(** [w r] is the weight of row [r] for pricing models of kind [c]; rows the subproblems ignore weigh 0. *)
Definition active_weight (u : setup) (c : pclass) (w : nat -> Q) : Prop :=
  forall r, (active u r -> (w r == match c with COld _ => 1 | _ => inject_Z (Z.of_nat (row_weight u r)) end)%Q) /\ (~ active u r -> (w r == 0)%Q).

(** The pricing model of kind [c] (a MIP variant) for leaf [l], updated with the reported duals [dl] and solved to within [g] of
    the optimum, returned no path. *)
Definition mip_found_nothing (u : setup) (c : pclass) (l nt : nat) (g : Q) (cuts : list (list bool)) (dl : tduals) (s : tmaster) : Prop :=
  exists targets old pr pr' solver y, classes_ok u c nt targets /\ fed u c l targets old pr /\ cuts = old ++ d_new_cuts dl /\
    update_subproblem c (create_leaf l (su_depth u)) (tm_nodes s) (tm_splits s) targets (su_depth u) (su_rows u) (su_X u) (su_y u) dl pr = Ok pr' /\
    solver (pr_lp pr') = Some y /\ near_optimal (pr_lp pr') y g /\
    mip_generate c (create_leaf l (su_depth u)) (tm_nodes s) targets (su_rows u) solver (length (su_X u)) (su_y u) pr' = Ok [].
(** The CP-SAT variant for leaf [l], whose callback saw a solution within [g] of the optimum of its (scaled) objective, returned no path; its model has at most [N] variables. *)
Definition sat_found_nothing (u : setup) (l nt N : nat) (g : Q) (cuts : list (list bool)) (dl : tduals) (s : tmaster) : Prop :=
  exists targets pr rs solver sub sub' pr', classes_ok u CSat nt targets /\ fed u CSat l targets cuts pr /\
    (forall st, Forall (ip_feasible (pr_lp pr')) (snd (solver st (pr_lp pr'))) /\ exists y, In y (snd (solver st (pr_lp pr'))) /\ near_optimal (pr_lp pr') y g) /\
    sat_generate CSat (create_leaf l (su_depth u)) (tm_nodes s) (tm_splits s) targets (su_depth u) (su_rows u) rs solver (su_X u) (su_y u) dl sub pr
      = Ok ([], (sub', pr')) /\ num_vars (pr_lp pr') <= N.

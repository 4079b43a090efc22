(** DTreeClassifier: constructor and fit (definitions only).  The loop of FitModel.v runs on the master problem of TreeModel.v
    and the subproblems of TreePricingModel.v.  _dtree_classifier.py:2417-2510 (constructor), _col_gen_classifier.py:329-459
    (fit). *)
From Verif Require Import Base Lp FitModel TunerModel SolveModel TreeModel TreePricingModel.
Open Scope nat_scope.

(** Constructor arguments, lines 2417-2428.  Solver names and parameter strings are not modelled.  Targets of the old
    subproblems are natural numbers ("They must start from 0", line 2387). *)
Record targs := mkTargs {
  ta_paths : list path;              (* initial_paths *)
  ta_leaves : list leaf;
  ta_nodes : list node;
  ta_splits : list split;
  ta_depth : nat;                    (* tree_depth *)
  ta_targets : list Z;
  ta_max_iterations : Z;
  ta_time_limit : Q;
  ta_rounds : nat;                   (* num_master_cuts_round *)
  ta_beta : bool;                    (* master_beta_constraints_as_cuts *)
  ta_gen : bool;                     (* master_generate_cuts *)
  ta_rows : option (list row);       (* data_rows *)
  ta_old : bool                      (* use_old_sp *)
}.

(** The external solvers and sources of randomness.  Except for [fs_tree] (see TreeModel.v) the first argument is the number
    of generate_columns calls made before.  [fs_mip]: solver of the old subproblems, [None] if it finds no solution. *)
Record fsolvers := mkFsv {
  fs_tree : tsolvers;
  fs_rand : nat -> nat -> nat;
  fs_order : nat -> list nat -> list nat;
  fs_streams : nat -> streams;
  fs_sat : nat -> settings -> lp -> answer * list (nat -> Q);
  fs_mip : nat -> lp -> option (nat -> Q)
}.

(** The objects owned by the estimator: master problem, heuristic, the subproblems of level 1 (the SolveModel part is used by
    DTreeSubProblemSat only); the number of generate_columns calls (not in the code). *)
Record tworld := mkTw { tw_master : tmaster; tw_heur : heuristic; tw_subs : list (subproblem * pricing); tw_calls : nat }.

(** Lines 2488-2504: the subproblems of level 1, in order. *)
Definition sub_specs (A : targs) : list (pclass * leaf) :=
  flat_map (fun lf => if ta_old A then map (fun t => (COld (Z.to_nat t), lf)) (ta_targets A) else [(CSat, lf)]) (ta_leaves A).

(** Line 2463. *)
Definition mark_initial (p : path) : path :=
  mkPath (p_leaf p) (p_nodes p) (p_splits p) (p_cost p) (p_id p) (p_target p) true.

Definition tree_levels (A : targs) : list nat := [1; length (sub_specs A)].

(** __init__, lines 2430-2510.  The shapes given to ColGenClassifier.__init__ are those of the two lists built here. *)
Definition dtree_init (A : targs) : res tworld :=
  let* _ := check_arguments (ta_paths A) (ta_leaves A) (ta_nodes A) (ta_splits A) (ta_depth A) (ta_targets A) in
  let* _ := construct (tree_levels A) (tree_levels A) in
  Ok (mkTw (tmaster_init (map mark_initial (ta_paths A)) (ta_leaves A) (ta_nodes A) (ta_splits A) (ta_beta A) (ta_gen A)
              (ta_rounds A) (ta_rows A))
           heur_init (map (fun _ => (sub_init, pricing_init)) (sub_specs A)) 0).

Definition with_splits (s : tmaster) (splits : list split) : tmaster :=
  with_cons s (tm_lp s) splits (tm_row_cons s) (tm_added s) (tm_cut_cons s).

Section Env.
Variables (sv : fsolvers) (A : targs) (clk : nat -> Q) (X : list sample) (y : list nat).

Definition tree_generate_mp (w : tworld) : res tworld :=
  let* s := generate_mp X y (tw_master w) in Ok (mkTw s (tw_heur w) (tw_subs w) (tw_calls w)).

Definition tree_solve_rmp (w : tworld) : res (tduals * tworld) :=
  let* (d, s) := solve_rmp (fs_tree sv) (tw_master w) in Ok (d, mkTw s (tw_heur w) (tw_subs w) (tw_calls w)).

(** update_subproblem of subproblem [i] of level [l].  Nodes, splits and data rows are objects shared with the master
    problem; the master changes neither the weights nor the removed flags of the rows. *)
Definition tree_update (l i : nat) (d : tduals) (w : tworld) : res tworld :=
  if l =? 0 then
    let* (h, splits) := heur_update d (tw_heur w) (tm_splits (tw_master w)) in
    Ok (mkTw (with_splits (tw_master w) splits) h (tw_subs w) (tw_calls w))
  else
    let* (c, lf) := getitem (sub_specs A) i in
    let* (sub, pr) := getitem (tw_subs w) i in
    let* pr1 := update_subproblem c lf (tm_nodes (tw_master w)) (tm_splits (tw_master w)) (ta_targets A) (ta_depth A) (ta_rows A) X y d pr in
    Ok (mkTw (tw_master w) (tw_heur w) (set_nth (tw_subs w) i (sub, pr1)) (tw_calls w)).

(** generate_columns of subproblem [i] of level [l]. *)
Definition tree_generate (l i : nat) (d : tduals) (w : tworld) : res (list path * tworld) :=
  let s := tw_master w in
  let k := tw_calls w in
  if l =? 0 then
    let* (ps, h) := heur_generate (fs_rand sv k) (fs_order sv k) (length X) y (ta_rows A) (ta_leaves A) (tm_nodes s) (tm_splits s) d (tw_heur w) in
    Ok (ps, mkTw s h (tw_subs w) (S k))
  else
    let* (c, lf) := getitem (sub_specs A) i in
    let* (sub, pr) := getitem (tw_subs w) i in
    if is_sat c then
      let* (ps, (sub1, pr1)) := sat_generate c lf (tm_nodes s) (tm_splits s) (ta_targets A) (ta_depth A) (ta_rows A)
                                  (fs_streams sv k) (fs_sat sv k) X y d sub pr in
      Ok (ps, mkTw s (tw_heur w) (set_nth (tw_subs w) i (sub1, pr1)) (S k))
    else
      let* ps := mip_generate c lf (tm_nodes s) (ta_targets A) (ta_rows A) (fs_mip sv k) (length X) y pr in
      Ok (ps, mkTw s (tw_heur w) (tw_subs w) (S k)).

Definition tree_add (p : path) (w : tworld) : res (bool * tworld) :=
  let* (b, s) := add_column p (tw_master w) in Ok (b, mkTw s (tw_heur w) (tw_subs w) (tw_calls w)).

Definition tree_solve_ip (w : tworld) : res (bool * tworld) :=
  let s := tw_master w in
  let* (b, s1) := solve_ip (tv_ip (fs_tree sv) (tm_calls s) (tm_lp s)) s in
  Ok (b, mkTw s1 (tw_heur w) (tw_subs w) (tw_calls w)).

(** reset_timer_ is False from the constructor on (line 564): remove_gen_vars, which sets it, is not called. *)
Definition tree_env : env tworld tduals path :=
  mkEnv tworld tduals path (ta_max_iterations A) (ta_time_limit A) (tree_levels A) true clk
    tree_generate_mp tree_solve_rmp (fun w => Ok (rmp_objective_improved (tw_master w), w)) (fun w => (false, w))
    tree_update tree_generate tree_add tree_solve_ip.

(** fit(X, y) with encoded labels [y]. *)
Definition tree_fit (fuel : nat) (s : fstate tworld tduals path) : fstate tworld tduals path * outcome unit :=
  fit tree_env fuel (map Z.of_nat y) s.
End Env.

(** predict, lines 2519-2545, of a fitted estimator.  AttributeError if there are no selected paths. *)
Definition tree_predict {L} (A : targs) (classes : list L) (s : fstate tworld tduals path) (Xs : list sample) : res (list L) :=
  match tm_selected (tw_master (f_world s)) with
  | None => Err AttributeError
  | Some sel => predict classes (ta_leaves A) (tm_splits (tw_master (f_world s))) sel Xs
  end.

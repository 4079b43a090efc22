(** fit of the boolean rule classifiers: the loop of FitModel.v run on the master and subproblems of BdrModel.v
    (definitions only).  _bdr_classifier.py:647-663 and 815-833 (constructors), _col_gen_classifier.py:329-459 (fit). *)
From Verif Require Import Base Lp FitModel BdrModel.
Open Scope nat_scope.

(** The external solvers.  The first argument counts the solver calls made so far, so that the same model may be answered
    differently at different times.  [sv_lp]: primal solution and constraint duals; the integer solvers may fail. *)
Record solvers := mkSolvers {
  sv_lp : nat -> lp -> (nat -> Q) * (nat -> Q);
  sv_pricing : nat -> lp -> option (nat -> Q);
  sv_ip : nat -> lp -> option (nat -> Q)
}.

(** The mutable objects an estimator owns, the number of solver calls so far, and the primal solution held by the LP solver
    after the last solve_rmp. *)
Record bworld := mkBworld { bw_master : master; bw_sub : submip; bw_calls : nat; bw_last : nat -> Q }.

(** Parameters of the estimator: C, p, max_iterations, time_limit, and [Some K] if the heuristic level is used
    ([BooleanDecisionRuleClassifier]: None; [...WithHeuristic]: Some 1). *)
Record bparams := mkBparams { bp_C : Z; bp_p : Q; bp_max_iterations : Z; bp_time_limit : Q; bp_heuristic : option nat }.

(** State of the objects right after construction. *)
Definition bdr_init (P : bparams) : bworld :=
  mkBworld (master_init (bp_C P) (bp_p P)) (submip_init (bp_C P)) 0 (fun _ => 0%Q).

Section Env.
Variables (sv : solvers) (P : bparams) (clk : nat -> Q) (X : matrix) (y : list nat).

Definition bdr_generate_mp (w : bworld) : res bworld :=
  let* m := generate_mp X y (bw_master w) in Ok (mkBworld m (bw_sub w) (bw_calls w) (bw_last w)).

Definition bdr_solve_rmp (w : bworld) : res ((Q * list Q) * bworld) :=
  let '(x, duals) := sv_lp sv (bw_calls w) (bm_lp (bw_master w)) in
  let* d := solve_rmp duals (bw_master w) in
  Ok (d, mkBworld (bw_master w) (bw_sub w) (S (bw_calls w)) x).

Definition bdr_exact (d : Q * list Q) (w : bworld) : res (list clause * bworld) :=
  let* (cols, s) := sub_generate_columns (sv_pricing sv (bw_calls w)) X y d (bw_sub w) in
  Ok (cols, mkBworld (bw_master w) s (S (bw_calls w)) (bw_last w)).

(** Subproblem [l] of the list of levels; each level has one subproblem. *)
Definition bdr_generate (l i : nat) (d : Q * list Q) (w : bworld) : res (list clause * bworld) :=
  match bp_heuristic P with
  | None => bdr_exact d w
  | Some K => if l =? 0 then let* cols := heuristic_generate_columns K X y d in Ok (cols, w) else bdr_exact d w
  end.

Definition bdr_add (c : clause) (w : bworld) : res (bool * bworld) :=
  match add_column c (bw_master w) with
  | (m, Ok b) => Ok (b, mkBworld m (bw_sub w) (bw_calls w) (bw_last w))
  | (_, Err e) => Err e
  end.

Definition bdr_solve_ip (w : bworld) : res (bool * bworld) :=
  match solve_ip (sv_ip sv (bw_calls w) (bm_lp (bw_master w))) (bw_master w) with
  | (m, Ok b) => Ok (b, mkBworld m (bw_sub w) (S (bw_calls w)) (bw_last w))
  | (_, Err e) => Err e
  end.

(** rmp_objective_improved and update_subproblem are inherited (lines 78-82 and 164 of _col_gen_classifier.py): constant
    False and no operation; the master has no reset_timer_. *)
Definition bdr_env : env bworld (Q * list Q) clause :=
  mkEnv bworld (Q * list Q) clause (bp_max_iterations P) (bp_time_limit P)
    (match bp_heuristic P with None => [1] | Some _ => [1; 1] end) true clk
    bdr_generate_mp bdr_solve_rmp (fun w => Ok (false, w)) (fun w => (false, w)) (fun _ _ _ w => Ok w)
    bdr_generate bdr_add bdr_solve_ip.

(** fit(X, y) with encoded labels [y]. *)
Definition bdr_fit (fuel : nat) (s : fstate bworld (Q * list Q) clause) :
    fstate bworld (Q * list Q) clause * outcome unit :=
  fit bdr_env fuel (map Z.of_nat y) s.
End Env.

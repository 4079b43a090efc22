(** Model of BaseSubproblem in col_gen_estimator/_col_gen_classifier.py:111-248 (definitions only). *)
From Verif Require Import Base TunerModel.
Open Scope Q_scope.

(** get_tunable_params, lines 128-133, 135-139, 141-145: the three tuned solver parameters. *)
Definition presolve_param : param :=
  set_explore_count (add_value (add_value (add_value (param_init (3 # 10)) 3) 4) 2) 15.
Definition probing_param : param :=
  set_switch_flag (add_value (add_value (param_init (3 # 10)) 2) 1) (Z.shiftl 1 1).
Definition lns_param : param :=
  set_switch_flag (add_value (add_value (param_init (3 # 10)) 2) 0) (Z.shiftl 1 2).

(** Attributes of BaseSubproblem used by solve_model, lines 111-116 (cp_solver_ is not None after __init__). *)
Record subproblem := mkSub {
  sub_presolve : param;        (* tunable_params_['max_presolve_iterations'] *)
  sub_probing : param;         (* tunable_params_['cp_model_probing_level'] *)
  sub_lns : param;             (* tunable_params_['min_num_lns_workers'] *)
  sub_times : list Q;          (* solve_times_ *)
  sub_gaps : list Q            (* gaps_ *)
}.
Definition sub_init : subproblem := mkSub presolve_param probing_param lns_param [] [].

(** Solver settings of lines 197-206 that solve_model chooses. *)
Record settings := mkSettings { set_lns : Z; set_probing : Z; set_presolve : Z }.

(** What the CP-SAT solver reports: status (line 211; everything except OPTIMAL and FEASIBLE is one case), wall time
    (213), objective and bound (219-220). *)
Inductive cp_status := OPTIMAL | FEASIBLE | OTHER_STATUS.
Record answer := mkAnswer { an_status : cp_status; an_wall : Q; an_objective : Q; an_bound : Q }.

(** Lines 214-227: time score and gap score. *)
Definition solve_scores (time_limit : Q) (a : answer) : res (Q * Q) :=
  let* t := (if Qeq_bool time_limit 0 then Err ZeroDivisionError else Ok (an_wall a / time_limit)) in
  match an_status a with
  | OPTIMAL => Ok (t, 0)
  | FEASIBLE =>
      let gap := Qabs (an_objective a - an_bound a) in
      if Qle_bool 0 (an_objective a * an_bound a) then
        let m := (let x := Qabs (an_objective a) in let y := Qabs (an_bound a) in
                  if Qltb x y then y else x) in
        if Qeq_bool m 0 then Err ZeroDivisionError else Ok (1, gap / m)
      else Ok (1, 1)
  | OTHER_STATUS => Ok (1, 1)
  end.

(** The three random streams, one per Parameter object (seeds 1564, 987234, 25646). *)
Record streams := mkStreams { rng_presolve : nat -> nat; rng_probing : nat -> nat; rng_lns : nat -> nat }.

(** solve_model, lines 180-248.  The solver is any function of the chosen settings.  The result is the new object and either
    the settings used or an exception; changes made before an exception persist. *)
Definition solve_model (rs : streams) (solver : settings -> answer) (time_limit : Q) (s : subproblem)
  : subproblem * res settings :=
  match get_best_value (rng_lns rs) (sub_lns s) with
  | Err e => (s, Err e)
  | Ok (l, lns) =>
    let s1 := mkSub (sub_presolve s) (sub_probing s) lns (sub_times s) (sub_gaps s) in
    match get_best_value (rng_probing rs) (sub_probing s1) with
    | Err e => (s1, Err e)
    | Ok (q, probing) =>
      let s2 := mkSub (sub_presolve s1) probing (sub_lns s1) (sub_times s1) (sub_gaps s1) in
      match get_best_value (rng_presolve rs) (sub_presolve s2) with
      | Err e => (s2, Err e)
      | Ok (z, presolve) =>
        let s3 := mkSub presolve (sub_probing s2) (sub_lns s2) (sub_times s2) (sub_gaps s2) in
        let a := solver (mkSettings l q z) in
        match solve_scores time_limit a with
        | Err e => (s3, Err e)
        | Ok (time_score, gap_score) =>
          let total := time_score + gap_score in
          let s4 := mkSub (sub_presolve s3) (sub_probing s3) (sub_lns s3)
                          (sub_times s3 ++ [an_wall a]) (sub_gaps s3 ++ [gap_score]) in
          (* lines 244-245: dictionary order *)
          match adjust_score (sub_presolve s4) (- total) None with
          | Err e => (s4, Err e)
          | Ok p1 =>
            match adjust_score (sub_probing s4) (- total) None with
            | Err e => (mkSub p1 (sub_probing s4) (sub_lns s4) (sub_times s4) (sub_gaps s4), Err e)
            | Ok p2 =>
              match adjust_score (sub_lns s4) (- total) None with
              | Err e => (mkSub p1 p2 (sub_lns s4) (sub_times s4) (sub_gaps s4), Err e)
              | Ok p3 => (mkSub p1 p2 p3 (sub_times s4) (sub_gaps s4), Ok (mkSettings l q z))
              end
            end
          end
        end
      end
    end
  end.

(** A history of solve_model calls on one object; exceptions are survived by the caller. *)
Definition sub_run (rs : streams) (calls : list ((settings -> answer) * Q)) : subproblem :=
  fold_left (fun s c => fst (solve_model rs (fst c) (snd c) s)) calls sub_init.

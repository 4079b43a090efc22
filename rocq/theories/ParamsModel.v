(** Parameters of the estimators as scikit-learn sees them: BaseEstimator's get_params and set_params, and clone (definitions
    only).  _bdr_classifier.py:647-670 and 820-849 (constructors of the rule classifiers), _dtree_classifier.py:2417-2512
    (constructor of the tree classifier), _col_gen_classifier.py:309-327.

    scikit-learn's code is modelled by its documented behaviour: get_params reads the attributes that have the names of the
    constructor's parameters; set_params calls get_params, then assigns one attribute after the other and raises ValueError at
    an unknown name; clone builds an object of the same class from (copies of) the values get_params returns and checks that
    the constructor kept them.  Names of nested parameters (with two underscores) are not modelled. *)
From Coq Require Import String.
From Verif Require Import Base Lp FitModel BdrModel BdrFitModel ScriptModel.
Open Scope nat_scope.

(** * Rule classifiers *)
(** The parameters, lines 647-654 and 820-827.  Values of other types are not modelled. *)
Record rule_args := mkArgs {
  ra_iterations : Z;                     (* max_iterations *)
  ra_C : Z;
  ra_p : Q;
  ra_rmp_params : string;                (* rmp_solver_params *)
  ra_rmp_solver : string;
  ra_ip_params : string;                 (* master_ip_solver_params *)
  ra_sub_solver : string;                (* subproblem_solver *)
  ra_sub_params : list (list string)     (* subproblem_params *)
}.
(** An object of class BooleanDecisionRuleClassifier, or of BooleanDecisionRuleClassifierWithHeuristic if [ro_heuristic]:
    its parameter attributes, the attribute time_limit, the names of the solvers that its master problem and its subproblem were
    built with, and the objects and attributes of BdrFitModel.v. *)
Record rule_object := mkRule {
  ro_heuristic : bool;
  ro_args : rule_args;
  ro_time_limit : Q;
  ro_solvers : string * string;
  ro_state : fstate bworld (Q * list Q) clause
}.
Definition rule_levels (h : bool) : list nat := if h then [1; 1] else [1].
(** Constructors, lines 655-670 and 828-849.  The time limit is not a parameter and gets its default.  The parameter strings of
    the solvers are kept but not used: get_params_from_string (lines 95-105) ignores its argument. *)
Definition new_rule (h : bool) (a : rule_args) : res rule_object :=
  let* _ := construct (rule_levels h) (map (@length string) (ra_sub_params a)) in
  Ok (mkRule h a (-1) (ra_rmp_solver a, ra_sub_solver a)
        (new_estimator (bdr_init (mkBparams (ra_C a) (ra_p a) (ra_iterations a) (-1) (if h then Some 1 else None))))).

(** Values of parameters. *)
Inductive value := VInt (z : Z) | VNum (q : Q) | VText (s : string) | VTexts (l : list (list string)).
Local Open Scope string_scope.
(** get_params of a rule classifier. *)
Definition rule_params (o : rule_object) : list (string * value) :=
  let a := ro_args o in
  [("C", VInt (ra_C a)); ("master_ip_solver_params", VText (ra_ip_params a)); ("max_iterations", VInt (ra_iterations a)); ("p", VNum (ra_p a));
   ("rmp_solver", VText (ra_rmp_solver a)); ("rmp_solver_params", VText (ra_rmp_params a)); ("subproblem_params", VTexts (ra_sub_params a));
   ("subproblem_solver", VText (ra_sub_solver a))].
(** One keyword argument of set_params. *)
Inductive setting :=
| SetIterations (z : Z) | SetC (z : Z) | SetP (q : Q) | SetRmpParams (s : string) | SetRmpSolver (s : string)
| SetIpParams (s : string) | SetSubSolver (s : string) | SetSubParams (l : list (list string))
| SetUnknown (name : string).
Local Close Scope string_scope.
Definition assign (x : setting) (a : rule_args) : option rule_args :=
  let '(mkArgs i c p rp rs ip ss sp) := a in
  match x with
  | SetIterations z => Some (mkArgs z c p rp rs ip ss sp)
  | SetC z => Some (mkArgs i z p rp rs ip ss sp)
  | SetP q => Some (mkArgs i c q rp rs ip ss sp)
  | SetRmpParams s => Some (mkArgs i c p s rs ip ss sp)
  | SetRmpSolver s => Some (mkArgs i c p rp s ip ss sp)
  | SetIpParams s => Some (mkArgs i c p rp rs s ss sp)
  | SetSubSolver s => Some (mkArgs i c p rp rs ip s sp)
  | SetSubParams l => Some (mkArgs i c p rp rs ip ss l)
  | SetUnknown _ => None
  end.
Definition with_args (o : rule_object) (a : rule_args) : rule_object := mkRule (ro_heuristic o) a (ro_time_limit o) (ro_solvers o) (ro_state o).
Fixpoint set_params (l : list setting) (o : rule_object) : rule_object * res unit :=
  match l with
  | [] => (o, Ok tt)
  | x :: l' => match assign x (ro_args o) with Some a => set_params l' (with_args o a) | None => (o, Err ValueError) end
  end.
(** clone *)
Definition clone (o : rule_object) : res rule_object := new_rule (ro_heuristic o) (ro_args o).

(** fit: lines 329-459 of _col_gen_classifier.py read max_iterations, time_limit and subproblem_params from the attributes (line
    422: IndexError if there is no entry for a subproblem).  [sv]: the solvers with the given names. *)
Section Fit.
Variables (sv : string * string -> solvers) (clk : nat -> Q) (X : matrix) (y : list nat).
Definition rule_generate (P : bparams) (names : string * string) (params : list (list string)) (l i : nat) (d : Q * list Q) (w : bworld) : res (list clause * bworld) :=
  let* ps := getitem params l in
  let* _ := getitem ps i in
  bdr_generate (sv names) P X y l i d w.
Definition rule_env (o : rule_object) : env bworld (Q * list Q) clause :=
  let a := ro_args o in
  let P := mkBparams 0 0 (ra_iterations a) (ro_time_limit o) (if ro_heuristic o then Some 1 else None) in
  let E := bdr_env (sv (ro_solvers o)) P clk X y in
  mkEnv _ _ _ (max_iterations E) (time_limit E) (levels E) (rmp_is_ip E) (clock E) (c_generate_mp E) (c_solve_rmp E) (c_improved E) (c_reset_timer E)
    (c_update E) (rule_generate P (ro_solvers o) (ra_sub_params a)) (c_add E) (c_solve_ip E).
Definition rule_fit (fuel : nat) (o : rule_object) : rule_object * outcome unit :=
  let '(s, r) := fit (rule_env o) fuel (map Z.of_nat y) (ro_state o) in
  (mkRule (ro_heuristic o) (ro_args o) (ro_time_limit o) (ro_solvers o) s, r).
End Fit.
(** predict of a fitted object. *)
Definition rule_predict {L} (classes : list L) (o : rule_object) (Xs : matrix) : res (list L) :=
  match bm_explanation (bw_master (f_world (ro_state o))) with
  | None => Err AttributeError
  | Some rule => predict classes rule Xs
  end.
(** What scikit-learn's model selection does for one candidate: clone, set_params, fit on the training part, predict on the
    test part (sklearn.model_selection._validation._fit_and_score). *)
Definition candidate {L} (sv : string * string -> solvers) (clk : nat -> Q) (X : matrix) (y : list nat) (fuel : nat) (classes : list L) (Xs : matrix)
    (base : rule_object) (l : list setting) : outcome (list L) :=
  match clone base with
  | Err e => Raised e
  | Ok o =>
      match set_params l o with
      | (_, Err e) => Raised e
      | (o1, Ok _) =>
          match rule_fit sv clk X y fuel o1 with
          | (_, Raised e) => Raised e
          | (_, NoFuel) => NoFuel
          | (o2, Done _) => match rule_predict classes o2 Xs with Ok ys => Done ys | Err e => Raised e end
          end
      end
  end.

(** * The tree classifier *)
Section Tree.
Variable V : Type.                         (* Python values *)
Definition attribs : Type := list (string * V).   (* attributes, the latest assignment first *)
Fixpoint getattr (n : string) (d : attribs) : res V :=
  match d with
  | [] => Err AttributeError
  | (m, v) :: d' => if String.eqb n m then Ok v else getattr n d'
  end.
Definition get_params (names : list string) (d : attribs) : res (list (string * V)) :=
  map_res (fun n => let* v := getattr n d in Ok (n, v)) (sorted_names names).
(** set_params for names without nested parts. *)
Fixpoint set_loop (names : list string) (l : list (string * V)) (d : attribs) : attribs * res unit :=
  match l with
  | [] => (d, Ok tt)
  | (n, v) :: l' => if member n names then set_loop names l' ((n, v) :: d) else (d, Err ValueError)
  end.
Definition set_params_of (names : list string) (l : list (string * V)) (d : attribs) : attribs * res unit :=
  match l with
  | [] => (d, Ok tt)
  | _ => match get_params names d with Err e => (d, Err e) | Ok _ => set_loop names l d end
  end.
Local Open Scope string_scope.
(** Lines 2417-2428. *)
Definition tree_names : list string :=
  ["initial_paths"; "leaves"; "nodes"; "splits"; "tree_depth"; "targets"; "max_iterations"; "time_limit"; "num_master_cuts_round";
   "master_beta_constraints_as_cuts"; "master_generate_cuts"; "data_rows"; "use_old_sp"; "master_solver_type"; "rmp_solver_params";
   "master_ip_solver_params"; "subproblem_params"].
(** The attributes after the constructor, lines 2430-2440, 2471-2510 and lines 317-324 of _col_gen_classifier.py, in the order of
    their assignment.  [arg n]: the argument given for parameter [n]; [built n]: a value made by the constructor. *)
Definition tree_attributes (arg built : string -> V) : attribs :=
  rev (map (fun n => (n, arg n)) ["initial_paths"; "leaves"; "nodes"; "splits"; "tree_depth"; "targets"; "subproblem_params"; "num_master_cuts_round";
                                  "master_beta_constraints_as_cuts"; "master_generate_cuts"; "data_rows"]
       ++ map (fun n => (n, built n)) ["master_problem"; "subproblems"]
       ++ map (fun n => (n, arg n)) ["max_iterations"; "time_limit"]
       ++ map (fun n => (n, built n)) ["master_problem"; "subproblems"; "rmp_is_ip"]
       ++ map (fun n => (n, arg n)) ["rmp_solver_params"; "master_ip_solver_params"]
       ++ map (fun n => (n, built n)) ["subproblem_params"])%list.
Local Close Scope string_scope.
(** clone: the values of get_params are given to the constructor. *)
Definition clone_args (arg built : string -> V) : res (list (string * V)) := get_params tree_names (tree_attributes arg built).
End Tree.

(** What a user of scikit-learn's parameter protocol relies on (statement side only). *)
From Coq Require Import String.
From Verif Require Import Base FitModel BdrModel BdrFitModel ParamsModel.
Open Scope nat_scope.

(** What can be done with an object: set_params and fit; whether they raise or not, the object remains. *)
Inductive action :=
| DoSet (l : list setting)
| DoFit (sv : string * string -> solvers) (clk : nat -> Q) (X : matrix) (y : list nat) (fuel : nat).
Definition perform (o : rule_object) (x : action) : rule_object :=
  match x with
  | DoSet l => fst (set_params l o)
  | DoFit sv clk X y fuel => fst (rule_fit sv clk X y fuel o)
  end.
(** Name and value of a keyword argument; none for a name that is not a parameter. *)
Local Open Scope string_scope.
Definition keyword (x : setting) : option (string * value) :=
  match x with
  | SetIterations z => Some ("max_iterations", VInt z)
  | SetC z => Some ("C", VInt z)
  | SetP q => Some ("p", VNum q)
  | SetRmpParams s => Some ("rmp_solver_params", VText s)
  | SetRmpSolver s => Some ("rmp_solver", VText s)
  | SetIpParams s => Some ("master_ip_solver_params", VText s)
  | SetSubSolver s => Some ("subproblem_solver", VText s)
  | SetSubParams l => Some ("subproblem_params", VTexts l)
  | SetUnknown _ => None
  end.
Definition rule_names : list string :=
  ["C"; "master_ip_solver_params"; "max_iterations"; "p"; "rmp_solver"; "rmp_solver_params"; "subproblem_params"; "subproblem_solver"].
(** The keywords before the first unknown one. *)
Fixpoint accepted (l : list setting) : list (string * value) :=
  match l with
  | [] => []
  | x :: l' => match keyword x with Some nv => nv :: accepted l' | None => [] end
  end.
Definition accepted_in (h : list action) : list (string * value) :=
  flat_map (fun x => match x with DoSet l => accepted l | _ => [] end) h.
(** The value of the last entry with a name. *)
Definition last_value (n : string) (l : list (string * value)) : option value :=
  option_map snd (find (fun nv => String.eqb n (fst nv)) (rev l)).
(** The value of one name. *)
Definition value_of (n : string) (o : rule_object) : option value :=
  option_map snd (find (fun nv => String.eqb n (fst nv)) (rule_params o)).
(** Keywords that change neither max_iterations nor subproblem_params. *)
Definition built_in (x : setting) : Prop := match x with SetIterations _ | SetSubParams _ | SetUnknown _ => False | _ => True end.
Local Close Scope string_scope.
(** The number of entries of subproblem_params at each level. *)
Definition shape (o : rule_object) : list nat := map (@length string) (ra_sub_params (ro_args o)).
(** The run of BdrFitModel.v with the given parameter values. *)
Definition direct_fit (sv : string * string -> solvers) (clk : nat -> Q) (X : matrix) (y : list nat) (fuel : nat) (h : bool) (a : rule_args) :=
  let P := mkBparams (ra_C a) (ra_p a) (ra_iterations a) (-1) (if h then Some 1 else None) in
  bdr_fit (sv (ra_rmp_solver a, ra_sub_solver a)) P clk X y fuel (new_estimator (bdr_init P)).

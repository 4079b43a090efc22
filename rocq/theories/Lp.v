(** The OR-Tools [pywraplp.Solver] object as far as the code uses it: variables with bounds and an integrality flag,
    a linear objective, linear constraints (definitions only).  The solution algorithms are not modelled; what a correct
    solver returns is described by [lp_kkt] (linear programs) and [ip_optimal] (integer programs). *)
From Verif Require Import Base.
Open Scope Q_scope.

(** A bound of [None] is infinite. *)
Record lpvar := mkVar { v_lb : option Q; v_ub : option Q; v_int : bool }.
Record lpcon := mkCon { c_lb : option Q; c_ub : option Q; c_coef : nat -> Q }.
(** Coefficients that were never set are 0. *)
Record lp := mkLp { lp_vars : list lpvar; lp_obj : nat -> Q; lp_off : Q; lp_max : bool; lp_cons : list lpcon }.

Definition empty_lp : lp := mkLp [] (fun _ => 0) 0 false [].

(** [solver.NumVar/IntVar/BoolVar]: the new variable gets the next index. *)
Definition new_var (lb ub : option Q) (int : bool) (m : lp) : nat * lp :=
  (length (lp_vars m), mkLp (lp_vars m ++ [mkVar lb ub int]) (lp_obj m) (lp_off m) (lp_max m) (lp_cons m)).
(** [solver.Constraint(lb, ub)]: the new constraint gets the next index. *)
Definition new_con (lb ub : option Q) (m : lp) : nat * lp :=
  (length (lp_cons m), mkLp (lp_vars m) (lp_obj m) (lp_off m) (lp_max m) (lp_cons m ++ [mkCon lb ub (fun _ => 0)])).
(** [objective.SetCoefficient(var, q)] *)
Definition set_obj (v : nat) (q : Q) (m : lp) : lp :=
  mkLp (lp_vars m) (upd (lp_obj m) v q) (lp_off m) (lp_max m) (lp_cons m).
(** [objective.SetOffset(q)] *)
Definition set_offset (q : Q) (m : lp) : lp := mkLp (lp_vars m) (lp_obj m) q (lp_max m) (lp_cons m).
(** [objective.SetMinimization()] / [objective.SetMaximization()] *)
Definition set_dir (max : bool) (m : lp) : lp := mkLp (lp_vars m) (lp_obj m) (lp_off m) max (lp_cons m).
(** [constraint.SetCoefficient(var, q)] *)
Fixpoint map_nth {A} (f : A -> A) (l : list A) (i : nat) : list A :=
  match l, i with
  | [], _ => []
  | x :: xs, O => f x :: xs
  | x :: xs, S j => x :: map_nth f xs j
  end.
Definition set_coef (c v : nat) (q : Q) (m : lp) : lp :=
  mkLp (lp_vars m) (lp_obj m) (lp_off m) (lp_max m)
       (map_nth (fun k => mkCon (c_lb k) (c_ub k) (upd (c_coef k) v q)) (lp_cons m) c).
(** [solver.NumVariables()], [solver.NumConstraints()] *)
Definition num_vars (m : lp) : nat := length (lp_vars m).
Definition num_cons (m : lp) : nat := length (lp_cons m).

(** * Meaning *)

(** Value of a linear form in the variables of the model. *)
Definition linear (n : nat) (coef : nat -> Q) (x : nat -> Q) : Q := qsum (fun j => coef j * x j) (seq 0 n).
Definition in_bounds (lb ub : option Q) (q : Q) : Prop :=
  (forall b, lb = Some b -> b <= q) /\ (forall b, ub = Some b -> q <= b).
Definition objective_value (m : lp) (x : nat -> Q) : Q := linear (num_vars m) (lp_obj m) x + lp_off m.
Definition activity (m : lp) (k : lpcon) (x : nat -> Q) : Q := linear (num_vars m) (c_coef k) x.

(** [x] satisfies all bounds and constraints (integrality ignored: what an LP solver solves). *)
Definition lp_feasible (m : lp) (x : nat -> Q) : Prop :=
  (forall j v, nth_error (lp_vars m) j = Some v -> in_bounds (v_lb v) (v_ub v) (x j)) /\
  (forall c k, nth_error (lp_cons m) c = Some k -> in_bounds (c_lb k) (c_ub k) (activity m k x)).
(** The same with integrality. *)
Definition ip_feasible (m : lp) (x : nat -> Q) : Prop :=
  lp_feasible m x /\
  (forall j v, nth_error (lp_vars m) j = Some v -> v_int v = true -> exists z : Z, x j == inject_Z z).

(** [a] is at least as good an objective value as [b]. *)
Definition as_good (m : lp) (a b : Q) : Prop := if lp_max m then b <= a else a <= b.
Definition lp_optimal (m : lp) (x : nat -> Q) : Prop :=
  lp_feasible m x /\ forall x', lp_feasible m x' -> as_good m (objective_value m x) (objective_value m x').
Definition ip_optimal (m : lp) (x : nat -> Q) : Prop :=
  ip_feasible m x /\ forall x', ip_feasible m x' -> as_good m (objective_value m x) (objective_value m x').

(** Reduced cost of variable [j] for constraint duals [pi]. *)
Definition dual_activity (m : lp) (pi : nat -> Q) (j : nat) : Q :=
  qsum (fun ck => pi (fst ck) * c_coef (snd ck) j) (combine (seq 0 (num_cons m)) (lp_cons m)).
Definition reduced_cost (m : lp) (pi : nat -> Q) (j : nat) : Q := lp_obj m j - dual_activity m pi j.

(** What an exact LP solver reports as OPTIMAL: a feasible point and duals that certify it (complementary slackness,
    OR-Tools' sign convention: in a minimisation a dual is positive only at an active lower bound). *)
Definition pushes (max : bool) (q : Q) (lb ub : option Q) (val : Q) : Prop :=
  (0 < (if max then - q else q) -> exists b, lb = Some b /\ val == b) /\
  ((if max then - q else q) < 0 -> exists b, ub = Some b /\ val == b).
Definition lp_kkt (m : lp) (x pi : nat -> Q) : Prop :=
  lp_feasible m x /\
  (forall j v, nth_error (lp_vars m) j = Some v ->
     pushes (lp_max m) (reduced_cost m pi j) (v_lb v) (v_ub v) (x j)) /\
  (forall c k, nth_error (lp_cons m) c = Some k ->
     pushes (lp_max m) (pi c) (c_lb k) (c_ub k) (activity m k x)).

(** Two models that no solver can tell apart. *)
Definition same_con (k k' : lpcon) : Prop :=
  c_lb k = c_lb k' /\ c_ub k = c_ub k' /\ forall j, c_coef k j == c_coef k' j.
Definition same_lp (m m' : lp) : Prop :=
  lp_vars m = lp_vars m' /\ (forall j, lp_obj m j == lp_obj m' j) /\ lp_off m == lp_off m' /\ lp_max m = lp_max m'
  /\ Forall2 same_con (lp_cons m) (lp_cons m').

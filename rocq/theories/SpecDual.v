(** What an LP solver that works with tolerances reports: duals whose signs and reduced costs are right up to [tau], and the
    bound they prove.  Nothing is said about the primal solution. *)
From Verif Require Import Base Lp.
Open Scope Q_scope.

(** The sign of a dual or reduced cost [q] belonging to the bounds [lb], [ub]: in a minimisation [q] may be positive only if
    there is a lower bound and negative only if there is an upper bound (the reverse in a maximisation), up to [tau]. *)
Definition near_sign (max : bool) (q : Q) (lb ub : option Q) (tau : Q) : Prop :=
  (lb = None -> (if max then - q else q) <= tau) /\ (ub = None -> - tau <= (if max then - q else q)).
(** The duals [pi] satisfy the constraints of the dual problem up to [tau]. *)
Definition near_dual (m : lp) (pi : nat -> Q) (tau : Q) : Prop :=
  (forall j v, nth_error (lp_vars m) j = Some v -> near_sign (lp_max m) (reduced_cost m pi j) (v_lb v) (v_ub v) tau) /\
  (forall c k, nth_error (lp_cons m) c = Some k -> near_sign (lp_max m) (pi c) (c_lb k) (c_ub k) tau).

(** The bound that [q] belongs to (0 if there is none). *)
Definition bound_of (max : bool) (q : Q) (lb ub : option Q) : Q :=
  match (if Qltb 0 (if max then - q else q) then lb else ub) with Some b => b | None => 0 end.
(** The objective of the dual problem. *)
Definition dual_value (m : lp) (pi : nat -> Q) : Q :=
  qsum (fun jv => reduced_cost m pi (fst jv) * bound_of (lp_max m) (reduced_cost m pi (fst jv)) (v_lb (snd jv)) (v_ub (snd jv)))
       (combine (seq 0 (num_vars m)) (lp_vars m))
  + qsum (fun ck => pi (fst ck) * bound_of (lp_max m) (pi (fst ck)) (c_lb (snd ck)) (c_ub (snd ck)))
       (combine (seq 0 (num_cons m)) (lp_cons m))
  + lp_off m.

(** An integer solution that is within [g] of the best one. *)
Definition near_optimal (m : lp) (x : nat -> Q) (g : Q) : Prop :=
  ip_feasible m x /\ forall x', ip_feasible m x' ->
    if lp_max m then objective_value m x' <= objective_value m x + g else objective_value m x <= objective_value m x' + g.

(** Words for property C87: what a subproblem of the tree classifier records about its solves. *)
From Verif Require Import Base FitModel TunerModel TunerObs SolveModel SolveObs TreeModel TreePricingModel TreeFitModel.
Open Scope Q_scope.

(** The tree classifiers one gets from the constructor by calls of fit that return. *)
Inductive lives (sv : fsolvers) (A : targs) (clk : nat -> Q) : fstate tworld tduals path -> Prop :=
| lives_new : forall w, dtree_init A = Ok w -> lives sv A clk (new_estimator w)
| lives_fit : forall s X y fuel s', lives sv A clk s -> tree_fit sv A clk X y fuel s = (s', Done tt) -> lives sv A clk s'.

(** A call that asks subproblem [i] of the exact level (the one after the heuristic's) for columns. *)
Definition prices (i : nat) {D C} (x : event D C) : bool := match x with EvGenerate (S _) j _ _ => (j =? i)%nat | _ => false end.

(** One solve: the settings chosen for the solver, what it reported, and the relative gap recorded.  The solves have 2 seconds. *)
Record solved := mkSolved { so_settings : settings; so_answer : answer; so_gap : Q }.
Definition so_score (r : solved) : Q := match an_status (so_answer r) with OPTIMAL => an_wall (so_answer r) / 2 | _ => 1 end + so_gap r.
(** Each solve asks every tuned parameter for a value once, and then credits it with the negative score. *)
Definition asks (rc : list solved) : list tuner_op := flat_map (fun r => [TBest; TAdjust (- so_score r) None]) rc.
(** [p] is the parameter, and [f] gives the values it returned, after these solves and no other calls since it was built by the calls [base]. *)
Definition tuned_by (rng : nat -> nat) (base : list tuner_op) (p : param) (f : settings -> Z) (rc : list solved) : Prop :=
  p = tuner_state rng (3 # 10) (base ++ asks rc) /\ pm_total p = length rc /\
  returned (snd (tuner_run rng (param_init (3 # 10)) (base ++ asks rc))) = map (fun r => f (so_settings r)) rc.
(** The attributes of the subproblem after these solves. *)
Record recorded (rs : streams) (sub : subproblem) (rc : list solved) : Prop := {
  rd_times : sub_times sub = map (fun r => an_wall (so_answer r)) rc;
  rd_gaps : sub_gaps sub = map so_gap rc;
  rd_lns : tuned_by (rng_lns rs) base_lns (sub_lns sub) set_lns rc;
  rd_probing : tuned_by (rng_probing rs) base_probing (sub_probing sub) set_probing rc;
  rd_presolve : tuned_by (rng_presolve rs) base_presolve (sub_presolve sub) set_presolve rc
}.
(** The solver was asked with these settings and answered this; the gap is between 0 and 1 and is 0 exactly if the answer leaves none. *)
Definition genuine (sv : fsolvers) (r : solved) : Prop :=
  (exists k m, so_answer r = fst (fs_sat sv k (so_settings r) m)) /\ 0 <= so_gap r <= 1 /\ (so_gap r == 0 <-> no_gap (so_answer r)) /\
  In (set_lns (so_settings r)) [2; 0]%Z /\ In (set_probing (so_settings r)) [2; 1]%Z /\ In (set_presolve (so_settings r)) [3; 4; 2]%Z.

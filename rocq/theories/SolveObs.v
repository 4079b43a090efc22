(** Observations used in the statement of C07. *)
From Verif Require Import Base TunerModel SpecTuner TunerObs SolveModel.
Open Scope Q_scope.

(** The histories of the three parameters of a subproblem object. *)
Definition base_presolve : list tuner_op := [TAdd 3; TAdd 4; TAdd 2; TExplore 15].
Definition base_probing : list tuner_op := [TAdd 2; TAdd 1; TSwitch 2].
Definition base_lns : list tuner_op := [TAdd 2; TAdd 0; TSwitch 4].

(** [hp], [hq], [hl]: the calls made on the three parameters since the object was created. *)
Record sub_hist (rs : streams) (s : subproblem) (hp hq hl : list tuner_op) : Prop := {
  sh_presolve : sub_presolve s = tuner_state (rng_presolve rs) (3 # 10) (base_presolve ++ hp);
  sh_probing : sub_probing s = tuner_state (rng_probing rs) (3 # 10) (base_probing ++ hq);
  sh_lns : sub_lns s = tuner_state (rng_lns rs) (3 # 10) (base_lns ++ hl);
  sh_p : added hp = []; sh_q : added hq = []; sh_l : added hl = []
}.

(** The one outcome solve_model cannot score, and the outcomes without optimality gap. *)
Definition zero_gap_failure (a : answer) : Prop :=
  an_status a = FEASIBLE /\ an_objective a == 0 /\ an_bound a == 0.

Definition no_gap (a : answer) : Prop :=
  an_status a = OPTIMAL \/ (an_status a = FEASIBLE /\ an_objective a == an_bound a).


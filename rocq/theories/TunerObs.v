(** Observations of model runs used in the statements of PropTuner.v: the log of a run of tuner calls, the values added
    and returned, the reachable states. *)
From Verif Require Import Base TunerModel SpecTuner.
Open Scope Q_scope.

(** The log an observer of a run would write. *)
Definition event_of (rng : nat -> nat) (p : param) (o : tuner_op) : tuner_event :=
  match o with
  | TAdd v => Registered v
  | TAdjust s i => Scored s i
  | TBest => match get_best_value rng p with Ok (_, p') => Chosen (pm_cur p') | Err _ => Silent end
  | _ => Silent
  end.
Fixpoint tuner_log (rng : nat -> nat) (p : param) (h : list tuner_op) : list tuner_event :=
  match h with
  | [] => []
  | o :: h' => event_of rng p o :: tuner_log rng (fst (tuner_step rng p o)) h'
  end.
Definition tuner_state (rng : nat -> nat) (c : Q) (h : list tuner_op) : param :=
  fst (tuner_run rng (param_init c) h).

(** Values passed to add_value, in order. *)
Definition added (h : list tuner_op) : list Z :=
  flat_map (fun o => match o with TAdd v => [v] | _ => [] end) h.

(** Histories of scoring and choosing only; the choosing calls; the returned values. *)
Definition score_or_best (o : tuner_op) : bool :=
  match o with TAdjust _ _ | TBest => true | _ => false end.
Definition is_best (o : tuner_op) : bool := match o with TBest => true | _ => false end.
Definition returned (outs : list tuner_out) : list Z :=
  flat_map (fun o => match o with TVal v => [v] | _ => [] end) outs.


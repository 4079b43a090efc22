(** Specification of the legal call sequences of fit (C08-C18), independent of the model's functions. *)
From Verif Require Import Base FitModel.
Open Scope Q_scope.

Section Spec.
Context {D C : Type}.
Notation ev := (event D C).

(** All subproblems in level order; [levels] gives the number of subproblems of each level. *)
Fixpoint subproblems_from (l : nat) (ns : list nat) : list (nat * nat) :=
  match ns with
  | [] => []
  | n :: ns' => map (fun i => (l, i)) (seq 0 n) ++ subproblems_from (S l) ns'
  end.
Definition all_subproblems (levels : list nat) : list (nat * nat) := subproblems_from 0 levels.

(** Every generated column is offered exactly once, in order, with some answer. *)
Definition offers (l i : nat) (cols : list C) (answers : list bool) : list ev :=
  map (fun cb => EvAdd l i (fst cb) (snd cb)) (combine cols answers).

Inductive verdict := Exhausted | TimedOut | Updated.

(** Pricing of one iteration over a list of subproblems with duals [d]. *)
Inductive sweep (limit : Q) (d : D) : list (nat * nat) -> list ev -> verdict -> Prop :=
| sweep_none : sweep limit d [] [] Exhausted
| sweep_late : forall l i rest e,
    0 < limit -> limit < e -> sweep limit d ((l, i) :: rest) [EvCheck l i e] TimedOut
| sweep_hit : forall l i rest e cols answers,
    ~ (0 < limit /\ limit < e) -> length answers = length cols -> In true answers ->
    sweep limit d ((l, i) :: rest)
      (EvCheck l i e :: EvGenerate l i d cols :: offers l i cols answers) Updated
| sweep_miss : forall l i rest e cols answers evs v,
    ~ (0 < limit /\ limit < e) -> length answers = length cols -> ~ In true answers ->
    sweep limit d rest evs v ->
    sweep limit d ((l, i) :: rest)
      (EvCheck l i e :: EvGenerate l i d cols :: offers l i cols answers ++ evs) v.

(** One iteration: one master solve, every subproblem updated once with its duals, then the sweep. *)
Inductive iteration_trace (limit : Q) (levels : list nat) : list ev -> verdict -> Prop :=
| iteration_intro : forall d b (r : bool) evs v,
    sweep limit d (all_subproblems levels) evs v ->
    iteration_trace limit levels
      (EvSolveRmp d :: EvImproved b :: (if r then [EvResetTimer] else [])
         ++ map (fun li => EvUpdate (fst li) (snd li) d) (all_subproblems levels) ++ evs) v.

Inductive ending := Capped | Optimal | TimeUp.

(** The loop after [k] iterations. *)
Inductive loop_trace (max : Z) (limit : Q) (levels : list nat) : nat -> list ev -> ending -> Prop :=
| loop_capped : forall k, (0 < max)%Z -> (max <= Z.of_nat k)%Z -> loop_trace max limit levels k [] Capped
| loop_optimal : forall k evs,
    ~ (0 < max <= Z.of_nat k)%Z -> iteration_trace limit levels evs Exhausted ->
    loop_trace max limit levels k evs Optimal
| loop_time : forall k evs,
    ~ (0 < max <= Z.of_nat k)%Z -> iteration_trace limit levels evs TimedOut ->
    loop_trace max limit levels k evs TimeUp
| loop_more : forall k evs evs' e,
    ~ (0 < max <= Z.of_nat k)%Z -> iteration_trace limit levels evs Updated ->
    loop_trace max limit levels (S k) evs' e ->
    loop_trace max limit levels k (evs ++ evs') e.

(** A complete fit: generate_mp, the loop, and solve_ip once iff the master is an integer program. *)
Definition fit_trace (max : Z) (limit : Q) (levels : list nat) (ip : bool) (t : list ev) (e : ending) : Prop :=
  exists evs, loop_trace max limit levels 0 evs e
    /\ t = EvGenerateMp :: evs ++ (if ip then [EvSolveIp true] else []).

(** Counting events. *)
Definition is_solve (x : ev) : bool := match x with EvSolveRmp _ => true | _ => false end.
Definition is_improved (x : ev) : bool := match x with EvImproved b => b | _ => false end.
Definition is_add (l i : nat) (x : ev) : bool :=
  match x with EvAdd l' i' _ b => (l' =? l)%nat && (i' =? i)%nat && b | _ => false end.
Definition is_added (x : ev) : bool := match x with EvAdd _ _ _ b => b | _ => false end.
Definition is_ip (x : ev) : bool := match x with EvSolveIp _ => true | _ => false end.
Definition count (p : ev -> bool) (t : list ev) : nat := length (filter p t).

(** Events after the last master solve, with its duals. *)
Fixpoint last_iteration (t : list ev) : option (D * list ev) :=
  match t with
  | [] => None
  | x :: t' => match last_iteration t' with
               | Some r => Some r
               | None => match x with EvSolveRmp d => Some (d, t') | _ => None end
               end
  end.

(** Subproblems asked for columns, with the duals they were given. *)
Definition asked (t : list ev) : list (nat * nat * D) :=
  flat_map (fun x => match x with EvGenerate l i d _ => [(l, i, d)] | _ => [] end) t.

(** A time check that fails. *)
Definition late (limit : Q) (x : ev) : Prop := match x with EvCheck _ _ e => 0 < limit /\ limit < e | _ => False end.
End Spec.

(** The same estimator run under another clock. *)
Definition with_clock {W D C} (E : env W D C) (c : nat -> Q) : env W D C :=
  mkEnv W D C (max_iterations E) (time_limit E) (levels E) (rmp_is_ip E) c (c_generate_mp E) (c_solve_rmp E)
        (c_improved E) (c_reset_timer E) (c_update E) (c_generate E) (c_add E) (c_solve_ip E).

(** Forget the clock readings recorded in a trace. *)
Definition without_times {D C} (t : list (event D C)) : list (event D C) :=
  map (fun x => match x with EvCheck l i _ => EvCheck l i 0 | _ => x end) t.

Definition is_reset {D C} (x : event D C) : bool := match x with EvResetTimer => true | _ => false end.

(** Sum of all times reported by an estimator. *)
Definition reported_time {W D C} (s : fstate W D C) : Q :=
  f_tmaster s + f_tadd s + f_tip s + qsum (fun row => qsum (fun q => q) row) (f_tsp s).

(** No plugged-in object raises. *)
Definition total_calls {W D C} (E : env W D C) : Prop :=
  (forall w, exists w', c_generate_mp E w = Ok w') /\
  (forall w, exists d w', c_solve_rmp E w = Ok (d, w')) /\
  (forall w, exists b w', c_improved E w = Ok (b, w')) /\
  (forall l i d w, exists w', c_update E l i d w = Ok w') /\
  (forall l i d w, exists cols w', c_generate E l i d w = Ok (cols, w')) /\
  (forall c w, exists b w', c_add E c w = Ok (b, w')) /\
  (forall w, exists b w', c_solve_ip E w = Ok (b, w')).


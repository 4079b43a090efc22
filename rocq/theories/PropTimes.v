(** C78: which calls the times reported by fit belong to. *)
From Verif Require Import Base FitModel SpecFit SpecReport FitProofs FitMainProofs TimelineProofs PropFit.
Open Scope Q_scope.

(** Every reading of the clock and every call of a run lie on one timeline; each figure is the time between the readings around its own calls.
    Only the time for adding columns also contains intervals in which nothing was called. *)
Theorem C78_attribution : forall W D C (E : env W D C) fuel y s s' u t,
  (forall n, clock E n <= clock E (S n)) ->
  fit E fuel y s = (s', Done u) -> f_trace s' = f_trace s ++ t ->
  exists tl : timeline,
    f_tick s' = (f_tick s + length tl)%nat /\ map fst tl = map (clock E) (seq (f_tick s) (length tl)) /\
    concat (map snd tl) = t /\ Forall (fun qe => alone (snd qe)) tl /\
    f_tmaster s' == spent (holds is_solve) tl /\
    (forall l i, cell 0 (f_tsp s') l i == spent (holds (works l i)) tl) /\
    f_tip s' == spent (holds is_ip) tl /\
    spent (holds is_offer) tl <= f_tadd s' <= spent (holds is_offer) tl + spent idle tl.
Proof.
  intros W D C E fuel y s s' u t Mono EF Ht. destruct (fit_inv E Mono _ _ _ _ _ EF) as (tl & []).
  exists tl. rewrite i_trace in Ht. apply app_inv_head in Ht. repeat split; auto; apply i_add.
Qed.
Print Assumptions C78_attribution.

(** If time passes only during the calls, each figure is the sum of the durations of its own calls. *)
Theorem C78_durations : forall W D C (E : env W D C) fuel y s s' u t,
  (forall n, clock E n <= clock E (S n)) ->
  fit E fuel y s = (s', Done u) -> f_trace s' = f_trace s ++ t ->
  exists tl : timeline,
    f_tick s' = (f_tick s + length tl)%nat /\ map fst tl = map (clock E) (seq (f_tick s) (length tl)) /\
    concat (map snd tl) = t /\ Forall (fun qe => alone (snd qe)) tl /\
    forall dur, stopwatch dur tl ->
      f_tmaster s' == total_duration dur is_solve t /\
      (forall l i, cell 0 (f_tsp s') l i == total_duration dur (works l i) t) /\
      f_tip s' == total_duration dur is_ip t /\ f_tadd s' == total_duration dur is_offer t.
Proof.
  intros W D C E fuel y s s' u t Mono EF Ht. destruct (fit_inv E Mono _ _ _ _ _ EF) as (tl & []).
  exists tl. rewrite i_trace in Ht. apply app_inv_head in Ht. subst t. repeat split; auto.
  all: destruct i_last as (tl0 & q & e & El & [->|[Hf _]]); [|discriminate].
  all: intros; rename H into St.
  - rewrite i_master. apply (spent_stop dur is_solve tl) with (tl0 := tl0) (q := q); auto. left. intros []; cbn; congruence.
  - rewrite i_sp. apply (spent_stop dur (works l i) tl) with (tl0 := tl0) (q := q); auto. left. intros []; cbn; congruence.
  - rewrite i_ip. apply (spent_stop dur is_ip tl) with (tl0 := tl0) (q := q); auto. left. intros []; cbn; congruence.
  - destruct (spent_stop dur is_offer tl (or_intror eq_refl) i_alone St tl0 q El) as [A1 A2]. lra.
Qed.
Print Assumptions C78_durations.

(** One iteration of an estimator with one subproblem: building takes 5, solving 3, updating 2, pricing 4, offering 1 and the integer program 7. *)
Definition small_clock (n : nat) : Q := nth n [0; 5; 5; 8; 8; 10; 10; 10; 14; 14; 15; 15; 15] 22.
Definition small : env nat nat nat :=
  mkEnv nat nat nat 0 0 [1%nat] true small_clock (fun w => Ok w) (fun w => Ok (w, w)) (fun w => Ok (true, w)) (fun w => (false, w))
    (fun _ _ _ w => Ok w) (fun _ _ _ w => Ok ([7%nat], w)) (fun _ w => Ok (false, w)) (fun w => Ok (true, w)).
Definition small_dur (x : event nat nat) : Q :=
  match x with EvGenerateMp => 5 | EvSolveRmp _ => 3 | EvUpdate _ _ _ => 2 | EvGenerate _ _ _ _ => 4 | EvAdd _ _ _ _ => 1 | EvSolveIp _ => 7 | _ => 0 end.
Definition small_times : list (Q * list (event nat nat)) :=
  [(0, [EvGenerateMp]); (5, []); (5, [EvSolveRmp 0%nat]); (8, [EvImproved true]); (8, [EvUpdate 0 0 0%nat]); (10, []);
   (10, [EvCheck 0 0 10]); (10, [EvGenerate 0 0 0%nat [7%nat]]); (14, []); (14, [EvAdd 0 0 7%nat false]); (15, []); (15, []);
   (15, [EvSolveIp true]); (22, []); (22, [])].
Definition small_run := fit small 5 [0; 1]%Z (new_estimator 0%nat).
Example C78_case : snd small_run = Done tt /\ (forall n, clock small n <= clock small (S n)) /\
  f_tick (fst small_run) = length small_times /\ map fst small_times = map (clock small) (seq 0 (length small_times)) /\
  concat (map snd small_times) = f_trace (fst small_run) /\ Forall (fun qe => alone (snd qe)) small_times /\ stopwatch small_dur small_times /\
  f_tmaster (fst small_run) == 3 /\ cell 0 (f_tsp (fst small_run)) 0 0 == 6 /\ f_tip (fst small_run) == 7 /\ f_tadd (fst small_run) == 1.
Proof.
  split; [vm_compute; reflexivity|]. split; [intros n; do 14 (destruct n as [|n]; [cbn; unfold small_clock; cbn; lra|]); cbn; unfold small_clock; cbn; destruct n; lra|].
  split; [vm_compute; reflexivity|]. split; [vm_compute; reflexivity|]. split; [vm_compute; reflexivity|].
  split; [unfold small_times; repeat constructor|]. split; [|vm_compute; auto].
  intros k qe qe' H1 H2. do 15 (destruct k as [|k]; [cbn in H1, H2; try discriminate; injection H1 as <-; injection H2 as <-; cbn; lra|]). destruct k; discriminate.
Qed.

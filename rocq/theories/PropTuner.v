(** Claims C01-C07: parameter tuner and solver scoring. *)
From Verif Require Import Base TunerModel SpecTuner TunerObs TunerProofs TunerRunProofs SolveModel SolveObs SolveProofs.
From Verif Require TunerFloatModel TunerFloatProofs.
From Coq Require Import Reals Qreals.
Open Scope Q_scope.

(** C01. Every history is a block of pushes, possibly after a history that ended in a clear; the reported statistics are
    the batch statistics of that block. *)
Theorem C01_running_statistics_equal_batch_statistics : forall h : list rs_op,
  exists l, (h = map RsPush l \/ exists h0, h = h0 ++ RsClear :: map RsPush l)
    /\ rs_num_data_values (rs_run h) = length l
    /\ rs_mean (rs_run h) == sample_mean l
    /\ rs_variance (rs_run h) == sample_variance l.
Proof.
  intros h. destruct (history_split h) as (l & H & E). exists l. split; [exact H|].
  apply rs_inv_stats. rewrite <- E. apply rs_run_inv.
Qed.
Print Assumptions C01_running_statistics_equal_batch_statistics.

Example C01_case :
  let h := [RsPush 7; RsClear; RsPush 1; RsPush 2; RsPush 6] in
  rs_num_data_values (rs_run h) = 3%nat /\ rs_mean (rs_run h) == 3 /\ rs_variance (rs_run h) == 7.
Proof. vm_compute. repeat split. Qed.

(** C02. *)
Theorem C02_variance_never_negative : forall h : list rs_op, 0 <= rs_variance (rs_run h).
Proof. exact rs_variance_nonneg. Qed.
Print Assumptions C02_variance_never_negative.

Theorem C02_mean_within_pushed_values : forall h l lo hi,
  (h = map RsPush l \/ exists h0, h = h0 ++ RsClear :: map RsPush l) -> l <> [] ->
  (forall x, In x l -> lo <= x <= hi) -> lo <= rs_mean (rs_run h) <= hi.
Proof.
  intros h l lo hi Hh Hne Hb.
  assert (E : rs_mean (rs_run h) == sample_mean l).
  { destruct Hh as [Hh|[h0 Hh]]; [apply (rs_run_stats [] l h); auto|apply (rs_run_stats h0 l h); auto]. }
  rewrite E. unfold sample_mean. destruct l as [|x l]; [congruence|]. apply batch_mean_bounds; auto; discriminate.
Qed.
Print Assumptions C02_mean_within_pushed_values.

(** The same in binary64 arithmetic without overflow: the variance (argument of the square root) is never negative and the
    mean never leaves the range of the pushed floats, whatever the rounding errors. *)
Theorem C02_binary64_variance_never_negative : forall h,
  Forall TunerFloatProofs.f_ok h -> (0 <= TunerFloatModel.fs_variance (TunerFloatModel.fs_run h))%R.
Proof. exact TunerFloatProofs.fs_variance_nonneg. Qed.
Print Assumptions C02_binary64_variance_never_negative.

Theorem C02_binary64_mean_within_pushed_values : forall h l lo hi,
  Forall TunerFloatProofs.f_ok h -> l <> [] ->
  (h = map TunerFloatModel.FPush l \/ exists h0, h = h0 ++ TunerFloatModel.FClear :: map TunerFloatModel.FPush l) ->
  (forall x, In x l -> (lo <= x <= hi)%R) ->
  (lo <= TunerFloatModel.fs_mean (TunerFloatModel.fs_run h) <= hi)%R.
Proof. exact TunerFloatProofs.fs_mean_range. Qed.
Print Assumptions C02_binary64_mean_within_pushed_values.

Example C02_case : 0 <= rs_variance (rs_run [RsPush (-3); RsPush 5; RsClear; RsPush 4; RsPush (1#2)])
  /\ rs_mean (rs_run [RsPush (-3); RsPush 5; RsClear; RsPush 4; RsPush (1#2)]) == 9#4.
Proof. vm_compute. split; [discriminate|reflexivity]. Qed.

(** Floats exist: 1 and 2 are binary64 numbers, so the hypotheses of the binary64 theorems are met by real histories. *)
Example C02_binary64_case :
  Forall TunerFloatProofs.f_ok [TunerFloatModel.FPush 1; TunerFloatModel.FClear; TunerFloatModel.FPush 2].
Proof.
  repeat constructor; simpl.
  - exact (TunerFloatProofs.b64_bpow 0 ltac:(lia)).
  - exact (TunerFloatProofs.b64_bpow 1 ltac:(lia)).
Qed.

(** C03. [h] is any history of calls on a new Parameter, [rng] any random stream. *)
Theorem C03_best_value_is_registered : forall rng c h,
  let p := tuner_state rng c h in
  (added h <> [] -> exists v p', get_best_value rng p = Ok (v, p') /\ In v (added h))
  /\ (added h = [] -> exists e, get_best_value rng p = Err e /\ tuner_step rng p TBest = (p, TErr e)).
Proof.
  intros rng c h p. split; intros H.
  - destruct (best_then_adjust rng c h 0 H) as (v & p1 & _ & E & Hin & _). exists v, p1. auto.
  - pose proof (state_values rng c h) as Hv. rewrite H in Hv.
    eexists. cbn [tuner_step]. rewrite best_empty by exact Hv. split; reflexivity.
Qed.
Print Assumptions C03_best_value_is_registered.

Example C03_case : exists p',
  get_best_value (fun _ => 5%nat)
    (tuner_state (fun _ => 5%nat) 1 [TAdd 3; TAdd 4; TAdd 2; TExplore 0; TAdjust 1 (Some 0%nat)]) = Ok (2%Z, p').
Proof. eexists. vm_compute. reflexivity. Qed.

(** C04. While the explore count is positive, each choice decrements it and nothing else about the schedule changes. *)
Theorem C04_exploration_decrements : forall rng c h v p',
  let p := tuner_state rng c h in
  (0 < pm_explore p)%Z -> get_best_value rng p = Ok (v, p') ->
  pm_explore p' = (pm_explore p - 1)%Z /\ pm_switch p' = pm_switch p /\ pm_values p' = pm_values p
  /\ pm_final p' = pm_final p /\ pm_counts p' = pm_counts p.
Proof.
  intros rng c h v p' p He E. unfold get_best_value in E.
  replace (0 <? pm_explore p)%Z with true in E by (symmetry; apply Z.ltb_lt; auto).
  inv_ok. destruct v0. inv_ok. simpl. auto.
Qed.
Print Assumptions C04_exploration_decrements.

(** Exploration ignores scores: two states with the same values, counters and random state choose alike. *)
Theorem C04_exploration_ignores_scores : forall rng p q,
  (0 < pm_explore p)%Z -> pm_values q = pm_values p -> pm_explore q = pm_explore p -> pm_switch q = pm_switch p ->
  pm_draws q = pm_draws p ->
  match get_best_value rng p, get_best_value rng q with
  | Ok (v, p'), Ok (w, q') => v = w /\ pm_cur p' = pm_cur q'
  | Err e, Err e' => e = e'
  | _, _ => False
  end.
Proof.
  intros rng p q He Ev Ee Es Ed. unfold get_best_value, explore_index. rewrite Ev, Ee, Es, Ed.
  replace (0 <? pm_explore p)%Z with true by (symmetry; apply Z.ltb_lt; auto).
  destruct (length (pm_values p) =? 2)%nat; cbn [bind].
  - destruct (getitem _ _); cbn; auto.
  - destruct (randrange rng (pm_draws p) (length (pm_values p))); cbn [bind]; auto.
    destruct (getitem _ _); cbn; auto.
Qed.
Print Assumptions C04_exploration_ignores_scores.

(** With two values, whatever scores are credited in between, the k-th exploring choice is the second value iff
    (switch_flag & remaining explore count) > 0; after as many choices as the explore count, exploration is over. *)
Theorem C04_two_value_schedule : forall rng p v0 v1 h,
  pm_values p = [v0; v1] -> forallb score_or_best h = true ->
  (Z.of_nat (length (filter is_best h)) <= pm_explore p)%Z ->
  returned (snd (tuner_run rng p h)) =
    map (fun j => if (0 <? Z.land (pm_switch p) (pm_explore p - Z.of_nat j))%Z then v1 else v0)
        (seq 0 (length (filter is_best h)))
  /\ pm_explore (fst (tuner_run rng p h)) = (pm_explore p - Z.of_nat (length (filter is_best h)))%Z.
Proof. intros rng p v0 v1 h H1 H2 H3. exact (explore_schedule_aux rng h p v0 v1 H1 H2 H3). Qed.
Print Assumptions C04_two_value_schedule.

(** With flag 2^k, any 2^(k+1) consecutive exploring choices return each of the two values 2^k times. *)
Theorem C04_two_value_balance : forall rng p v0 v1 h k,
  pm_values p = [v0; v1] -> v0 <> v1 -> forallb score_or_best h = true ->
  length (filter is_best h) = (2 ^ S k)%nat -> (Z.of_nat (2 ^ S k) <= pm_explore p)%Z ->
  pm_switch p = (2 ^ Z.of_nat k)%Z ->
  count_occ Z.eq_dec (returned (snd (tuner_run rng p h))) v0 = (2 ^ k)%nat
  /\ count_occ Z.eq_dec (returned (snd (tuner_run rng p h))) v1 = (2 ^ k)%nat.
Proof. intros rng p v0 v1 h k. exact (explore_balanced rng h p v0 v1 k). Qed.
Print Assumptions C04_two_value_balance.

Example C04_case :
  let p := tuner_state (fun _ => 0%nat) 1 [TAdd 2; TAdd 0; TSwitch 2; TExplore 9] in
  pm_values p = [2; 0]%Z /\ pm_switch p = (2 ^ 1)%Z /\ pm_explore p = 9%Z /\
  returned (snd (tuner_run (fun _ => 0%nat) p [TBest; TAdjust 1 None; TBest; TBest; TBest])) = [2; 2; 0; 0]%Z.
Proof. vm_compute. repeat split. Qed.

(** C05. After exploration the chosen position is under-sampled if any is, and otherwise within a tenth of a standard
    deviation of the best final score; every such position is chosen for some random stream. *)
Theorem C05_exploitation_choice : forall rng c h v p',
  let p := tuner_state rng c h in let log := tuner_log rng (param_init c) h in
  (pm_explore p <= 0)%Z -> get_best_value rng p = Ok (v, p') ->
  nth_error (registered log) (pm_cur p') = Some v /\ exploit_choice c (credits log) (pm_cur p').
Proof.
  intros rng c h v p' p log He E. unfold log. rewrite log_registered, <- (state_values rng c h).
  exact (exploit_choice_ok c p _ _ rng v p' (state_inv rng c h) He E).
Qed.
Print Assumptions C05_exploitation_choice.

Theorem C05_every_eligible_choice_is_possible : forall rng c h i,
  let p := tuner_state rng c h in let log := tuner_log rng (param_init c) h in
  (pm_explore p <= 0)%Z -> exploit_choice c (credits log) i ->
  exists rng' v p', get_best_value rng' p = Ok (v, p') /\ pm_cur p' = i.
Proof.
  intros rng c h i p log He Hc.
  exact (exploit_choice_all c p _ _ i (state_inv rng c h) He Hc).
Qed.
Print Assumptions C05_every_eligible_choice_is_possible.

(** Four scores for each of two values: the second one is far better and is the only choice. *)
Example C05_case :
  let h := [TAdd 10; TAdd 20; TExplore 0;
            TAdjust 0 (Some 0%nat); TAdjust 0 (Some 0%nat); TAdjust 0 (Some 0%nat); TAdjust 0 (Some 0%nat);
            TAdjust 7 (Some 1%nat); TAdjust 9 (Some 1%nat); TAdjust 7 (Some 1%nat); TAdjust 9 (Some 1%nat)] in
  let p := tuner_state (fun _ => 0%nat) 1 h in
  pm_explore p = 0%Z /\ (exists p', get_best_value (fun _ => 0%nat) p = Ok (20%Z, p'))
  /\ credits (tuner_log (fun _ => 0%nat) (param_init 1) h) = [[0; 0; 0; 0]; [7; 9; 7; 9]].
Proof. vm_compute. split; [reflexivity|]. split; [eexists; reflexivity|reflexivity]. Qed.

(** C06. *)
Theorem C06_score_bookkeeping : forall rng c h,
  let p := tuner_state rng c h in let log := tuner_log rng (param_init c) h in
  pm_values p = registered log
  /\ pm_counts p = map (@length Q) (credits log)
  /\ pm_total p = nsum (@length Q) (credits log)
  /\ Forall2 Qeq (pm_final p) (map (final_score c) (credits log))
  /\ pm_cur p = last_chosen log.
Proof.
  intros rng c h p log. pose proof (state_inv rng c h) as I. fold p in I. fold log in I.
  split; [unfold p, log; rewrite log_registered; apply state_values|].
  split; [apply (ti_counts _ _ _ _ I)|]. split; [apply (ti_total _ _ _ _ I)|].
  split; [|apply (ti_cur _ _ _ _ I)].
  apply final_map. apply (ti_final _ _ _ _ I).
Qed.
Print Assumptions C06_score_bookkeeping.

(** A choice is logged as the position of the value it returned, and changes no credit; a score without index goes to the
    position chosen last, to no other. *)
Theorem C06_choice_is_logged : forall rng c h v p',
  get_best_value rng (tuner_state rng c h) = Ok (v, p') ->
  tuner_log rng (param_init c) (h ++ [TBest]) = tuner_log rng (param_init c) h ++ [Chosen (pm_cur p')]
  /\ nth_error (added h) (pm_cur p') = Some v.
Proof.
  intros rng c h v p' E. split.
  - unfold tuner_state in E. revert E. generalize (param_init c). induction h as [|o h IH]; intros p E.
    + cbn [app tuner_log event_of]. simpl in E. rewrite E. reflexivity.
    + rewrite run_cons in E. cbn [fst] in E. cbn [app tuner_log]. rewrite (IH _ E). reflexivity.
  - destruct (best_ok c _ _ _ rng (state_inv rng c h)) as (v1 & p1 & E1 & Hn & Hv & _).
    { rewrite state_values. intros Ha. rewrite best_empty in E by (rewrite state_values; exact Ha). discriminate. }
    rewrite E in E1. inversion E1; subst v1 p1. rewrite Hv, state_values in Hn. exact Hn.
Qed.
Print Assumptions C06_choice_is_logged.

Theorem C06_implicit_score_goes_to_last_choice : forall rng c h s j,
  let log := tuner_log rng (param_init c) h in
  let log' := tuner_log rng (param_init c) (h ++ [TAdjust s None]) in
  nth_error (credits log') j =
    match nth_error (credits log) j with
    | Some l => Some (if (j =? last_chosen log)%nat then l ++ [s] else l)
    | None => None
    end.
Proof.
  intros rng c h s j log log'.
  assert (E : log' = log ++ [Scored s None]).
  { unfold log', log. generalize (param_init c). induction h as [|o h IH]; intros p; [reflexivity|].
    cbn [app tuner_log]. rewrite IH. reflexivity. }
  rewrite E. unfold credits, last_chosen. rewrite fold_left_app.
  destruct (fold_left credit_step log ([], 0%nat)) as [cr cur]. cbn. apply append_at_nth.
Qed.
Print Assumptions C06_implicit_score_goes_to_last_choice.

Example C06_case :
  let h := [TAdd 2; TAdd 0; TSwitch 2; TExplore 2; TBest; TAdjust 4 None; TBest; TAdjust 1 None; TAdjust 9 (Some 7%nat)] in
  let p := tuner_state (fun _ => 0%nat) 1 h in
  credits (tuner_log (fun _ => 0%nat) (param_init 1) h) = [[1]; [4]] /\ pm_total p = 2%nat
  /\ Forall2 Qeq (pm_final p) [2; 5].
Proof. vm_compute. repeat split; repeat constructor. Qed.

(** C07. For every history of solve_model calls (any solver answers, positive time limits), the next call uses registered
    values, namely those returned by get_best_value; it either credits -(time+gap) once to each parameter after its
    choice and records one time and one gap, or it is the division-by-zero outcome. *)
Theorem C07_solve_model_scoring : forall rs calls solver tl,
  (forall c, In c calls -> 0 < snd c) -> 0 < tl ->
  let s := sub_run rs calls in
  exists hp hq hl l q z,
    sub_hist rs s hp hq hl /\
    In l [2; 0]%Z /\ In q [2; 1]%Z /\ In z [3; 4; 2]%Z /\
    (exists p, get_best_value (rng_lns rs) (sub_lns s) = Ok (l, p)) /\
    (exists p, get_best_value (rng_probing rs) (sub_probing s) = Ok (q, p)) /\
    (exists p, get_best_value (rng_presolve rs) (sub_presolve s) = Ok (z, p)) /\
    let a := solver (mkSettings l q z) in
    (zero_gap_failure a ->
       exists s', solve_model rs solver tl s = (s', Err ZeroDivisionError)
       /\ sub_times s' = sub_times s /\ sub_gaps s' = sub_gaps s
       /\ sub_hist rs s' (hp ++ [TBest]) (hq ++ [TBest]) (hl ++ [TBest])) /\
    (~ zero_gap_failure a ->
       exists s' g, let score := (match an_status a with OPTIMAL => an_wall a / tl | _ => 1 end + g) in
         solve_model rs solver tl s = (s', Ok (mkSettings l q z))
         /\ sub_times s' = sub_times s ++ [an_wall a] /\ sub_gaps s' = sub_gaps s ++ [g]
         /\ 0 <= g <= 1 /\ (g == 0 <-> no_gap a)
         /\ sub_hist rs s' (hp ++ [TBest; TAdjust (- score) None]) (hq ++ [TBest; TAdjust (- score) None])
                           (hl ++ [TBest; TAdjust (- score) None])).
Proof.
  intros rs calls solver tl Hc Htl s.
  destruct (sub_run_hist rs calls Hc) as (hp & hq & hl & Hh). fold s in Hh.
  destruct (solve_model_step rs solver tl s hp hq hl Htl Hh) as (l & q & z & Il & Iq & Iz & El & Eq_ & Ez & R).
  exists hp, hq, hl, l, q, z. split; [exact Hh|]. repeat (split; [assumption|]).
  split; [eauto|]. split; [eauto|]. split; [eauto|]. cbv zeta in *.
  pose proof (solve_scores_spec tl (solver (mkSettings l q z)) Htl) as Sp.
  destruct (solve_scores tl (solver (mkSettings l q z))) as [[t g]|e].
  - destruct Sp as (Nz & Hg & Hz & Ht). destruct R as (s' & E1 & E2 & E3 & E4). split; [tauto|]. intros _.
    exists s', g. rewrite <- Ht. auto 10.
  - destruct Sp as (-> & Hz). destruct R as (s' & E1 & E2 & E3 & E4). split; [|tauto]. intros _. exists s'. auto.
Qed.
Print Assumptions C07_solve_model_scoring.

Example C07_case :
  let rs := mkStreams (fun k => k) (fun k => k) (fun k => k) in
  let solver := fun _ : settings => mkAnswer FEASIBLE 12 (-10) (-8) in
  let s := sub_run rs [(solver, 30); (solver, 30)] in
  map Qred (sub_gaps s) = [1#5; 1#5] /\ map Qred (sub_times s) = [12; 12]
  /\ snd (solve_model rs (fun _ => mkAnswer FEASIBLE 1 0 0) 30 s) = Err ZeroDivisionError.
Proof. vm_compute. repeat split. Qed.

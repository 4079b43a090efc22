(** Model of cut_gen_time: col_gen_estimator/_dtree_classifier.py, line 559 and lines 1040-1072 of solve_rmp with their readings of the clock (definitions only).

    [TreeModel.cut_rounds] leaves these readings out.  The clock is read by fit and, during solve_rmp, by the master problem; [clk] are the readings of fit
    and [ticks] those of the master problem.  That both are one clock is said in the theorems: solve_rmp also returns the readings made during the call,
    which the code does not do and nothing uses. *)
From Verif Require Import Base Lp FitModel TreeModel TreePricingModel TreeFitModel.
Open Scope nat_scope.

(** The number of readings made and cut_gen_time. *)
Record stopper := mkStop { st_read : nat; st_time : Q }.
(** Line 559. *)
Definition new_stopper : stopper := mkStop 0 0%Q.

Section Timed.
Variable ticks : nat -> Q.

(** Lines 1040-1072. *)
Fixpoint timed_rounds (sv : tsolvers) (n : nat) (s : tmaster) (new_cuts : list (list bool)) (t : stopper)
  : res (list (list bool) * tmaster * stopper * list Q) :=
  match n with
  | O => Ok (new_cuts, s, t, [])
  | S n' =>
      match tm_answer s with
      | None => Ok (new_cuts, s, t, [])
      | Some (x, _) =>
          let s1 := store_lp_solution x s in
          let t_start := ticks (st_read t) in                                                          (* line 1045 *)
          let* (num_beta, s2) := (if tm_beta_cuts s1 then add_beta_cuts s1 else Ok (0, s1)) in
          let* (cut_rows, s3) :=
            (if tm_gen_cuts s2 && (num_beta =? 0) then add_cuts (tv_cuts sv (tm_calls s2)) s2 else Ok ([], s2)) in
          let t_end := ticks (S (st_read t)) in                                                        (* line 1052 *)
          let t1 := mkStop (S (S (st_read t))) (st_time t + (t_end - t_start)) in                      (* line 1053 *)
          let s4 := add_total (length cut_rows + num_beta) s3 in
          if (0 <? length cut_rows) || (0 <? num_beta) then
            let* (cuts, s5, t2, more) := timed_rounds sv n' (solve_lp sv s4) (new_cuts ++ cut_rows) t1 in
            Ok (cuts, s5, t2, t_start :: t_end :: more)
          else Ok (new_cuts, s4, t1, [t_start; t_end])
      end
  end.

(** solve_rmp, lines 1024-1113. *)
Definition timed_solve_rmp (sv : tsolvers) (s : tmaster) (t : stopper) : res (tduals * list Q * (tmaster * stopper)) :=
  let* _ := assert (tm_generated s) in
  let s1 := solve_lp sv (start_iter s) in
  let* (new_cuts, s2, t1, seen) := (if tm_iter s1 mod 10 =? 0 then timed_rounds sv (tm_rounds s1) s1 [] t else Ok ([], s1, t, [])) in
  match tm_answer s2 with
  | Some (x, pi) =>
      let s3 := store_lp_solution x s2 in
      let* d := read_duals pi new_cuts s3 in Ok (d, seen, (s3, t1))
  | None => Ok (mkDuals [] [] [] [] new_cuts, seen, (s2, t1))
  end.

(** The calls of fit on the objects of the estimator (as [TreeFitModel.tree_env]); no other method touches cut_gen_time. *)
Definition beside {A} (f : tworld -> res (A * tworld)) (wt : tworld * stopper) : res (A * (tworld * stopper)) :=
  let* (a, w) := f (fst wt) in Ok (a, (w, snd wt)).
Definition timed_env (sv : fsolvers) (A : targs) (clk : nat -> Q) (X : list sample) (y : list nat) : env (tworld * stopper) (tduals * list Q) path :=
  let e := tree_env sv A clk X y in
  mkEnv _ _ _ (max_iterations e) (time_limit e) (levels e) (rmp_is_ip e) clk
    (fun wt => let* w := c_generate_mp e (fst wt) in Ok (w, snd wt))
    (fun wt => let w := fst wt in
               let* (d, (s, t)) := timed_solve_rmp (fs_tree sv) (tw_master w) (snd wt) in
               Ok (d, (mkTw s (tw_heur w) (tw_subs w) (tw_calls w), t)))
    (beside (c_improved e)) (fun wt => let '(b, w) := c_reset_timer e (fst wt) in (b, (w, snd wt)))
    (fun l i d wt => let* w := c_update e l i (fst d) (fst wt) in Ok (w, snd wt))
    (fun l i d => beside (c_generate e l i (fst d))) (fun c => beside (c_add e c)) (beside (c_solve_ip e)).
(** fit. *)
Definition timed_fit (sv : fsolvers) (A : targs) (clk : nat -> Q) (X : list sample) (y : list nat) (fuel : nat)
    (s : fstate (tworld * stopper) (tduals * list Q) path) : fstate (tworld * stopper) (tduals * list Q) path * outcome unit :=
  fit (timed_env sv A clk X y) fuel (map Z.of_nat y) s.
End Timed.

(** cut_gen_time of the estimator, and its state without it. *)
Definition cut_gen_time (s : fstate (tworld * stopper) (tduals * list Q) path) : Q := st_time (snd (f_world s)).
Definition plain_event {D C} (x : event (D * list Q) C) : event D C :=
  match x with
  | EvGenerateMp => EvGenerateMp | EvSolveRmp d => EvSolveRmp (fst d) | EvImproved b => EvImproved b | EvResetTimer => EvResetTimer
  | EvUpdate l i d => EvUpdate l i (fst d) | EvCheck l i e => EvCheck l i e | EvGenerate l i d cols => EvGenerate l i (fst d) cols
  | EvAdd l i c b => EvAdd l i c b | EvSolveIp b => EvSolveIp b
  end.
Definition untimed {W D C} (s : fstate (W * stopper) (D * list Q) C) : fstate W D C :=
  mkF (fst (f_world s)) (f_tick s) (map plain_event (f_trace s)) (f_tstart s) (f_iter s) (f_performed s) (f_improving s) (f_optimal s) (f_tlr s) (f_cols s)
    (f_tsp s) (f_tadd s) (f_tmaster s) (f_tip s) (f_elapsed s) (f_fitted s).

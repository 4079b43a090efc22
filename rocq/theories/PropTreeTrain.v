(** Properties C65 and C66: a whole training run of the decision tree estimator. *)
From Verif Require Import Base Lp LpProofs SpecDual DualProofs LpCheck LpBrute FitModel SpecFit FitMainProofs FitHoareProofs SolveModel SolveObs TreeModel TreePricingModel TreeFitModel SpecTree
  SpecTreeRun SpecTreeLp SpecTreePrice SpecTreeMip SpecTreeFit SpecTreeTrain TreeCheck TreeTrainProofs TreeTrainInvProofs TreeTrainCertProofs TreeHonestProofs
  PropTreeLp PropTreePrice PropTreeCert PropTreeFit.
Open Scope nat_scope.

(** fit returns after a bounded number of iterations, whatever the clock, the random numbers and the solutions the solvers
    choose; the selected paths form a decision tree over the candidate splits and predict follows it. *)
Theorem C65_training : forall A X y sv clk w fuel, dtree_init A = Ok w -> trainable A X y -> honest (fit_setup A X y) sv ->
  iteration_bound (fit_setup A X y) <= fuel ->
  exists s' sel tree, tree_fit sv A clk X y fuel (new_estimator w) = (s', Done tt) /\ f_iter s' <= iteration_bound (fit_setup A X y) /\
    tm_selected (tw_master (f_world s')) = Some sel /\ forms_tree (fit_setup A X y) tree sel /\
    forall L (classes : list L) Xs, Forall (fits (ta_splits A)) Xs ->
      tree_predict A classes s' Xs = map_res (fun xr => decode classes (leaf_target sel (tree_leaf (ta_depth A) (ta_splits A) tree xr))) Xs.
Proof.
  intros A X y sv clk w fuel Ew R Ho Hf. destruct (train_ok A X y sv clk R Ho (fun _ => True)) with (w := w) (fuel := fuel) as (s' & Es & Hi & (ops & cuts & s & x & Ha & [HP _] & Hx & _ & Eip) & _); auto; [apply Forall_forall; auto|].
  destruct (C37_trees _ _ _ _ x (tr_setup _ _ _ R) Ha HP Hx) as (s2 & sel & tree & E2 & Esel & _ & Hft & Hpr). rewrite Eip in E2. injection E2 as <-.
  exists s', sel, tree. split; auto. split; auto. split; auto. split; auto. intros L classes Xs HX. unfold tree_predict. rewrite Esel, (tr_leaves _ _ _ R). apply Hpr. exact HX.
Qed.
Print Assumptions C65_training.

(** If fit stops because no subproblem found a column and the subproblems were solved to within a gap [g] of the optimum, no tree over the candidate
    splits classifies more training weight correctly than the dual objective value of the duals that the LP solver reported
    last (up to the tolerances and the gap).  The duals need not be optimal; their signs and reduced costs are right up to [tau]. *)
Theorem C66_any_duals : forall A X y sv clk w0 fuel s' x pi tau g w, dtree_init A = Ok w0 -> trainable A X y -> honest (fit_setup A X y) sv -> gap_pricing sv g ->
  tree_fit sv A clk X y fuel (new_estimator w0) = (s', Done tt) -> f_optimal s' = true ->
  tm_answer (tw_master (f_world s')) = Some (x, pi) -> near_dual (tm_lp (tw_master (f_world s'))) pi tau -> training_weight A (fit_setup A X y) w ->
  forall tree label v, tree_over (ta_depth A) (ta_nodes A) tree ->
    correct_weight (fit_setup A X y) w (fun xr => label (tree_leaf (ta_depth A) (ta_splits A) tree xr)) v ->
    (v <= dual_value (tm_lp (tw_master (f_world s'))) pi + inject_Z (Z.of_nat (2 ^ ta_depth A)) * (slack A X (tw_master (f_world s')) + leaf_gap A g)
          + inject_Z (Z.of_nat (2 ^ ta_depth A - 1)) * tau)%Q.
Proof.
  intros A X y sv clk w0 fuel s' x pi tau g w Ew R Ho Hx Ef Hopt Ea K W.
  destruct (train_ok A X y sv clk R Ho (fun _ => True)) with (w := w0) (fuel := Nat.max fuel (iteration_bound (fit_setup A X y))) as (s2 & Es & _ & _ & H);
    auto using Nat.le_max_r; [apply Forall_forall; auto|].
  unfold tree_fit in *. rewrite (fit_mono _ fuel) in Es by (try apply Nat.le_max_l; rewrite Ef; discriminate). rewrite Ef in Es. injection Es as <-.
  destruct (H Hopt) as (k & dl & H1). eapply certificate; eauto.
Qed.
Print Assumptions C66_any_duals.

(** Exact solvers are the case of gap 0. *)
Lemma exact_gap sv : exact_pricing sv -> gap_pricing sv 0.
Proof.
  intros H k m Z F. destruct (H k m Z F) as [(x & E & O) S]. split; [exists x; split; auto using optimal_near|].
  intros st. destruct (S st) as (x' & E' & O'). exists x'. split; auto using optimal_near.
Qed.
(** If the last LP and the subproblems were solved to optimality the bound is its objective value. *)
Theorem C66_certificate : forall A X y sv clk w0 fuel s' x pi w, dtree_init A = Ok w0 -> trainable A X y -> honest (fit_setup A X y) sv -> exact_pricing sv ->
  tree_fit sv A clk X y fuel (new_estimator w0) = (s', Done tt) -> f_optimal s' = true ->
  tm_answer (tw_master (f_world s')) = Some (x, pi) -> lp_kkt (tm_lp (tw_master (f_world s'))) x pi -> training_weight A (fit_setup A X y) w ->
  forall tree label v, tree_over (ta_depth A) (ta_nodes A) tree ->
    correct_weight (fit_setup A X y) w (fun xr => label (tree_leaf (ta_depth A) (ta_splits A) tree xr)) v ->
    (v <= objective_value (tm_lp (tw_master (f_world s'))) x + inject_Z (Z.of_nat (2 ^ ta_depth A)) * slack A X (tw_master (f_world s')))%Q.
Proof.
  intros A X y sv clk w0 fuel s' x pi w Ew R Ho Hx Ef Hopt Ea K W tree label v Ht Hv.
  pose proof (C66_any_duals A X y sv clk w0 fuel s' x pi 0%Q 0%Q w Ew R Ho (exact_gap _ Hx) Ef Hopt Ea (kkt_near _ _ _ K) W tree label v Ht Hv) as H.
  rewrite (kkt_dual_value _ _ _ K).
  assert (Eg : (leaf_gap A 0 == 0)%Q) by (unfold leaf_gap; destruct (ta_old A); reflexivity). rewrite Eg in H. lra.
Qed.
Print Assumptions C66_certificate.

(** Without a time limit and an iteration limit fit stops only for that reason. *)
Theorem C66_runs_to_optimality : forall A X y sv clk w fuel s', (ta_max_iterations A <= 0)%Z -> (ta_time_limit A <= 0)%Q ->
  tree_fit sv A clk X y fuel (new_estimator w) = (s', Done tt) -> f_optimal s' = true.
Proof.
  intros A X y sv clk w fuel s Hm Ht HF. unfold tree_fit in HF. apply fit_spec in HF.
  destruct HF as (_ & t & e & _ & (evs & LT & _) & _ & _ & _ & HO & _). rewrite HO. cbn [max_iterations time_limit tree_env] in LT.
  clear -LT Hm Ht. induction LT as [k M|k evs M T|k evs M T|k evs evs' e M T LT IH]; auto; try lia.
  inversion T as [d b r evs' v SW]; subst. exfalso. remember TimedOut as v. clear T. induction SW; try discriminate; auto. lra.
Qed.
Print Assumptions C66_runs_to_optimality.

(** The assumptions about the solvers can be met for every setup (by enumeration). *)
Theorem C65_solvers : forall u, valid_setup u -> exists sv, honest u sv /\ exact_pricing sv.
Proof. intros u V. exists (enumerating (fun _ => 0%Q) (fun _ => 0%Q)). split; [apply enumerating_honest; auto|apply enumerating_exact]. Qed.
Print Assumptions C65_solvers.

(** * Cases *)

Definition ex1_X : list sample := [[0]; [1]; [2]]%Q.
Definition ex1_y : list nat := [0; 1; 0].
Lemma ex1_trainable old : trainable (ex1_args 1 old) ex1_X ex1_y.
Proof.
  assert (Es : fit_setup (ex1_args 1 old) ex1_X ex1_y = ex1_setup) by reflexivity.
  assert (P : proper_paths ex1_setup (ta_paths (ex1_args 1 old))).
  { unfold proper_paths. apply Forall_cons; [|apply Forall_cons; [|apply Forall_nil]];
      (split; [split; [cbn; lia|split; [apply Permutation_refl|split; [reflexivity|constructor; [cbn; lia|constructor]]]]|];
       intros n k [H|[]]; injection H as <- <-; eexists; (split; [reflexivity|left; reflexivity])). }
  constructor; rewrite ?Es.
  - reflexivity.
  - apply ex1_valid.
  - apply ex1_data.
  - apply ex1_agree.
  - apply Permutation_refl.
  - repeat constructor.
  - exists 0, 1. cbn. intuition discriminate.
  - exact P.
  - exists (fun _ => 0), (ta_paths (ex1_args 1 old)). split; [intros p Hp; exact Hp|]. split; [|split].
    + intros n nd Hn E. cbn in Hn. assert (n = 0) by lia. subst n. injection E as <-. left. reflexivity.
    + apply Permutation_refl.
    + repeat constructor; intros n k [H|[]]; injection H as <- <-; reflexivity.
Qed.
Definition ex1_run (old : bool) : option (fstate tworld tduals path) :=
  match dtree_init (ex1_args 1 old) with
  | Ok w => match tree_fit (enumerating ex1_x ex1_pi) (ex1_args 1 old) (fun _ => 0%Q) ex1_X ex1_y 3 (new_estimator w) with (s, Done tt) => Some s | _ => None end
  | Err _ => None end.
(** Both variants stop in the first iteration without a new column: the hypotheses of both theorems hold, and the bound
    excludes trees that classify all three rows. *)
Lemma ex1_run_ok : forall old, match ex1_run old with
  | Some s => f_optimal s = true /\ tm_answer (tw_master (f_world s)) = Some (ex1_x, ex1_pi) /\ kktb (tm_lp (tw_master (f_world s))) ex1_x ex1_pi = true /\
      Qeq_bool (objective_value (tm_lp (tw_master (f_world s))) ex1_x) 2 = true /\ tm_cut_cons (tw_master (f_world s)) = [] /\
      tree_predict (ex1_args 1 old) [0; 1] s [[0]; [1]; [2]]%Q = Ok [0; 1; 1]
  | None => False end.
Proof. intros [|]; vm_compute; repeat split. Qed.
Lemma ex1_run_fit old s : ex1_run old = Some s -> exists w, dtree_init (ex1_args 1 old) = Ok w /\
  tree_fit (enumerating ex1_x ex1_pi) (ex1_args 1 old) (fun _ => 0%Q) ex1_X ex1_y 3 (new_estimator w) = (s, Done tt).
Proof.
  unfold ex1_run. destruct (dtree_init (ex1_args 1 old)) as [w|]; [|discriminate]. intros H. exists w. split; auto.
  destruct (tree_fit _ _ _ _ _ _ _) as [s1 [[]| | ]]; congruence.
Qed.
Example C65_case : forall old, exists w s, dtree_init (ex1_args 1 old) = Ok w /\ trainable (ex1_args 1 old) ex1_X ex1_y /\
  honest (fit_setup (ex1_args 1 old) ex1_X ex1_y) (enumerating ex1_x ex1_pi) /\ exact_pricing (enumerating ex1_x ex1_pi) /\
  tree_fit (enumerating ex1_x ex1_pi) (ex1_args 1 old) (fun _ => 0%Q) ex1_X ex1_y 3 (new_estimator w) = (s, Done tt) /\ f_optimal s = true /\
  tm_answer (tw_master (f_world s)) = Some (ex1_x, ex1_pi) /\ lp_kkt (tm_lp (tw_master (f_world s))) ex1_x ex1_pi.
Proof.
  intros old. pose proof (ex1_run_ok old) as H. destruct (ex1_run old) as [s|] eqn:E; [|destruct H]. destruct H as (H1 & H2 & H3 & _).
  destruct (ex1_run_fit old s E) as (w & Ew & Ef). exists w, s. split; [exact Ew|]. split; [apply ex1_trainable|].
  split; [apply enumerating_honest; apply (tr_setup _ _ _ (ex1_trainable old))|]. split; [apply enumerating_exact|]. split; [exact Ef|]. split; [exact H1|]. split; [exact H2|].
  apply kktb_ok. exact H3.
Qed.
Example C66_case_bound : forall (old : bool) tree label v, tree_over 1 ex1_nodes tree ->
  correct_weight ex1_setup (fun _ => 1%Q) (fun xr => label (tree_leaf 1 ex1_splits tree xr)) v -> (v < 3)%Q.
Proof.
  intros old tree label v Ht Hv. pose proof (ex1_run_ok old) as H. destruct (ex1_run old) as [s|] eqn:E; [|destruct H]. destruct H as (H1 & H2 & H3 & H4 & H5 & _).
  destruct (ex1_run_fit old s E) as (w & Ew & Ef).
  assert (W : training_weight (ex1_args 1 old) (fit_setup (ex1_args 1 old) ex1_X ex1_y) (fun _ => 1%Q)).
  { intros r. split; [intros _; destruct old; reflexivity|intros Hn; exfalso; apply Hn; exact I]. }
  pose proof (C66_certificate _ _ _ _ _ _ _ _ _ _ _ Ew (ex1_trainable old) (enumerating_honest _ _ _ (tr_setup _ _ _ (ex1_trainable old))) (enumerating_exact _ _) Ef H1 H2
    (kktb_ok _ _ _ H3) W tree label v Ht Hv) as HB.
  apply Qeq_bool_iff in H4. rewrite H4 in HB. unfold slack, pricing_vars in HB. rewrite H5 in HB. unfold teps in HB.
  change (ta_depth (ex1_args 1 old)) with 1 in HB. change (inject_Z (Z.of_nat (2 ^ 1))) with 2%Q in HB. change (ta_old (ex1_args 1 old)) with old in HB. destruct old; cbn iota in HB; [lra|].
  match type of HB with context [inject_Z (Z.of_nat ?n)] => let k := eval vm_compute in (inject_Z (Z.of_nat n)) in change (inject_Z (Z.of_nat n)) with k in HB end. lra.
Qed.

(** Initial paths with the wrong classes: the first iteration adds a path, the second finds none. *)
Definition ex1b_args (old : bool) : targs :=
  mkTargs [mkPath 0 [0] [0] 0 0 1 false; mkPath 1 [0] [1] 0 0 1 false; mkPath 1 [0] [0] 0 0 0 false] (complete_leaves 1) ex1_nodes ex1_splits 1 [0; 1]%Z
    (-1) (-1) 3 false true None old.
Definition ex1b_run (old : bool) : option (nat * bool * nat * res (list nat)) :=
  match dtree_init (ex1b_args old) with
  | Ok w => match tree_fit (enumerating (fun _ => 0%Q) (fun _ => 0%Q)) (ex1b_args old) (fun _ => 0%Q) ex1_X ex1_y 9 (new_estimator w) with
            | (s, Done tt) => Some (f_iter s, f_optimal s, length (tm_paths (tw_master (f_world s))), tree_predict (ex1b_args old) [0; 1] s [[0]; [1]; [2]]%Q)
            | _ => None end
  | Err _ => None end.
Lemma ex1b_trainable old : trainable (ex1b_args old) ex1_X ex1_y.
Proof.
  constructor.
  - reflexivity.
  - apply valid_setup_ok; [vm_compute|]; reflexivity.
  - apply data_okb_ok. vm_compute. reflexivity.
  - intros rows r dr E. discriminate.
  - apply Permutation_refl.
  - repeat constructor.
  - exists 0, 1. cbn. intuition discriminate.
  - unfold proper_paths. apply Forall_cons; [|apply Forall_cons; [|apply Forall_cons; [|apply Forall_nil]]];
      (split; [split; [cbn; lia|split; [apply Permutation_refl|split; [reflexivity|constructor; [cbn; lia|constructor]]]]|];
       intros n k [H|[]]; injection H as <- <-; eexists; (split; [reflexivity|cbn; auto])).
  - exists (fun _ => 0), [mkPath 0 [0] [0] 0 0 1 false; mkPath 1 [0] [0] 0 0 0 false]. split; [|split; [|split]].
    + intros p [<-|[<-|[]]]; cbn; auto.
    + intros n nd Hn E. cbn in Hn. assert (n = 0) by lia. subst n. injection E as <-. left. reflexivity.
    + apply Permutation_refl.
    + repeat constructor; intros n k [H|[]]; injection H as <- <-; reflexivity.
Qed.
Example C65_case_column : forall old, trainable (ex1b_args old) ex1_X ex1_y /\ ex1b_run old = Some (2, true, 4, Ok [1; 0; 0]).
Proof. intros old. split; [apply ex1b_trainable|]. destruct old; vm_compute; reflexivity. Qed.

(** C92: a finished tree training against every other training. *)
From Verif Require Import Base Lp LpProofs SpecDual DualProofs LpCheck LpBrute FitModel SpecFit FitMainProofs FitHoareProofs SolveModel SolveObs TreeModel TreePricingModel TreeFitModel SpecTree
  SpecTreeRun SpecTreeLp SpecTreePrice SpecTreeMip SpecTreeFit SpecTreeTrain SpecTreeResult TreeCheck TreeGeoProofs TreePathProofs TreeLpBuild TreeBuildProofs TreeInvProofs TreeMasterProofs TreeFormProofs
  TreeSolProofs TreeLpProofs TreeHonestProofs TreePriceProofs TreeHeurProofs TreeFedProofs TreeTrainProofs TreeTrainInvProofs TreeTrainCertProofs TreeResultProofs TreeOutcomeProofs
  PropTreeLp PropTreePrice PropTreeCert PropTreeFit PropTreeTrain PropTreeResult SpecMore MoreProofs PropMore.
From Verif Require Import SpecRival.
Open Scope nat_scope.

Lemma fewer_over A A' tree : fewer_candidates A A' -> tree_over (ta_depth A) (ta_nodes A) tree -> tree_over (ta_depth A') (ta_nodes A') tree.
Proof.
  intros (Ed & _ & H) Ht n nd' Hn E. destruct (H n nd' E) as (nd & En & Hi). apply Hi. apply (Ht n nd); [rewrite Ed; exact Hn|exact En].
Qed.

(** What estimator [A] classifies correctly on the training data is bounded by the last dual objective of every training of
    an estimator [A'] with at least its candidate splits that found no more columns, whatever the initial paths, solvers,
    clocks, limits, cut settings and kinds of subproblems of the two. *)
Theorem C92_bounds_rivals : forall A A' X y sv sv' clk clk' w0 w0' fuel fuel' s s' w x pi tau g, fewer_candidates A A' ->
  dtree_init A = Ok w0 -> trainable A X y -> honest (fit_setup A X y) sv -> tree_fit sv A clk X y fuel (new_estimator w0) = (s, Done tt) ->
  dtree_init A' = Ok w0' -> trainable A' X y -> honest (fit_setup A' X y) sv' -> gap_pricing sv' g ->
  tree_fit sv' A' clk' X y fuel' (new_estimator w0') = (s', Done tt) -> f_optimal s' = true ->
  tm_answer (tw_master (f_world s')) = Some (x, pi) -> near_dual (tm_lp (tw_master (f_world s'))) pi tau -> training_weight A' (fit_setup A' X y) w ->
  exists code, predicts A s code /\ forall v, correct_weight (fit_setup A' X y) w code v ->
    (v <= dual_value (tm_lp (tw_master (f_world s'))) pi + inject_Z (Z.of_nat (2 ^ ta_depth A')) * (slack A' X (tw_master (f_world s')) + leaf_gap A' g)
          + inject_Z (Z.of_nat (2 ^ ta_depth A' - 1)) * tau)%Q.
Proof.
  intros A A' X y sv sv' clk clk' w0 w0' fuel fuel' s s' w x pi tau g Hf Ew R Ho Ef Ew' R' Ho' Hx' Ef' Hopt Ea K W.
  destruct (outcome A X y sv clk R Ho (fun _ => True) w0 fuel s) as (ops & cuts & s1 & x1 & sel & tree & _ & _ & _ & _ & _ & _ & _ & Ht & _ & Hpr & _); auto.
  { apply Forall_forall. auto. }
  eexists. split; [exact Hpr|]. intros v Hv. destruct Ht as (T1 & _). cbn [fit_setup su_depth su_nodes] in T1.
  pose proof (fewer_over A A' tree Hf T1) as T1'. destruct Hf as (Ed & Es & _). rewrite Ed, Es in Hv.
  apply (C66_any_duals A' X y sv' clk' w0' fuel' s' x pi tau g w Ew' R' Ho' Hx' Ef' Hopt Ea K W tree (leaf_target sel) v T1' Hv).
Qed.
Print Assumptions C92_bounds_rivals.

(** If the last LP of [A'] was solved to optimality with exact subproblems, its initial costs are right, and its selected paths
    reach the LP value up to less than 1 (tolerances included), it classifies at least as much training weight correctly as
    every estimator [A]. *)
Theorem C92_unbeaten : forall A A' X y sv sv' clk clk' w0 w0' fuel fuel' s s' w x pi sel, fewer_candidates A A' ->
  dtree_init A = Ok w0 -> trainable A X y -> honest (fit_setup A X y) sv -> tree_fit sv A clk X y fuel (new_estimator w0) = (s, Done tt) ->
  dtree_init A' = Ok w0' -> trainable A' X y -> honest (fit_setup A' X y) sv' -> exact_pricing sv' ->
  training_weight A' (fit_setup A' X y) w -> data_weight (fit_setup A' X y) w -> (ta_old A' = true -> forall r, active (fit_setup A' X y) r -> 1 <= row_weight (fit_setup A' X y) r) ->
  Forall (counts_rows (fit_setup A' X y) w) (ta_paths A') ->
  tree_fit sv' A' clk' X y fuel' (new_estimator w0') = (s', Done tt) -> f_optimal s' = true ->
  tm_answer (tw_master (f_world s')) = Some (x, pi) -> lp_kkt (tm_lp (tw_master (f_world s'))) x pi -> tm_selected (tw_master (f_world s')) = Some sel ->
  (objective_value (tm_lp (tw_master (f_world s'))) x - qsum p_cost sel + inject_Z (Z.of_nat (2 ^ ta_depth A')) * slack A' X (tw_master (f_world s')) < 1)%Q ->
  exists code code' v', predicts A s code /\ predicts A' s' code' /\ correct_weight (fit_setup A' X y) w code' v' /\
    forall v, correct_weight (fit_setup A' X y) w code v -> (v <= v')%Q.
Proof.
  intros A A' X y sv sv' clk clk' w0 w0' fuel fuel' s s' w x pi sel Hf Ew R Ho Ef Ew' R' Ho' Hx' TW W H1 Hc Ef' Hopt Ea K Esel Hgap.
  destruct (outcome A X y sv clk R Ho (fun _ => True) w0 fuel s) as (ops & cuts & s1 & x1 & sel1 & tree & _ & _ & _ & _ & _ & _ & _ & Ht & _ & Hpr & _); auto.
  { apply Forall_forall. auto. }
  destruct (C67_gap A' X y sv' clk' w0' fuel' s' w x pi sel Ew' R' Ho' Hx' TW W H1 Hc Ef' Hopt Ea K Esel) as (code' & v' & Hp' & Hv' & HB).
  eexists _, code', v'. split; [exact Hpr|]. split; [exact Hp'|]. split; [exact Hv'|]. intros v Hv. destruct Ht as (T1 & _). cbn [fit_setup su_depth su_nodes] in T1.
  pose proof (fewer_over A A' tree Hf T1) as T1'. pose proof Hv as Hv2. destruct Hf as (Ed & Es & _). rewrite Ed, Es in Hv.
  specialize (HB tree (leaf_target sel1) v T1' Hv).
  destruct (correct_whole _ _ _ _ W Hv) as [n E1]. destruct (correct_whole _ _ _ _ W Hv') as [n' E2]. rewrite E1, E2 in *.
  rewrite <- Zle_Qle. apply whole_le. lra.
Qed.
Print Assumptions C92_unbeaten.

(** Training stopped after one iteration classifies one of three rows correctly; a training with other initial paths that finds
    no column and closes its gap classifies two. *)
Example C92_case : forall old old', exists w w' s s' sel, fewer_candidates (args_limits (ex1c_args old) 1 (-1)) (ex1_args 1 old') /\
  dtree_init (args_limits (ex1c_args old) 1 (-1)) = Ok w /\ trainable (args_limits (ex1c_args old) 1 (-1)) ex1_X ex1_y /\
  honest (fit_setup (ex1c_args old) ex1_X ex1_y) (stepping step_duals) /\
  tree_fit (stepping step_duals) (args_limits (ex1c_args old) 1 (-1)) ticks ex1_X ex1_y 9 (new_estimator w) = (s, Done tt) /\
  dtree_init (ex1_args 1 old') = Ok w' /\ trainable (ex1_args 1 old') ex1_X ex1_y /\
  honest (fit_setup (ex1_args 1 old') ex1_X ex1_y) (enumerating ex1_x ex1_pi) /\ exact_pricing (enumerating ex1_x ex1_pi) /\
  training_weight (ex1_args 1 old') (fit_setup (ex1_args 1 old') ex1_X ex1_y) (fun _ => 1%Q) /\ data_weight (fit_setup (ex1_args 1 old') ex1_X ex1_y) (fun _ => 1%Q) /\
  (forall r, active (fit_setup (ex1_args 1 old') ex1_X ex1_y) r -> 1 <= row_weight (fit_setup (ex1_args 1 old') ex1_X ex1_y) r) /\
  Forall (counts_rows (fit_setup (ex1_args 1 old') ex1_X ex1_y) (fun _ => 1%Q)) (ta_paths (ex1_args 1 old')) /\
  tree_fit (enumerating ex1_x ex1_pi) (ex1_args 1 old') (fun _ => 0%Q) ex1_X ex1_y 3 (new_estimator w') = (s', Done tt) /\ f_optimal s' = true /\
  tm_answer (tw_master (f_world s')) = Some (ex1_x, ex1_pi) /\ lp_kkt (tm_lp (tw_master (f_world s'))) ex1_x ex1_pi /\ tm_selected (tw_master (f_world s')) = Some sel /\
  (objective_value (tm_lp (tw_master (f_world s'))) ex1_x - qsum p_cost sel + inject_Z (Z.of_nat (2 ^ 1)) * slack (ex1_args 1 old') ex1_X (tw_master (f_world s')) < 1)%Q /\
  tree_predict (ex1c_args old) [0; 1; 2] s ex1_X = Ok [0; 2; 2] /\ tree_predict (ex1_args 1 old') [0; 1] s' ex1_X = Ok [0; 1; 1].
Proof.
  intros old old'. destruct (C90_case old false) as (w & s & _ & _ & _ & Ew & _ & Ho & _ & _ & _ & _ & Ef & _ & _ & _ & _ & Hpr & _).
  destruct (C65_case old') as (w' & s' & Ew' & R' & Ho' & Hx' & Ef' & Hopt & Ea & K). destruct (C67_case_gap old') as (s2 & sel & E2 & Es & Eg & TW & W & Hc).
  destruct (ex1_run_fit old' s2 E2) as (w2 & Ew2 & Ef2). rewrite Ew' in Ew2. injection Ew2 as <-. rewrite Ef' in Ef2. injection Ef2 as <-.
  pose proof (ex1_run_ok old') as H. rewrite E2 in H. destruct H as (_ & _ & _ & _ & Hcut & Hp').
  exists w, w', s, s', sel.
  split. { split; [reflexivity|]. split; [reflexivity|]. intros n nd E. exists nd. split; [exact E|intros k Hk; exact Hk]. }
  split; [exact Ew|]. split; [destruct (ex1c_trainable old); constructor; assumption|]. split; [exact Ho|]. split; [exact Ef|].
  split; [exact Ew'|]. split; [exact R'|]. split; [exact Ho'|]. split; [exact Hx'|]. split; [exact TW|]. split; [exact W|]. split; [intros r _; cbn; lia|].
  split; [exact Hc|]. split; [exact Ef'|]. split; [exact Hopt|]. split; [exact Ea|]. split; [exact K|]. split; [exact Es|].
  split; [|split; [exact Hpr|exact Hp']]. rewrite Eg. unfold slack, pricing_vars, teps. rewrite Hcut. change (ta_old (ex1_args 1 old')) with old'.
  change (inject_Z (Z.of_nat (2 ^ 1))) with 2%Q. destruct old'; [lra|].
  match goal with |- context [inject_Z (Z.of_nat ?n)] => let k := eval vm_compute in (inject_Z (Z.of_nat n)) in change (inject_Z (Z.of_nat n)) with k end. lra.
Qed.

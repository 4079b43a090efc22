(** C90: larger limits continue the same training. *)
From Verif Require Import Base Lp LpProofs SpecDual DualProofs LpCheck LpBrute FitModel SpecFit FitMainProofs FitHoareProofs SolveModel SolveObs TreeModel TreePricingModel TreeFitModel SpecTree
  SpecTreeRun SpecTreeLp SpecTreePrice SpecTreeMip SpecTreeFit SpecTreeTrain SpecTreeResult TreeCheck TreeGeoProofs TreePathProofs TreeLpBuild TreeBuildProofs TreeInvProofs TreeMasterProofs TreeFormProofs
  TreeSolProofs TreeLpProofs TreeHonestProofs TreePriceProofs TreeHeurProofs TreeFedProofs TreeTrainProofs TreeTrainInvProofs TreeTrainCertProofs TreeResultProofs TreeOutcomeProofs TreeRefitProofs
  PropTreeLp PropTreePrice PropTreeCert PropTreeFit PropTreeTrain PropTreeResult.
From Verif Require Import SpecMore MoreProofs.
Open Scope nat_scope.

(** For every estimator: the training with the larger limits makes the same calls and time checks with the same results up to the end of the smaller one
    (whose last call may be the integer solve).  If the smaller one was not stopped by its limits, or reports optimality, both end in the same state. *)
Theorem C90_continues : forall {W D C} (E : env W D C) m m' q q' fuel fuel' y s t t', iterations_allowed m m' -> time_allowed q q' ->
  fit (with_limits E m q) fuel y s = (t, Done tt) -> fit (with_limits E m' q') fuel' y s = (t', Done tt) ->
  f_iter t <= f_iter t' /\ f_improving t <= f_improving t' /\
  (exists common more, f_trace t = common ++ (if rmp_is_ip E then [EvSolveIp true] else []) /\ f_trace t' = common ++ more) /\
  (~ stopped_by_limit m t -> t' = t) /\ (f_optimal t = true -> t' = t).
Proof.
  intros W D C E m m' q q' fuel fuel' y s t t' Hm Hq H H'. destruct (fit_split _ _ _ _ _ H) as (s1 & t0 & L & F & Hs & Ho). destruct (fit_split _ _ _ _ _ H') as (s1' & t0' & L' & F' & Hs' & _).
  assert (s1' = s1).
  { assert (E0 : fit (with_limits E m' q') 0 y s = fit (with_limits E m q) 0 y s) by reflexivity. rewrite E0, Hs in Hs'. congruence. }
  subst s1'. destruct (finish_more (with_limits E m q) _ _ F) as (I1 & I2 & I3 & I5 & I4). destruct (finish_more (with_limits E m' q') _ _ F') as (J1 & J2 & J3 & J5 & J4). cbn [rmp_is_ip with_limits] in *.
  assert (HE : moves (fun _ _ => True) E) by (unfold moves; auto 8).
  destruct (loop_more (fun _ _ : W => True) (fun _ => I) (fun _ _ _ _ _ => I) E m m' q q' HE Hm Hq fuel s1 t0 fuel' t0' Ho L L') as [->|(O & B & (e & G1) & G2 & G3 & _)].
  - assert (t' = t) by (change (finish (with_limits E m' q')) with (finish (with_limits E m q)) in F'; congruence). subst t'. split; [lia|]. split; [lia|]. split; [exists (f_trace t0); eauto|]. auto.
  - split; [lia|]. split; [lia|]. split.
    + exists (f_trace t0), (e ++ if rmp_is_ip E then [EvSolveIp true] else []). split; [exact I4|]. rewrite J4, G1, app_assoc. reflexivity.
    + split; [|intros Hc; congruence]. intros N. exfalso. apply N. unfold stopped_by_limit in *. rewrite I1, I5. exact B.
Qed.
Print Assumptions C90_continues.

(** For the tree classifier: the paths generated under the smaller limits are the first paths of the longer training. *)
Theorem C90_paths : forall sv A clk X y m m' q q' fuel fuel' s t t', iterations_allowed m m' -> time_allowed q q' ->
  tree_fit sv (args_limits A m q) clk X y fuel s = (t, Done tt) -> tree_fit sv (args_limits A m' q') clk X y fuel' s = (t', Done tt) ->
  exists more, tm_paths (tw_master (f_world t')) = tm_paths (tw_master (f_world t)) ++ more.
Proof.
  intros sv A clk X y m m' q q' fuel fuel' s t t' Hm Hq H H'. unfold tree_fit in H, H'. set (E := tree_env sv A clk X y).
  change (tree_env sv (args_limits A m q) clk X y) with (with_limits E m q) in H. change (tree_env sv (args_limits A m' q') clk X y) with (with_limits E m' q') in H'.
  destruct (fit_split _ _ _ _ _ H) as (s1 & t0 & L & F & Hs & Ho). destruct (fit_split _ _ _ _ _ H') as (s1' & t0' & L' & F' & Hs' & _).
  assert (s1' = s1).
  { assert (E0 : fit (with_limits E m' q') 0 (map Z.of_nat y) s = fit (with_limits E m q) 0 (map Z.of_nat y) s) by reflexivity. rewrite E0, Hs in Hs'. congruence. }
  subst s1'. pose proof (tree_finish_paths sv (args_limits A m q) clk X y t0) as P. change (tree_env sv (args_limits A m q) clk X y) with (with_limits E m q) in P. rewrite F in P. cbn [fst] in P.
  pose proof (tree_finish_paths sv (args_limits A m' q') clk X y t0') as P'. change (tree_env sv (args_limits A m' q') clk X y) with (with_limits E m' q') in P'. rewrite F' in P'. cbn [fst] in P'. rewrite P, P'.
  destruct (loop_more (fun w w' => same_data (tw_master w) (tw_master w')) (fun w => same_refl _) (fun a b c => same_trans _ _ _) E m m' q q' (tree_moves sv A clk X y) Hm Hq fuel s1 t0 fuel' t0' Ho L L') as [->|(O & B & G)]; [exists []; symmetry; apply app_nil_r|].
  apply G.
Qed.
Print Assumptions C90_paths.

(** What a training run ends in (TreeOutcomeProofs.v), with the list of paths. *)
Lemma run_paths A X y sv clk (R : trainable A X y) (Ho : honest (fit_setup A X y) sv) w0 fuel s' : dtree_init A = Ok w0 -> tree_fit sv A clk X y fuel (new_estimator w0) = (s', Done tt) ->
  exists ops cuts s sel x tree, after (fit_setup A X y) ops cuts s /\ tm_selected (tw_master (f_world s')) = Some sel /\ tm_paths (tw_master (f_world s')) = tm_paths s /\ incl sel (tm_paths s) /\
    Forall (tree_path (ta_depth A) (ta_splits A)) sel /\ forms_tree (fit_setup A X y) tree sel /\ ip_feasible (tm_lp s) x /\ (exists i, tv_ip (fs_tree sv) i (tm_lp s) = Some x) /\
    (objective_value (tm_lp s) x == qsum p_cost sel)%Q.
Proof.
  intros Ew Ef. set (u := fit_setup A X y). pose proof (tr_setup _ _ _ R) as V.
  destruct (outcome A X y sv clk R Ho (fun _ => True) w0 fuel s') as (ops & cuts & s & x & sel & tree & Ha & HP & _ & Hx & Hi & El & Es & Ht & Hp & _ & Eo); auto.
  { apply Forall_forall. auto. }
  destruct (train_ok A X y sv clk R Ho (fun _ => True) (fun _ _ _ => I) (proj2 (Forall_forall (fun _ : path => True) _) (fun _ _ => I)) (fun _ _ _ _ _ => I) (fun _ _ _ _ _ _ _ => I) w0 (Nat.max fuel (iteration_bound u)) Ew (Nat.le_max_r _ _))
    as (s2 & Es2 & _ & (ops2 & cuts2 & s3 & x2 & Ha2 & [HP2 _] & Hx2 & Hi2 & Eip) & _).
  unfold tree_fit in *. rewrite (fit_mono _ fuel) in Es2 by (try apply Nat.le_max_l; rewrite Ef; discriminate). rewrite Ef in Es2. injection Es2 as <-.
  destruct (after_inv u ops2 cuts2 s3 V Ha2) as (kinds & H & _).
  set (sel2 := filter (fun p => Qltb 0 (x2 (p_id p))) (tm_paths s3)) in *.
  assert (E2 : solve_ip (Some x2) s3 = Ok (true, with_selected sel2 s3)) by (unfold solve_ip; rewrite (ti_gen _ _ _ _ _ _ _ H); reflexivity).
  rewrite E2 in Eip. injection Eip as Em.
  assert (sel2 = sel) by (rewrite <- Em in Es; cbn [tm_selected with_selected] in Es; congruence).
  pose proof (after_formulated u _ _ _ V H) as F.
  assert (Eo2 : (objective_value (tm_lp s3) x2 == qsum p_cost sel)%Q).
  { rewrite (form_objective _ _ _ _ _ _ _ _ _ _ F), <- H0. unfold sel2. rewrite qsum_filter. apply qsum_ext. intros p Hin.
    destruct (Qltb 0 (x2 (p_id p))) eqn:E.
    - assert (Hsel : In p sel2) by (apply filter_In; auto).
      assert (E1 : (x2 (p_id p) == 1)%Q).
      { unfold su_leaves in F. eapply (sel_one _ _ _ _ _ _ _ _ _ _ F HP2); [| |exact Hsel].
        - eapply feasible_meets; [exact F|apply Hx2].
        - eapply feasible_integral; eauto. }
      rewrite E1. lra.
    - apply Qltb_false in E. assert (E0 : (x2 (p_id p) == 0)%Q); [|rewrite E0; lra].
      pose proof (feas_path _ _ _ _ _ _ _ _ _ _ F x2 (proj1 Hx2) p Hin). lra. }
  exists ops2, cuts2, s3, sel, x2, tree. split; [exact Ha2|]. split; [exact Es|]. split; [rewrite <- Em; reflexivity|]. split; [rewrite <- H0; intros p Hp1; apply filter_In in Hp1; apply Hp1|].
  split; [exact Hp|]. split; [exact Ht|]. split; [exact Hx2|]. split; [exact Hi2|exact Eo2].
Qed.
(** Any tree made of generated paths is a solution of the master problem. *)
Lemma tree_value u ops cuts s tree sel : valid_setup u -> after u ops cuts s -> incl sel (tm_paths s) -> Forall (tree_path (su_depth u) (su_splits u)) sel -> forms_tree u tree sel ->
  exists x, ip_feasible (tm_lp s) x /\ (objective_value (tm_lp s) x == qsum p_cost sel)%Q.
Proof.
  intros V Ha Hi Hs (T1 & T2 & T3). destruct (after_inv u ops cuts s V Ha) as (kinds & H & _). pose proof (after_formulated u _ _ _ V H) as F.
  assert (Hn : NoDup (map p_leaf sel)) by (eapply Permutation_NoDup; [apply Permutation_sym; exact T2|apply seq_NoDup]).
  destruct (C37_all_trees u ops cuts s tree sel V Ha Hi Hs) as (x & Hx & X1 & X0); [split; auto|].
  exists x. split; auto. rewrite (form_objective _ _ _ _ _ _ _ _ _ _ F).
  assert (Np : NoDup (tm_paths s)) by (apply (NoDup_map_inv' p_id), (fm_path_ids _ _ _ _ _ _ _ _ _ _ F)).
  assert (P : Permutation sel (filter (fun p => if in_dec path_eq_dec p sel then true else false) (tm_paths s))).
  { apply NoDup_Permutation; [apply (NoDup_map_inv' p_leaf); auto|apply NoDup_filter; auto|]. intros p. rewrite filter_In. destruct (in_dec path_eq_dec p sel); split; intros; try tauto; [|destruct H0; discriminate].
    split; auto. }
  rewrite (qsum_perm p_cost _ _ P), qsum_filter. apply qsum_ext. intros p Hp. destruct (in_dec path_eq_dec p sel) as [Hin|Hni]; [rewrite (X1 p Hin)|rewrite (X0 p Hp Hni)]; lra.
Qed.

(** Under the assumptions of C67 the estimator trained longer classifies at least as much training weight correctly as the paths selected in the
    shorter training promise (their total cost), hence as much as the shorter-trained estimator if those costs are right. *)
Theorem C90_no_worse : forall A X y sv clk w0 m m' q q' fuel fuel' t t' w, iterations_allowed m m' -> time_allowed q q' -> dtree_init A = Ok w0 -> trainable A X y -> honest (fit_setup A X y) sv ->
  near_selection (fit_setup A X y) sv -> data_weight (fit_setup A X y) w ->
  (ta_old A = true -> forall r, active (fit_setup A X y) r -> 1 <= row_weight (fit_setup A X y) r) ->
  Forall (modest (fit_setup A X y) w) (ta_paths A) ->
  tree_fit sv (args_limits A m q) clk X y fuel (new_estimator w0) = (t, Done tt) -> tree_fit sv (args_limits A m' q') clk X y fuel' (new_estimator w0) = (t', Done tt) ->
  exists sel code v code' v', tm_selected (tw_master (f_world t)) = Some sel /\ predicts A t code /\ correct_weight (fit_setup A X y) w code v /\
    predicts A t' code' /\ correct_weight (fit_setup A X y) w code' v' /\
    (forall n, (qsum p_cost sel == inject_Z n)%Q -> (qsum p_cost sel <= v')%Q) /\
    (Forall (counts_rows (fit_setup A X y) w) sel -> (v <= v')%Q).
Proof.
  intros A X y sv clk w0 m m' q q' fuel fuel' t t' w Hm Hq Ew R Ho (g & Hg & Hop) W H1 Hc Ef Ef'.
  assert (Rm : forall k z, trainable (args_limits A k z) X y) by (intros k z; destruct R; constructor; auto).
  assert (Ewm : forall k z, dtree_init (args_limits A k z) = Ok w0) by (intros k z; exact Ew).
  destruct (C90_paths sv A clk X y m m' q q' fuel fuel' _ _ _ Hm Hq Ef Ef') as (more & Hmore).
  destruct (run_paths _ X y sv clk (Rm m q) Ho w0 fuel t (Ewm m q) Ef) as (ops1 & cuts1 & s1 & sel & x1 & tree & Ha1 & Es1 & Ep1 & Hi1 & Hp1 & Ht1 & _).
  destruct (run_modest _ X y sv clk (Rm m q) Ho w w0 fuel t W H1 Hc (Ewm m q) Ef) as (_ & _ & _ & _ & sel1 & tree1 & _ & _ & _ & _ & Es1' & Ht1' & Hpr & _ & v & Hv & _).
  rewrite Es1 in Es1'. injection Es1' as <-.
  destruct (run_paths _ X y sv clk (Rm m' q') Ho w0 fuel' t' (Ewm m' q') Ef') as (ops2 & cuts2 & s2 & sel2 & x2 & tree2 & Ha2 & Es2 & Ep2 & _ & _ & _ & Hx2 & (i & Hi2) & Eo2).
  destruct (run_modest _ X y sv clk (Rm m' q') Ho w w0 fuel' t' W H1 Hc (Ewm m' q') Ef') as (_ & _ & _ & _ & sel2' & tree2' & _ & _ & _ & _ & Es2' & Ht2 & Hpr2 & _ & v' & Hv' & Hle').
  rewrite Es2 in Es2'. injection Es2' as <-.
  exists sel. eexists _, v, _, v'. split; [exact Es1|]. split; [exact Hpr|]. split; [exact Hv|]. split; [exact Hpr2|]. split; [exact Hv'|].
  change (fit_setup (args_limits A m' q') X y) with (fit_setup A X y) in *. change (fit_setup (args_limits A m q) X y) with (fit_setup A X y) in *.
  destruct (tree_value (fit_setup A X y) ops2 cuts2 s2 tree sel (tr_setup _ _ _ R) Ha2) as (x0 & Hx0 & Ex0); [|exact Hp1|exact Ht1|].
  { intros p Hp. rewrite <- Ep2, Hmore. apply in_or_app. left. rewrite Ep1. apply Hi1, Hp. }
  pose proof (proj2 (Hop i ops2 cuts2 s2 x2 Ha2 Hi2) x0 Hx0) as Hbest.
  destruct (after_inv _ ops2 cuts2 s2 (tr_setup _ _ _ R) Ha2) as (kinds & H & _). pose proof (after_formulated _ _ _ _ (tr_setup _ _ _ R) H) as F.
  rewrite (fm_max _ _ _ _ _ _ _ _ _ _ F) in Hbest. destruct (correct_whole _ _ _ _ W Hv') as [n' E2].
  assert (G : forall n, (qsum p_cost sel == inject_Z n)%Q -> (qsum p_cost sel <= v')%Q).
  { intros n En. rewrite En, E2. rewrite <- Zle_Qle. apply whole_le. lra. }
  split; [exact G|]. intros Hcs. destruct Ht1' as (_ & T2 & T3).
  pose proof (tree_weight (fit_setup A X y) w tree1 sel T2 Hp1 T3 Hcs) as Hw.
  assert (E0 : (v == qsum p_cost sel)%Q) by (apply correct_sum in Hv; apply correct_sum in Hw; rewrite Hv, Hw; reflexivity).
  destruct (correct_whole _ _ _ _ W Hv) as [n E1]. rewrite E0. apply (G n). rewrite <- E0. exact E1.
Qed.
Print Assumptions C90_no_worse.

(** ** A concrete case *)
(** LP answers that change from solve to solve: [pi i] is the dual solution of solve [i] (where it can be used). *)
Definition stepping (pi : nat -> nat -> Q) : fsolvers :=
  let e := enumerating_best (fun _ => 0%Q) (fun _ => 0%Q) in
  mkFsv (mkTsv (fun i => lp_by (fun _ => 0%Q) (pi i)) (tv_cuts (fs_tree e)) (tv_ip (fs_tree e))) (fs_rand e) (fs_order e) (fs_streams e) (fs_sat e) (fs_mip e).
Lemma stepping_honest u pi : valid_setup u -> honest u (stepping pi).
Proof.
  intros V. destruct (enumerating_best_honest u (fun _ => 0%Q) (fun _ => 0%Q) V) as [H1 H2 H3 H4 H5 H6]. constructor; auto.
  intros i. exact (ho_lp _ _ (enumerating_best_honest u (fun _ => 0%Q) (pi i) V) i).
Qed.
Lemma stepping_optimal u pi : valid_setup u -> optimal_selection u (stepping pi).
Proof. intros V. exact (enumerating_best_optimal u (fun _ => 0%Q) (fun _ => 0%Q) V). Qed.
Definition step_duals (i j : nat) : Q := if i =? 0 then 0%Q else if i =? 1 then (if j =? 0 then 1%Q else 0%Q) else if j <? 2 then 1%Q else 0%Q.
(** Every call of time() is one second later than the one before. *)
Definition ticks (k : nat) : Q := inject_Z (Z.of_nat k).
Definition more_run (old : bool) (m : Z) (q : Q) : option (fstate tworld tduals path) :=
  match dtree_init (ex1c_args old) with
  | Ok w => match tree_fit (stepping step_duals) (args_limits (ex1c_args old) m q) ticks ex1_X ex1_y 9 (new_estimator w) with (s, Done tt) => Some s | _ => None end
  | Err _ => None end.
Lemma more_run_fit old m q s : more_run old m q = Some s -> exists w, dtree_init (ex1c_args old) = Ok w /\
  tree_fit (stepping step_duals) (args_limits (ex1c_args old) m q) ticks ex1_X ex1_y 9 (new_estimator w) = (s, Done tt).
Proof.
  unfold more_run. destruct (dtree_init (ex1c_args old)) as [w|]; [|discriminate]. intros H. exists w. split; auto.
  destruct (tree_fit _ _ _ _ _ _ _) as [s1 [[]| | ]]; congruence.
Qed.
(** Stopped after one iteration, or after 25 seconds (in the second iteration), the tree classifies one of the three rows correctly (the labels are 0, 1, 0);
    without limits it classifies two. *)
Definition short_limit (by_time : bool) : Z * Q := if by_time then ((-1)%Z, 25%Q) else (1%Z, (-1)%Q).
Example C90_case : forall old by_time, exists w s s', iterations_allowed (fst (short_limit by_time)) (-1) /\ time_allowed (snd (short_limit by_time)) (-1) /\
  dtree_init (ex1c_args old) = Ok w /\ trainable (ex1c_args old) ex1_X ex1_y /\
  honest (fit_setup (ex1c_args old) ex1_X ex1_y) (stepping step_duals) /\ near_selection (fit_setup (ex1c_args old) ex1_X ex1_y) (stepping step_duals) /\
  data_weight (fit_setup (ex1c_args old) ex1_X ex1_y) (fun _ => 1%Q) /\
  (forall r, active (fit_setup (ex1c_args old) ex1_X ex1_y) r -> 1 <= row_weight (fit_setup (ex1c_args old) ex1_X ex1_y) r) /\
  Forall (modest (fit_setup (ex1c_args old) ex1_X ex1_y) (fun _ => 1%Q)) (ta_paths (ex1c_args old)) /\
  tree_fit (stepping step_duals) (args_limits (ex1c_args old) (fst (short_limit by_time)) (snd (short_limit by_time))) ticks ex1_X ex1_y 9 (new_estimator w) = (s, Done tt) /\
  tree_fit (stepping step_duals) (args_limits (ex1c_args old) (-1) (-1)) ticks ex1_X ex1_y 9 (new_estimator w) = (s', Done tt) /\
  f_iter s = (if by_time then 2 else 1) /\ f_tlr s = by_time /\ f_optimal s = false /\ tree_predict (ex1c_args old) [0; 1; 2] s ex1_X = Ok [0; 2; 2] /\
  f_iter s' = 3 /\ f_optimal s' = true /\ tree_predict (ex1c_args old) [0; 1; 2] s' ex1_X = Ok (if old then [0; 0; 0] else [0; 1; 1]).
Proof.
  intros old bt.
  assert (H : match more_run old (fst (short_limit bt)) (snd (short_limit bt)) with
    | Some s => f_iter s = (if bt then 2 else 1) /\ f_tlr s = bt /\ f_optimal s = false /\ tree_predict (ex1c_args old) [0; 1; 2] s ex1_X = Ok [0; 2; 2] | None => False end)
    by (destruct old, bt; vm_compute; repeat (split; [reflexivity|]); reflexivity).
  assert (H' : match more_run old (-1) (-1) with Some s => f_iter s = 3 /\ f_optimal s = true /\ tree_predict (ex1c_args old) [0; 1; 2] s ex1_X = Ok (if old then [0; 0; 0] else [0; 1; 1]) | None => False end)
    by (destruct old; vm_compute; repeat (split; [reflexivity|]); reflexivity).
  destruct (more_run old (fst (short_limit bt)) (snd (short_limit bt))) as [s|] eqn:E; [|destruct H]. destruct (more_run old (-1) (-1)) as [s'|] eqn:E'; [|destruct H'].
  destruct H as (H1 & H0 & H2 & H3). destruct H' as (H4 & H5 & H6).
  destruct (more_run_fit old _ _ s E) as (w & Ew & Ef). destruct (more_run_fit old _ _ s' E') as (w' & Ew' & Ef'). rewrite Ew in Ew'. injection Ew' as <-.
  pose proof (tr_setup _ _ _ (ex1c_trainable old)) as V. exists w, s, s'. split; [left; lia|]. split; [left; lra|].
  split; [exact Ew|]. split; [apply ex1c_trainable|]. split; [apply stepping_honest; exact V|]. split; [apply optimal_is_near, stepping_optimal; exact V|].
  split; [apply ones_weight; reflexivity|]. split; [intros r _; cbn; lia|].
  split; [eapply Forall_impl; [intros p Hp; apply counts_modest; exact Hp|apply countsb_ok; vm_compute; reflexivity]|].
  split; [exact Ef|]. split; [exact Ef'|]. split; [exact H1|]. split; [exact H0|]. split; [exact H2|]. split; [exact H3|]. split; [exact H4|]. split; [exact H5|exact H6].
Qed.

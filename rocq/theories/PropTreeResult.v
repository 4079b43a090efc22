(** Properties C48 and C67: what a trained decision tree is worth. *)
From Verif Require Import Base Lp LpProofs SpecDual DualProofs LpCheck LpBrute FitModel SpecFit FitMainProofs FitHoareProofs SolveModel SolveObs TreeModel TreePricingModel TreeFitModel SpecTree
  SpecTreeRun SpecTreeLp SpecTreePrice SpecTreeMip SpecTreeFit SpecTreeTrain SpecTreeResult TreeCheck TreeGeoProofs TreePathProofs TreeLpBuild TreeBuildProofs TreeInvProofs TreeMasterProofs TreeFormProofs
  TreeSolProofs TreeLpProofs TreeHonestProofs TreeResultProofs TreeOutcomeProofs PropTreeLp PropTreePrice PropTreeCert PropTreeFit PropTreeTrain.
Open Scope nat_scope.

(** C48, positive part: the estimator predicts a class for every sample that ends in the same leaf as some training row that
    counts. *)
Theorem C48_training : forall A X y sv clk w0 fuel s', dtree_init A = Ok w0 -> trainable A X y -> honest (fit_setup A X y) sv ->
  Forall (fun p => class_number (length (ta_targets A)) (p_target p)) (ta_paths A) ->
  tree_fit sv A clk X y fuel (new_estimator w0) = (s', Done tt) ->
  exists sel tree, tm_selected (tw_master (f_world s')) = Some sel /\ forms_tree (fit_setup A X y) tree sel /\
    forall L (classes : list L) Xs, length classes = length (ta_targets A) ->
      Forall (fun xr => fits (ta_splits A) xr /\ exists r xt, counts (fit_setup A X y) r /\ nth_error X r = Some xt /\
                tree_leaf (ta_depth A) (ta_splits A) tree xr = tree_leaf (ta_depth A) (ta_splits A) tree xt) Xs ->
      exists labels, tree_predict A classes s' Xs = Ok labels /\ length labels = length Xs /\ Forall (fun l => In l classes) labels.
Proof.
  intros A X y sv clk w0 fuel s' Ew R Ho Hl Ef. destruct (run_labelled A X y sv clk R Ho w0 fuel s' Hl Ew Ef) as (sel & tree & Es & Ht & Hp & HL & Hpr).
  exists sel, tree. split; auto. split; auto. intros L classes Xs Hc HX. rewrite Hpr by (eapply Forall_impl; [|exact HX]; intros ? [? _]; auto).
  destruct Ht as (T1 & T2 & T3).
  assert (Hn : NoDup (map p_leaf sel)) by (eapply Permutation_NoDup; [apply Permutation_sym; exact T2|apply seq_NoDup]).
  induction HX as [|xr Xs (Hf & r & xt & Hr & Ex & El) _ IH]; [exists []; auto|]. destruct IH as (ls & E & Els & Hin). cbn [map_res].
  destruct (tree_row_one (ta_depth A) (ta_splits A) tree (goes_left (ta_splits A) xt) sel T2 Hp T3) as (p & Hps & Epl & Hu).
  fold (tree_leaf (ta_depth A) (ta_splits A) tree xt) in Epl.
  rewrite El, <- Epl, (leaf_target_in sel p Hn Hps).
  assert (Hcl : class_number (length (ta_targets A)) (p_target p)).
  { rewrite Forall_forall in HL. destruct (HL p Hps) as [H|H]; auto. exfalso. apply (H r Hr). cbn [covers su_X su_splits fit_setup]. exists xt, (create_leaf (p_leaf p) (ta_depth A)).
    split; auto. rewrite Forall_forall in Hp. split; [apply complete_leaves_nth; apply (Hp p Hps)|]. apply Hu; auto. }
  assert (Hd : exists l, decode classes (p_target p) = Ok l /\ In l classes).
  { unfold class_number in Hcl. unfold decode. destruct (Z.ltb_spec (p_target p) 0); [lia|]. destruct (nth_error_some_lt classes (Z.to_nat (p_target p))) as [l El2]; [lia|].
    rewrite El2. exists l. split; auto. eapply nth_error_In; eauto. }
  destruct Hd as (l & Ed & Hl2). rewrite Ed. cbn [bind]. rewrite E. cbn [bind]. eexists. split; [reflexivity|]. cbn [length]. split; [congruence|]. constructor; auto.
Qed.
Print Assumptions C48_training.

(** C67: if the costs of the initial paths are right and the integer solver is optimal up to a gap below 1, the estimator
    classifies at least as much training weight correctly as every decision tree made of initial paths. *)
Theorem C67_no_worse_than_initial : forall A X y sv clk w0 fuel s' w, dtree_init A = Ok w0 -> trainable A X y -> honest (fit_setup A X y) sv ->
  near_selection (fit_setup A X y) sv -> data_weight (fit_setup A X y) w ->
  (ta_old A = true -> forall r, active (fit_setup A X y) r -> 1 <= row_weight (fit_setup A X y) r) ->
  Forall (counts_rows (fit_setup A X y) w) (ta_paths A) ->
  tree_fit sv A clk X y fuel (new_estimator w0) = (s', Done tt) ->
  exists code v, predicts A s' code /\ correct_weight (fit_setup A X y) w code v /\
    forall tree0 sel0 v0, incl sel0 (ta_paths A) -> forms_tree (fit_setup A X y) tree0 sel0 ->
      correct_weight (fit_setup A X y) w (fun xr => leaf_target sel0 (tree_leaf (ta_depth A) (ta_splits A) tree0 xr)) v0 -> (v0 <= v)%Q.
Proof.
  intros A X y sv clk w0 fuel s' w Ew R Ho Hop W H1 Hc Ef.
  destruct (run_modest A X y sv clk R Ho w w0 fuel s' W H1) as (ops & cuts & s & x & sel & tree & Ha & Hx & (i & Hi) & _ & _ & _ & Hpr & Eo & v & Hv & Hle); auto.
  { eapply Forall_impl; [|exact Hc]. intros p. apply counts_modest. }
  eexists _, v. split; [exact Hpr|]. split; [exact Hv|]. intros tree0 sel0 v0 Hin Ht0 Hv0. pose proof Ht0 as (_ & T2 & T3).
  assert (Hp0 : Forall (tree_path (ta_depth A) (ta_splits A)) sel0).
  { apply Forall_forall. intros p Hp. pose proof (tr_paths _ _ _ R) as P. unfold proper_paths in P. rewrite Forall_forall in P. apply P, Hin, Hp. }
  assert (Hc0 : Forall (counts_rows (fit_setup A X y) w) sel0) by (rewrite Forall_forall in *; auto).
  pose proof (tree_weight (fit_setup A X y) w tree0 sel0 T2 Hp0 T3 Hc0) as Hw0.
  assert (E0 : (v0 == qsum p_cost sel0)%Q) by (apply correct_sum in Hv0; apply correct_sum in Hw0; rewrite Hv0, Hw0; reflexivity).
  destruct (initial_value A X y R ops cuts s tree0 sel0 Ha Hin Ht0) as (x0 & Hx0 & Ex0).
  destruct Hop as (g & Hg & Hop). pose proof (proj2 (Hop i ops cuts s x Ha Hi) x0 Hx0) as Hbest.
  destruct (after_inv _ ops cuts s (tr_setup _ _ _ R) Ha) as (kinds & H & _). pose proof (after_formulated _ _ _ _ (tr_setup _ _ _ R) H) as F.
  rewrite (fm_max _ _ _ _ _ _ _ _ _ _ F) in Hbest.
  destruct (correct_whole _ _ _ _ W Hv0) as [n0 E1]. destruct (correct_whole _ _ _ _ W Hv) as [n1 E2]. rewrite E1, E2 in *.
  rewrite <- Zle_Qle. apply whole_le. lra.
Qed.
Print Assumptions C67_no_worse_than_initial.

(** If in addition fit stopped because no column was found, no tree over the candidate splits is better than the estimator by
    more than the difference between the dual objective value of the duals reported last and the selected paths' costs (up to
    the tolerances and the gap of the pricing solvers). *)
Theorem C67_gap_any_duals : forall A X y sv clk w0 fuel s' w x pi tau g sel, dtree_init A = Ok w0 -> trainable A X y -> honest (fit_setup A X y) sv -> gap_pricing sv g ->
  training_weight A (fit_setup A X y) w -> data_weight (fit_setup A X y) w -> (ta_old A = true -> forall r, active (fit_setup A X y) r -> 1 <= row_weight (fit_setup A X y) r) ->
  Forall (counts_rows (fit_setup A X y) w) (ta_paths A) ->
  tree_fit sv A clk X y fuel (new_estimator w0) = (s', Done tt) -> f_optimal s' = true ->
  tm_answer (tw_master (f_world s')) = Some (x, pi) -> near_dual (tm_lp (tw_master (f_world s'))) pi tau -> tm_selected (tw_master (f_world s')) = Some sel ->
  exists code v, predicts A s' code /\ correct_weight (fit_setup A X y) w code v /\
    forall tree label v', tree_over (ta_depth A) (ta_nodes A) tree ->
      correct_weight (fit_setup A X y) w (fun xr => label (tree_leaf (ta_depth A) (ta_splits A) tree xr)) v' ->
      (v' <= v + (dual_value (tm_lp (tw_master (f_world s'))) pi - qsum p_cost sel) + inject_Z (Z.of_nat (2 ^ ta_depth A)) * (slack A X (tw_master (f_world s')) + leaf_gap A g)
        + inject_Z (Z.of_nat (2 ^ ta_depth A - 1)) * tau)%Q.
Proof.
  intros A X y sv clk w0 fuel s' w x pi tau g sel Ew R Ho Hx TW W H1 Hc Ef Hopt Ea K Es.
  destruct (run_modest A X y sv clk R Ho w w0 fuel s' W H1) as (ops & cuts & s & x1 & sel1 & tree & _ & _ & _ & _ & Es1 & _ & Hpr & _ & v & Hv & Hle); auto.
  { eapply Forall_impl; [|exact Hc]. intros p. apply counts_modest. }
  rewrite Es in Es1. injection Es1 as <-. eexists _, v. split; [exact Hpr|]. split; [exact Hv|]. intros tree' label v' Ht' Hv'.
  pose proof (C66_any_duals A X y sv clk w0 fuel s' x pi tau g w Ew R Ho Hx Ef Hopt Ea K TW tree' label v' Ht' Hv'). lra.
Qed.
Print Assumptions C67_gap_any_duals.
(** If the last LP and the subproblems were solved to optimality the difference is the one to the LP objective. *)
Theorem C67_gap : forall A X y sv clk w0 fuel s' w x pi sel, dtree_init A = Ok w0 -> trainable A X y -> honest (fit_setup A X y) sv -> exact_pricing sv ->
  training_weight A (fit_setup A X y) w -> data_weight (fit_setup A X y) w -> (ta_old A = true -> forall r, active (fit_setup A X y) r -> 1 <= row_weight (fit_setup A X y) r) ->
  Forall (counts_rows (fit_setup A X y) w) (ta_paths A) ->
  tree_fit sv A clk X y fuel (new_estimator w0) = (s', Done tt) -> f_optimal s' = true ->
  tm_answer (tw_master (f_world s')) = Some (x, pi) -> lp_kkt (tm_lp (tw_master (f_world s'))) x pi -> tm_selected (tw_master (f_world s')) = Some sel ->
  exists code v, predicts A s' code /\ correct_weight (fit_setup A X y) w code v /\
    forall tree label v', tree_over (ta_depth A) (ta_nodes A) tree ->
      correct_weight (fit_setup A X y) w (fun xr => label (tree_leaf (ta_depth A) (ta_splits A) tree xr)) v' ->
      (v' <= v + (objective_value (tm_lp (tw_master (f_world s'))) x - qsum p_cost sel) + inject_Z (Z.of_nat (2 ^ ta_depth A)) * slack A X (tw_master (f_world s')))%Q.
Proof.
  intros A X y sv clk w0 fuel s' w x pi sel Ew R Ho Hx TW W H1 Hc Ef Hopt Ea K Es.
  destruct (C67_gap_any_duals A X y sv clk w0 fuel s' w x pi 0%Q 0%Q sel Ew R Ho (exact_gap _ Hx) TW W H1 Hc Ef Hopt Ea (kkt_near _ _ _ K) Es) as (code & v & Hp & Hv & H).
  exists code, v. split; [exact Hp|]. split; [exact Hv|]. intros tree label v' Ht Hv'. specialize (H tree label v' Ht Hv'). rewrite (kkt_dual_value _ _ _ K).
  assert (Eg : (leaf_gap A 0 == 0)%Q) by (unfold leaf_gap; destruct (ta_old A); reflexivity). rewrite Eg in H. lra.
Qed.
Print Assumptions C67_gap.

(** * C48 is false in general *)

(** A solver that returns the listed answers where they are optimal. *)
Definition listed (answers : list lp_answer) (m : lp) : option lp_answer := find (fun a => kktb m (fst a) (snd a)) answers.
(** The best 0/1 solution, by enumeration. *)
Definition best (m : lp) : option (nat -> Q) := option_map bit_point (fold_left (better m) (all_bits (num_vars m)) None).
Lemma best_optimal u ops cuts s x : valid_setup u -> after u ops cuts s -> best (tm_lp s) = Some x -> ip_optimal (tm_lp s) x.
Proof.
  intros V Ha E. destruct (after_inv u ops cuts s V Ha) as (kinds & H & _ & _ & _ & _ & Fp & _). pose proof (after_formulated u _ _ _ V H) as F.
  assert (Hpl : forall p, In p (tm_paths s) -> p_leaf p < 2 ^ su_depth u).
  { intros q Hq. destruct (Forall2_In_r _ _ _ _ Fp Hq) as (p & Hp & Eq). rewrite Eq. cbn. apply in_app_or in Hp. destruct Hp as [Hp|Hp].
    - pose proof V as (_ & Hpl & _). rewrite Forall_forall in Hpl. apply Hpl. auto.
    - destruct Ha as (L & _). rewrite Forall_forall in L. unfold columns in Hp. apply in_flat_map in Hp. destruct Hp as (o & Hop & Hp). specialize (L o Hop).
      destruct o; cbn in Hp; try contradiction. destruct Hp as [<-|[]]. apply L. }
  unfold best in E. destruct (fold_better (tm_lp s) (all_bits (num_vars (tm_lp s))) None) as [F1 F2]; [discriminate|].
  destruct (fold_left _ _ _) as [b|]; [|discriminate]. injection E as <-. split.
  - split; [apply F1; auto|]. intros j v _ _. unfold bit_point. destruct (nth j b false); [exists 1%Z|exists 0%Z]; reflexivity.
  - intros x' Hx'. unfold as_good. rewrite (fm_max _ _ _ _ _ _ _ _ _ _ F).
    destruct (bits_of (tm_lp s) x') as (bs & Hin & Hs); [eapply ip_zero_one; eauto|].
    destruct (F2 bs (or_introl Hin)) as (b' & Eb & Hle); [eapply feasible_same; [exact Hs|apply Hx']|]. injection Eb as <-.
    rewrite (objective_same (tm_lp s) x' (bit_point bs)) by auto. exact Hle.
Qed.
Definition listing (answers : list lp_answer) (draw : nat) : fsolvers :=
  mkFsv (mkTsv (fun _ => listed answers) (fun _ _ _ => []) (fun _ => best)) (fun _ _ => draw) (fun _ l => l) (fun _ => mkStreams (fun _ => 0) (fun _ => 0) (fun _ => 0))
    (fun _ => sat_by) (fun _ => brute).
Lemma listing_right u answers draw : valid_setup u -> right_answers u (listing answers draw).
Proof.
  intros V. constructor.
  - intros i m x pi E. cbn [tv_lp fs_tree listing] in E. unfold listed in E. apply find_some in E. apply kktb_ok. apply E.
  - intros i ops cuts s x Ha E. eapply best_optimal; eauto.
  - intros n cm o. constructor.
  - exact (enumerating_exact (fun _ => 0%Q) (fun _ => 0%Q)).
  - intros k st m. cbn [fs_sat listing]. unfold sat_by. cbn [snd]. destruct (brute m) as [x|] eqn:E; [|constructor]. constructor; [apply (brute_optimal _ _ E)|constructor].
  - intros k m x E. apply (brute_optimal _ _ E).
  - intros k l. apply Permutation_refl.
Qed.

(** Rows 0, 1, 2; the second split sends all of them to the left.  The heuristic proposes the path to the right of it. *)
Definition w_splits : list split := [mkSplit 0 0 (1 # 2) false [0] [1; 2] [] []; mkSplit 1 0 (5 # 2) false [0; 1; 2] [] [] []].
Definition w_args : targs :=
  mkTargs [mkPath 0 [0] [0] 0 0 1 false; mkPath 1 [0] [0] 1 0 1 false; mkPath 0 [0] [1] 2 0 0 false] (complete_leaves 1) ex1_nodes w_splits 1 [0; 1]%Z
    (-1) (-1) 3 false true None false.
Definition w_answers : list lp_answer :=
  [(fun j => nth j [1; 1; 0; 1; 0] 0, fun i => nth i [0; 1; 0; 2; 0; -2] 0); (fun j => nth j [0; 0; 1; 0; 1; 1] 0, fun i => nth i [1; 1; 0; 1; 0; -1] 0)]%Q.
Definition w_run : option (fstate tworld tduals path) :=
  match dtree_init w_args with
  | Ok w => match tree_fit (listing w_answers 1) w_args (fun _ => 0%Q) ex1_X ex1_y 3 (new_estimator w) with (s, Done tt) => Some s | _ => None end
  | Err _ => None end.
Lemma w_trainable : trainable w_args ex1_X ex1_y.
Proof.
  constructor.
  - reflexivity.
  - apply valid_setup_ok; [vm_compute|]; reflexivity.
  - apply data_okb_ok. vm_compute. reflexivity.
  - intros rows r dr E. discriminate.
  - apply Permutation_refl.
  - repeat constructor.
  - exists 0, 1. cbn. intuition discriminate.
  - apply proper_pathb_ok. vm_compute. reflexivity.
  - exists (fun _ => 0), [mkPath 0 [0] [0] 0 0 1 false; mkPath 1 [0] [0] 1 0 1 false]. split; [|split; [|split]].
    + intros p [<-|[<-|[]]]; cbn; auto.
    + intros n nd Hn E. cbn in Hn. assert (n = 0) by lia. subst n. injection E as <-. left. reflexivity.
    + apply Permutation_refl.
    + repeat constructor; intros n k [H|[]]; injection H as <- <-; reflexivity.
Qed.
Lemma w_run_ok : match w_run with
  | Some s => f_optimal s = true /\ tree_predict w_args [0; 1] s [[0]; [1]; [2]]%Q = Ok [0; 0; 0] /\ tree_predict w_args [0; 1] s [[3]]%Q = Err ValueError
  | None => False end.
Proof. vm_compute. repeat split. Qed.
Lemma w_run_fit s : w_run = Some s -> exists w, dtree_init w_args = Ok w /\
  tree_fit (listing w_answers 1) w_args (fun _ => 0%Q) ex1_X ex1_y 3 (new_estimator w) = (s, Done tt).
Proof.
  unfold w_run. destruct (dtree_init w_args) as [w|]; [|discriminate]. intros H. exists w. split; auto.
  destruct (tree_fit _ _ _ _ _ _ _) as [s1 [[]| | ]]; congruence.
Qed.
(** Although every solver answers correctly, all initial paths have a class and fit ran to the end, predict raises for a
    sample. *)
Theorem C48_refuted : exists (A : targs) (X : list sample) (y : list nat) (sv : fsolvers) (clk : nat -> Q) (w0 : tworld) (fuel : nat) (s' : fstate tworld tduals path) (xr : sample), dtree_init A = Ok w0 /\ trainable A X y /\
  Forall (fun p => class_number (length (ta_targets A)) (p_target p)) (ta_paths A) /\ right_answers (fit_setup A X y) sv /\
  tree_fit sv A clk X y fuel (new_estimator w0) = (s', Done tt) /\ f_optimal s' = true /\ fits (ta_splits A) xr /\
  tree_predict A [0; 1] s' [xr] = Err ValueError.
Proof.
  pose proof w_run_ok as H. destruct w_run as [s|] eqn:E; [|destruct H]. destruct H as (H1 & _ & H2). destruct (w_run_fit s E) as (w & Ew & Ef).
  exists w_args, ex1_X, ex1_y, (listing w_answers 1), (fun _ => 0%Q), w, 3, s, [3%Q].
  split; [exact Ew|]. split; [apply w_trainable|]. split; [repeat (apply Forall_cons; [unfold class_number; cbn; lia|]); apply Forall_nil|].
  split; [apply listing_right; apply (tr_setup _ _ _ w_trainable)|]. split; [exact Ef|].
  split; [exact H1|]. split; [|exact H2]. intros sp [<-|[<-|[]]]; cbn; lia.
Qed.
Print Assumptions C48_refuted.

(** * Cases *)

(** Enumerating solvers with an optimal integer solver. *)
Definition enumerating_best (x pi : nat -> Q) : fsolvers :=
  let e := enumerating x pi in
  mkFsv (mkTsv (tv_lp (fs_tree e)) (tv_cuts (fs_tree e)) (fun _ => best)) (fs_rand e) (fs_order e) (fs_streams e) (fs_sat e) (fs_mip e).
Lemma enumerating_best_honest u x pi : valid_setup u -> honest u (enumerating_best x pi).
Proof.
  intros V. destruct (enumerating_honest u x pi V) as [H1 H2 H3 H4 H5 H6]. constructor; auto.
  intros i ops cuts s Ha Hx. destruct (H3 i ops cuts s Ha Hx) as (x0 & _ & Hx0). cbn [tv_ip fs_tree enumerating_best].
  assert (Hz : forall j, j < num_vars (tm_lp s) -> (x0 j == 0)%Q \/ (x0 j == 1)%Q).
  { destruct (after_inv u ops cuts s V Ha) as (kinds & H & _ & _ & _ & _ & Fp & _). pose proof (after_formulated u _ _ _ V H) as F. eapply ip_zero_one; eauto.
    intros q Hq. destruct (Forall2_In_r _ _ _ _ Fp Hq) as (p & Hp & Eq). rewrite Eq. cbn. apply in_app_or in Hp. destruct Hp as [Hp|Hp].
    - pose proof V as (_ & Hpl & _). rewrite Forall_forall in Hpl. apply Hpl. auto.
    - destruct Ha as (L & _). rewrite Forall_forall in L. unfold columns in Hp. apply in_flat_map in Hp. destruct Hp as (o & Hop & Hp). specialize (L o Hop).
      destruct o; cbn in Hp; try contradiction. destruct Hp as [<-|[]]. apply L. }
  destruct (bits_of (tm_lp s) x0 Hz) as (bs & Hin & Hs). destruct (fold_better (tm_lp s) (all_bits (num_vars (tm_lp s))) None) as [_ F2]; [discriminate|].
  destruct (F2 bs (or_introl Hin)) as (b & Eb & _); [eapply feasible_same; [exact Hs|apply Hx0]|].
  exists (bit_point b). assert (E : best (tm_lp s) = Some (bit_point b)) by (unfold best; rewrite Eb; reflexivity). split; [exact E|].
  eapply best_optimal; eauto.
Qed.
Lemma enumerating_best_optimal u x pi : valid_setup u -> optimal_selection u (enumerating_best x pi).
Proof. intros V i ops cuts s x0 Ha E. eapply best_optimal; eauto. Qed.
Lemma optimal_is_near u sv : optimal_selection u sv -> near_selection u sv.
Proof. intros H. exists 0%Q. split; [reflexivity|]. intros. eapply optimal_near, H; eauto. Qed.

(** Three classes; the initial tree classifies no row correctly, the trained one some. *)
Definition ex1c_args (old : bool) : targs :=
  mkTargs [mkPath 0 [0] [0] 0 0 1 false; mkPath 1 [0] [1] 0 0 1 false; mkPath 1 [0] [0] 0 0 2 false] (complete_leaves 1) ex1_nodes ex1_splits 1 [0; 1; 2]%Z
    (-1) (-1) 3 false true None old.
Lemma ex1c_trainable old : trainable (ex1c_args old) ex1_X ex1_y.
Proof.
  constructor.
  - reflexivity.
  - apply valid_setup_ok; [vm_compute|]; reflexivity.
  - apply data_okb_ok. vm_compute. reflexivity.
  - intros rows r dr E. discriminate.
  - apply Permutation_refl.
  - repeat constructor.
  - exists 0, 1. cbn. intuition discriminate.
  - apply proper_pathb_ok. vm_compute. reflexivity.
  - exists (fun _ => 0), [mkPath 0 [0] [0] 0 0 1 false; mkPath 1 [0] [0] 0 0 2 false]. split; [|split; [|split]].
    + intros p [<-|[<-|[]]]; cbn; auto.
    + intros n nd Hn E. cbn in Hn. assert (n = 0) by lia. subst n. injection E as <-. left. reflexivity.
    + apply Permutation_refl.
    + repeat constructor; intros n k [H|[]]; injection H as <- <-; reflexivity.
Qed.
Definition ex1c_run (old : bool) : option (fstate tworld tduals path) :=
  match dtree_init (ex1c_args old) with
  | Ok w => match tree_fit (enumerating_best (fun _ => 0%Q) (fun _ => 0%Q)) (ex1c_args old) (fun _ => 0%Q) ex1_X ex1_y 9 (new_estimator w) with (s, Done tt) => Some s | _ => None end
  | Err _ => None end.
Lemma ex1c_run_ok old : match ex1c_run old with
  | Some s => f_iter s = 2 /\ tree_predict (ex1c_args old) [0; 1; 2] s ex1_X = Ok [0; 2; 2]
  | None => False end.
Proof. destruct old; vm_compute; repeat split. Qed.
Lemma ex1c_run_fit old s : ex1c_run old = Some s -> exists w, dtree_init (ex1c_args old) = Ok w /\
  tree_fit (enumerating_best (fun _ => 0%Q) (fun _ => 0%Q)) (ex1c_args old) (fun _ => 0%Q) ex1_X ex1_y 9 (new_estimator w) = (s, Done tt).
Proof.
  unfold ex1c_run. destruct (dtree_init (ex1c_args old)) as [w|]; [|discriminate]. intros H. exists w. split; auto.
  destruct (tree_fit _ _ _ _ _ _ _) as [s1 [[]| | ]]; congruence.
Qed.
Lemma ones_weight A : ta_rows A = None -> data_weight (fit_setup A ex1_X ex1_y) (fun _ => 1%Q).
Proof. intros E r. unfold active, row_weight. cbn [su_rows fit_setup]. rewrite E. split; [reflexivity|tauto]. Qed.
Example C67_case : forall old, exists w s, dtree_init (ex1c_args old) = Ok w /\ trainable (ex1c_args old) ex1_X ex1_y /\
  honest (fit_setup (ex1c_args old) ex1_X ex1_y) (enumerating_best (fun _ => 0%Q) (fun _ => 0%Q)) /\
  near_selection (fit_setup (ex1c_args old) ex1_X ex1_y) (enumerating_best (fun _ => 0%Q) (fun _ => 0%Q)) /\
  data_weight (fit_setup (ex1c_args old) ex1_X ex1_y) (fun _ => 1%Q) /\
  (forall r, active (fit_setup (ex1c_args old) ex1_X ex1_y) r -> 1 <= row_weight (fit_setup (ex1c_args old) ex1_X ex1_y) r) /\
  Forall (counts_rows (fit_setup (ex1c_args old) ex1_X ex1_y) (fun _ => 1%Q)) (ta_paths (ex1c_args old)) /\
  Forall (fun p => class_number 3 (p_target p)) (ta_paths (ex1c_args old)) /\
  tree_fit (enumerating_best (fun _ => 0%Q) (fun _ => 0%Q)) (ex1c_args old) (fun _ => 0%Q) ex1_X ex1_y 9 (new_estimator w) = (s, Done tt) /\
  f_iter s = 2 /\ tree_predict (ex1c_args old) [0; 1; 2] s ex1_X = Ok [0; 2; 2].
Proof.
  intros old. pose proof (ex1c_run_ok old) as H. destruct (ex1c_run old) as [s|] eqn:E; [|destruct H]. destruct H as (H1 & H2).
  destruct (ex1c_run_fit old s E) as (w & Ew & Ef). exists w, s. pose proof (tr_setup _ _ _ (ex1c_trainable old)) as V.
  split; [exact Ew|]. split; [apply ex1c_trainable|]. split; [apply enumerating_best_honest; exact V|]. split; [apply optimal_is_near, enumerating_best_optimal; exact V|].
  split; [apply ones_weight; reflexivity|]. split; [intros r _; cbn; lia|]. split; [apply countsb_ok; vm_compute; reflexivity|].
  split; [repeat (apply Forall_cons; [unfold class_number; cbn; lia|]); apply Forall_nil|]. split; [exact Ef|]. auto.
Qed.
(** The gap of the run of C65_case: its tree is optimal up to the tolerances. *)
Example C67_case_gap : forall old, exists s sel, ex1_run old = Some s /\ tm_selected (tw_master (f_world s)) = Some sel /\
  (objective_value (tm_lp (tw_master (f_world s))) ex1_x - qsum p_cost sel == 0)%Q /\
  training_weight (ex1_args 1 old) (fit_setup (ex1_args 1 old) ex1_X ex1_y) (fun _ => 1%Q) /\ data_weight (fit_setup (ex1_args 1 old) ex1_X ex1_y) (fun _ => 1%Q) /\
  Forall (counts_rows (fit_setup (ex1_args 1 old) ex1_X ex1_y) (fun _ => 1%Q)) (ta_paths (ex1_args 1 old)).
Proof.
  intros old. assert (H : match ex1_run old with
    | Some s => match tm_selected (tw_master (f_world s)) with
                | Some sel => Qeq_bool (objective_value (tm_lp (tw_master (f_world s))) ex1_x - qsum p_cost sel) 0 = true | None => False end
    | None => False end) by (destruct old; vm_compute; reflexivity).
  destruct (ex1_run old) as [s|]; [|destruct H]. destruct (tm_selected (tw_master (f_world s))) as [sel|] eqn:Es; [|destruct H].
  exists s, sel. split; [reflexivity|]. split; [exact Es|]. split; [apply Qeq_bool_iff; exact H|]. split; [|split; [apply ones_weight; reflexivity|]].
  - intros r. split; [intros _; destruct old; reflexivity|intros Hn; exfalso; apply Hn; exact I].
  - apply countsb_ok. destruct old; vm_compute; reflexivity.
Qed.

(** C48 for the same run: every sample that ends in the leaf of a training row gets one of the labels. *)
Example C48_case : forall old, exists w s sel tree, dtree_init (ex1c_args old) = Ok w /\
  tree_fit (enumerating_best (fun _ => 0%Q) (fun _ => 0%Q)) (ex1c_args old) (fun _ => 0%Q) ex1_X ex1_y 9 (new_estimator w) = (s, Done tt) /\
  tm_selected (tw_master (f_world s)) = Some sel /\ forms_tree (fit_setup (ex1c_args old) ex1_X ex1_y) tree sel /\ tree_predict (ex1c_args old) [7; 8; 9] s ex1_X = Ok [7; 9; 9].
Proof.
  intros old. destruct (C67_case old) as (w & s & Ew & R & Ho & _ & _ & _ & _ & Hc & Ef & _). exists w, s.
  destruct (C48_training _ _ _ _ _ _ _ _ Ew R Ho Hc Ef) as (sel & tree & H1 & H2 & _). exists sel, tree. split; [exact Ew|]. split; [exact Ef|]. split; [exact H1|]. split; [exact H2|].
  pose proof (ex1c_run_ok old) as _.
  assert (V : match ex1c_run old with Some z => tree_predict (ex1c_args old) [7; 8; 9] z ex1_X = Ok [7; 9; 9] | None => False end) by (destruct old; vm_compute; reflexivity).
  destruct (ex1c_run old) as [z|] eqn:E; [|destruct V]. destruct (ex1c_run_fit old z E) as (w' & Ew' & Ef'). rewrite Ew in Ew'. injection Ew' as <-. rewrite Ef in Ef'. injection Ef' as <-. exact V.
Qed.

(** C70-C71: the experiment script from the data to its results file. *)
From Verif Require Import Base Lp LpProofs FitModel SpecFit SolveModel SolveObs TreeModel TreePricingModel TreeFitModel ExpModel ExpMainModel SpecTree SpecTreeRun SpecTreeLp SpecTreePrice SpecTreeMip SpecTreeFit SpecTreeTrain SpecTreeResult
  SpecExp SpecPrep SpecSingle SingleProofs SpecMain ExpCartProofs TreeGeoProofs TreePathProofs TreeLpBuild TreeBuildProofs TreeInvProofs TreeMasterProofs TreeFormProofs TreeSolProofs TreeLpProofs TreeResultProofs TreeOutcomeProofs
  TreeHonestProofs PrepPathsProofs PrepProofs PrepTrainProofs PrepCartProofs ExpCheck PropTree PropTreeLp PropTreeFit PropTreeTrain PropTreeResult PropExpRows MainProofs MainColumnProofs FitEventProofs TimelineProofs PropFit PropPrep.
Open Scope nat_scope.

Lemma script_experiment wd o n m : script_input wd o -> experiment (op_depth o) (map (wd_first wd) (seq 0 n)) (wd_final wd) (map (wd_more wd) (seq 0 m)) (wd_X wd) (wd_y wd).
Proof.
  intros [H1 H2 H3 (w & W1 & W2 & W3 & W4) (h & H5) _]. constructor; [exact H1|apply H2|apply H3| |].
  - exists w. apply Forall_app in W1. split; [apply W1|]. apply Forall_app. split; [apply Forall_forall; intros c Hc; apply in_map_iff in Hc; destruct Hc as (i & <- & _); apply W2|].
    constructor; [exact W3|]. apply Forall_forall. intros c Hc. apply in_map_iff in Hc. destruct Hc as (i & <- & _). apply W4.
  - exists (wd_final wd), h. split; [apply in_or_app; right; left; auto|exact H5].
Qed.

(** What happens before training. *)
Lemma train_eq wd o : script_input wd o ->
  exists n m aggressive rest pre ct out w0, n <= 300 /\ m <= 100 /\
    let cs := map (wd_first wd) (seq 0 n) in let extra := map (wd_more wd) (seq 0 m) in
    let A := prepared_args (op_depth o) (wd_y wd) out (op_iterations o) (budget o - pre) 10 true false false in
    prepare (op_depth o) cs (wd_final wd) extra (wd_X wd) (wd_y wd) aggressive rest (wd_pre_clock wd) = Ok out /\ dtree_init A = Ok w0 /\
    (n < 300 \/ m < 100 -> (0 < pre_budget o)%Q /\ exists j, (pre_budget o < wd_clock wd j - wd_clock wd 0%nat)%Q) /\
    forall fuel, train wd o fuel = match tree_fit (wd_solvers wd) A (wd_fit_clock wd) (wd_X wd) (wd_y wd) fuel (new_estimator w0) with
                                   | (s, Done tt) => Done (mkTrained cs extra A s pre ct)
                                   | (_, Raised e) => Raised e
                                   | (_, NoFuel) => NoFuel
                                   end.
Proof.
  intros Si. unfold train.
  destruct (take_trees (seq 0 300) (wd_first wd) (pre_budget o) (wd_clock wd) 1) as [cs k1] eqn:E1.
  destruct (take_spec _ _ _ _ _ _ _ _ E1) as (n & Hn & -> & Hn2 & Hk1).
  destruct (take_trees (seq 0 100) (wd_more wd) (pre_budget o) (wd_clock wd) (k1 + 2)) as [extra k2] eqn:E2.
  destruct (take_spec _ _ _ _ _ _ _ _ E2) as (m & Hm & -> & Hm2 & Hk2). cbv zeta.
  set (ag := ((5000 <=? length (wd_X wd)) && negb (over (pre_budget o) (wd_clock wd) k2))%bool). set (rest := (pre_budget o - _)%Q).
  destruct (C68_prepares _ _ _ _ _ _ ag rest (wd_pre_clock wd) (script_experiment wd o n m Si)) as (out & Eo & Ho).
  set (pre := (wd_clock wd (S (tick (pre_budget o) k2)) - wd_clock wd 0%nat)%Q).
  destruct (Ho (op_iterations o) (budget o - pre)%Q 10 true false false) as ((w0 & Ew) & _).
  exists n, m, ag, rest, pre, (wd_clock wd (S k1) - wd_clock wd k1)%Q, out, w0. split; [exact Hn|]. split; [exact Hm|]. split; [exact Eo|]. split; [exact Ew|]. split.
  - intros [H|H]; [destruct (Hn2 H) as (? & j & _ & _ & ?)|destruct (Hm2 H) as (? & j & _ & _ & ?)]; eauto.
  - intros fuel. rewrite Eo. destruct out as [[[[paths leaves] nodes] splits] rows]. cbn [lift obind]. cbn [prepared_args] in Ew. rewrite Ew. cbn [lift obind]. reflexivity.
Qed.

(** The trained state. *)
Lemma train_done wd o fuel t : script_input wd o -> train wd o fuel = Done t ->
  exists n m aggressive rest pre out w0, n <= 300 /\ m <= 100 /\ td_first t = map (wd_first wd) (seq 0 n) /\ td_extra t = map (wd_more wd) (seq 0 m) /\
    prepare (op_depth o) (td_first t) (wd_final wd) (td_extra t) (wd_X wd) (wd_y wd) aggressive rest (wd_pre_clock wd) = Ok out /\
    td_args t = prepared_args (op_depth o) (wd_y wd) out (op_iterations o) (budget o - pre) 10 true false false /\ td_pre t = pre /\
    dtree_init (td_args t) = Ok w0 /\
    tree_fit (wd_solvers wd) (td_args t) (wd_fit_clock wd) (wd_X wd) (wd_y wd) fuel (new_estimator w0) = (td_state t, Done tt).
Proof.
  intros Si E. destruct (train_eq wd o Si) as (n & m & ag & rest & pre & ct & out & w0 & Hn & Hm & Ep & Ew & _ & Ht). rewrite Ht in E.
  exists n, m, ag, rest, pre, out, w0. destruct (tree_fit _ _ _ _ _ fuel _) as [s [[]|e|]] eqn:Ef; try discriminate. injection E as <-. cbn [td_first td_extra td_args td_pre td_state]. repeat (split; [assumption || reflexivity|]). exact Ef.
Qed.

(** Predictions for training samples are classes. *)
Lemma train_labels d cs final extra X y aggressive limit clk out iterations time rounds beta gen old sv clk' w0 fuel s' :
  experiment d cs final extra X y -> initial_kept d cs final -> extra_kept d cs final extra -> steady clk ->
  contiguous y -> (exists a b, In a y /\ In b y /\ a <> b) ->
  prepare d cs final extra X y aggressive limit clk = Ok out ->
  let A := prepared_args d y out iterations time rounds beta gen old in
  honest (fit_setup A X y) sv -> dtree_init A = Ok w0 -> tree_fit sv A clk' X y fuel (new_estimator w0) = (s', Done tt) ->
  exists pred, tree_predict A (classes_of y) s' X = Ok pred.
Proof.
  intros Ex K1 K2 Hc Hy Hab E A Ho Ew Ef. assert (R : trainable A X y) by (eapply C68_trainable; eauto).
  destruct (prepare_ok d cs final extra X y Ex aggressive limit clk) as (paths & nodes & splits & rows & tree0 & E' & Ep & Oc).
  rewrite E in E'. injection E' as ->. change A with (the_args d y paths nodes splits rows iterations time rounds beta gen old) in *. clear A. set (A := the_args _ _ _ _ _ _ _ _ _ _ _ _) in *.
  set (u := before d X y paths nodes splits rounds beta gen).
  assert (V : valid_setup u) by (eapply before_valid; eauto). assert (D : valid_data u) by (eapply before_data; eauto). assert (Fr : fresh_nodes u) by (eapply before_fresh; eauto).
  assert (Pre : preprocessed u aggressive limit clk (fit_setup A X y)) by (apply before_pre; auto).
  pose proof Oc as Oc'. destruct Oc' as [oc_wf _ _ oc_paths _ _ oc_tree _ oc_kept oc_final].
  assert (Ht : length (ta_targets A) = S (list_max y)) by (change (length (unique_classes y) = S (list_max y)); rewrite unique_contiguous, map_length, seq_length by exact Hy; reflexivity).
  destruct (run_labelled A X y sv clk' R Ho w0 fuel s') as (sel & tree & Esel & Hft & Hpr0 & HL & Hpr); auto.
  { rewrite Ht. eapply Forall_impl; [|exact oc_paths]. intros p (_ & (t & rs & -> & Hin & _) & _). unfold class_number. pose proof (proj1 (list_max_le y (list_max y)) (le_n _)) as M. rewrite Forall_forall in M.
    specialize (M t Hin). lia. }
  assert (HfX : Forall (fits (ta_splits A)) X).
  { exact (wt_fits _ _ _ _ oc_wf). }
  rewrite Hpr by exact HfX. rewrite classes_contiguous by exact Hy. destruct Hft as (F1 & F2 & F3).
  assert (Hn : NoDup (map p_leaf sel)) by (eapply Permutation_NoDup; [apply Permutation_sym; exact F2|apply seq_NoDup]).
  cbn in F1. apply (over_pre d nodes) in F1.
  assert (Hus : Forall (uses_candidates nodes) sel).
  { rewrite Forall_forall in *. intros p Hp. eapply agrees_candidates; eauto. apply (wt_nodes _ _ _ _ oc_wf). }
  assert (Hone : forall x, In x X -> exists l, decode (seq 0 (S (list_max y))) (leaf_target sel (tree_leaf (ta_depth A) (ta_splits A) tree x)) = Ok l).
  { intros x Hx. apply In_nth_error in Hx. destruct Hx as [r Er]. assert (Hr : r < length X) by (apply nth_error_Some; congruence).
    destruct (C52_represented u aggressive limit clk _ r V D Fr Pre Hr) as (r' & Hr' & Hact & Ey & Hway).
    destruct (tree_row_one (ta_depth A) (ta_splits A) tree (goes_left (ta_splits A) x) sel F2 Hpr0 F3) as (p & Hps & Epl & Hu).
    fold (tree_leaf (ta_depth A) (ta_splits A) tree x) in Epl. rewrite <- Epl, (leaf_target_in sel p Hn Hps).
    assert (Hcl : class_number (S (list_max y)) (p_target p)).
    { rewrite Forall_forall in HL. destruct (HL p Hps) as [H|H]; [rewrite <- Ht; exact H|]. exfalso.
      apply (H r'); [split; [exact Hact|apply (weight_pos u aggressive limit clk (fit_setup A X y) V D Fr Pre r' Hact)]|].
      rewrite Forall_forall in Hpr0, Hus. apply (Hway p (Hpr0 p Hps) (Hus p Hps)). exists x, (create_leaf (p_leaf p) d). split; [exact Er|].
      split; [apply complete_leaves_nth; apply (Hpr0 p Hps)|]. apply Hu; auto. }
    unfold class_number in Hcl. unfold decode. destruct (Z.ltb_spec (p_target p) 0); [lia|].
    destruct (nth_error_some_lt (seq 0 (S (list_max y))) (Z.to_nat (p_target p))) as [l El]; [rewrite seq_length; lia|]. rewrite El. eauto. }
  clear - Hone. induction X as [|x X IH]; [exists []; reflexivity|]. cbn [map_res]. destruct (Hone x (or_introl eq_refl)) as [l ->]. cbn [bind].
  destruct IH as [ls ->]; [intros; apply Hone; right; auto|]. cbn [bind]. eauto.
Qed.

Lemma map_res_length {A B} (f : A -> res B) : forall l r, map_res f l = Ok r -> length r = length l.
Proof.
  induction l as [|a l IH]; intros r E; cbn [map_res] in E; [injection E as <-; reflexivity|]. destruct (f a); [|discriminate]. cbn [bind] in E.
  destruct (map_res f l) as [bs|] eqn:El; [|discriminate]. injection E as <-. cbn [length]. f_equal. apply IH. reflexivity.
Qed.
Lemma score_ok pred y : 0 < length pred -> exists q, score pred y = Ok q.
Proof. intros H. unfold score. destruct (Nat.eqb_spec (length pred) 0); [lia|]. eauto. Qed.

(** Training and test samples have the features that are tested. *)
Lemma script_fits wd o n m aggressive rest out iterations time rounds beta gen old : script_input wd o ->
  prepare (op_depth o) (map (wd_first wd) (seq 0 n)) (wd_final wd) (map (wd_more wd) (seq 0 m)) (wd_X wd) (wd_y wd) aggressive rest (wd_pre_clock wd) = Ok out ->
  let A := prepared_args (op_depth o) (wd_y wd) out iterations time rounds beta gen old in
  Forall (fits (ta_splits A)) (wd_X wd) /\ Forall (fits (ta_splits A)) (wd_Xt wd).
Proof.
  intros Si E A. pose proof (script_experiment wd o n m Si) as Ex.
  destruct (prepare_ok _ _ _ _ _ _ Ex aggressive rest (wd_pre_clock wd)) as (paths & nodes & splits & rows & tree0 & E' & Ep & Oc).
  rewrite E in E'. injection E' as ->. subst A. cbn [prepared_args ta_splits].
  assert (HX : Forall (fits splits) (wd_X wd)) by exact (wt_fits _ _ _ _ (oc_wf _ _ _ _ _ _ _ _ _ _ Oc)).
  split; [exact HX|]. destruct (si_rows _ _ Si) as [Hr _]. destruct (si_width _ _ Si) as (w & W & _). apply Forall_app in W. destruct W as [W1 W2].
  destruct (wd_X wd) as [|x X]; [cbn in Hr; lia|]. inversion HX as [|? ? Hx _]; subst. inversion W1 as [|? ? Hw _]; subst.
  rewrite Forall_forall in W2 |- *. intros x' Hx' s Hs. rewrite (W2 x' Hx'). apply Hx. exact Hs.
Qed.

(** Neither row of the results fails but by a test sample without a class. *)
Lemma cart_row_ok wd o t : script_input wd o -> exists r, cart_row wd t = Ok r /\
  accuracy (wd_X wd) (wd_y wd) (single_class (wd_single wd) (wd_final wd) (wd_class wd)) (rs_train r) /\
  accuracy (wd_Xt wd) (wd_yt wd) (single_class (wd_single wd) (wd_final wd) (wd_class wd)) (rs_test r).
Proof.
  intros Si. destruct (si_rows _ _ Si) as [R1 R2]. destruct (si_labels _ _ Si) as [L1 L2]. destruct (si_width _ _ Si) as (m & W & _ & Wf & _). apply Forall_app in W. destruct W as [W1 W2].
  destruct (cart_predict_ok (wd_single wd) _ (wd_class wd) m _ _ Wf W1) as (p & Ep & Lp & Hp). destruct (cart_predict_ok (wd_single wd) _ (wd_class wd) m _ _ Wf W2) as (q & Eq & Lq & Hq).
  destruct (score_ok p (wd_y wd)) as [a Ea]; [rewrite Lp; exact R1|]. destruct (score_ok q (wd_yt wd)) as [b Eb]; [rewrite Lq; exact R2|].
  unfold cart_row. rewrite Ep. cbn [bind]. rewrite Ea. cbn [bind]. rewrite Eq. cbn [bind]. rewrite Eb. cbn [bind]. eexists. split; [reflexivity|]. cbn [rs_train rs_test]. split.
  - apply (score_right p); auto. intros; eapply Hp; eauto.
  - apply (score_right q); auto. intros; eapply Hq; eauto.
Qed.

(** ** C70: the script returns *)
Theorem C70_script_returns : forall wd o, script_input wd o -> splits_kept wd o -> steady (wd_pre_clock wd) -> always_honest (wd_solvers wd) ->
  exists bound, forall fuel, bound <= fuel -> exists t q, train wd o fuel = Done t /\ tree_score wd t (wd_X wd) (wd_y wd) = Ok q /\
    ((exists r1 r2, main wd o fuel = Done (r1, r2)) \/
     (main wd o fuel = Raised ValueError /\ tree_score wd t (wd_Xt wd) (wd_yt wd) = Err ValueError)).
Proof.
  intros wd o Si Sk Sc Ho. destruct (train_eq wd o Si) as (n & m & ag & rest & pre & ct & out & w0 & Hn & Hm & Ep & Ew & _ & Ht).
  set (A := prepared_args _ _ _ _ _ _ _ _ _) in *. destruct (Sk n m Hn Hm) as [K1 K2]. destruct (si_classes _ _ Si) as [Cy Cab].
  pose proof (script_experiment wd o n m Si) as Ex.
  assert (R : trainable A (wd_X wd) (wd_y wd)) by (eapply C68_trainable; eauto).
  assert (H : honest (fit_setup A (wd_X wd) (wd_y wd)) (wd_solvers wd)) by (apply Ho; apply (tr_setup _ _ _ R)).
  exists (iteration_bound (fit_setup A (wd_X wd) (wd_y wd))). intros fuel Hf.
  destruct (C65_training A (wd_X wd) (wd_y wd) (wd_solvers wd) (wd_fit_clock wd) w0 fuel Ew R H Hf) as (s' & sel & tree & Ef & _ & Esel & Hft & Hpr).
  assert (Et := Ht fuel). rewrite Ef in Et. set (t := mkTrained _ _ _ _ _ _) in Et.
  destruct (train_labels _ _ _ _ _ _ ag rest (wd_pre_clock wd) out (op_iterations o) (budget o - pre)%Q 10 true false false (wd_solvers wd) (wd_fit_clock wd) w0 fuel s' Ex K1 K2 Sc Cy Cab Ep H Ew Ef) as [pred Epred].
  destruct (script_fits wd o n m ag rest out (op_iterations o) (budget o - pre)%Q 10 true false false Si Ep) as [F1 F2].
  destruct (si_rows _ _ Si) as [R1 R2].
  assert (Lp : length pred = length (wd_X wd)) by (rewrite Hpr in Epred by exact F1; eapply map_res_length; eauto).
  destruct (score_ok pred (wd_y wd)) as [q Eq]; [rewrite Lp; exact R1|].
  assert (Et1 : tree_score wd t (wd_X wd) (wd_y wd) = Ok q) by (unfold tree_score; cbn [td_args td_state t]; fold A in Epred; rewrite Epred; exact Eq).
  exists t, q. split; [exact Et|]. split; [exact Et1|].
  destruct (cart_row_ok wd o t Si) as (r1 & E1 & _).
  destruct (C11_column_accounting _ _ _ _ _ _ _ _ _ (f_trace s') Ef eq_refl) as (Hsh & _). pose proof (sub_times_shape _ _ _ _ _ _ Ef) as Hst.
  unfold main. rewrite Et. cbn [obind]. rewrite E1. cbn [lift obind]. unfold tree_results. rewrite Et1. cbn [bind].
  destruct (tree_score wd t (wd_Xt wd) (wd_yt wd)) as [b|e] eqn:Eb.
  - left. cbn [bind td_state t]. destruct (f_cols s') as [|l0 [|l1 ls]]; try discriminate Hsh. cbn in Hsh. injection Hsh as Hl0 _. destruct l0 as [|c0 l0]; [discriminate|]. cbn [getitem nth_error bind lift obind].
    destruct (f_tsp s') as [|q0 [|q1 qs]]; try discriminate Hst. cbn in Hst. injection Hst as Hq0 _. destruct q0 as [|e0 q0]; [discriminate|]. cbn [getitem nth_error bind lift obind].
    eexists _, _. reflexivity.
  - right. assert (Ee : e = ValueError); [|rewrite Ee; split; reflexivity]. unfold tree_score in Eb. cbn [td_args td_state t] in Eb. rewrite Hpr in Eb by exact F2. rewrite classes_contiguous in Eb by exact Cy.
    destruct (map_res _ (wd_Xt wd)) as [pt|e'] eqn:Em; cbn [bind] in Eb.
    + apply map_res_length in Em. destruct (score_ok pt (wd_yt wd)) as [? Es]; [rewrite Em; exact R2|]. congruence.
    + apply map_decode_err in Em. congruence.
Qed.
Print Assumptions C70_script_returns.

(** ** C70: what the accuracies say *)
Theorem C70_no_worse_than_cart : forall wd o fuel t r1 r2, script_input wd o -> train wd o fuel = Done t -> main wd o fuel = Done (r1, r2) ->
  initial_kept (op_depth o) (td_first t) (wd_final wd) -> extra_kept (op_depth o) (td_first t) (wd_final wd) (td_extra t) ->
  steady (wd_pre_clock wd) -> always_honest (wd_solvers wd) -> always_optimal (wd_solvers wd) ->
  exists code, predicts (td_args t) (td_state t) code /\
    accuracy (wd_X wd) (wd_y wd) (single_class (wd_single wd) (wd_final wd) (wd_class wd)) (rs_train r1) /\
    accuracy (wd_Xt wd) (wd_yt wd) (single_class (wd_single wd) (wd_final wd) (wd_class wd)) (rs_test r1) /\
    accuracy (wd_X wd) (wd_y wd) (fun x c => code x = Z.of_nat c) (rs_train r2) /\
    accuracy (wd_Xt wd) (wd_yt wd) (fun x c => code x = Z.of_nat c) (rs_test r2) /\
    (converts (wd_single wd) (wd_X wd) -> clean_cart (wd_single wd) (wd_X wd) (wd_final wd) -> (rs_train r1 <= rs_train r2)%Q) /\
    forall c label a, c = wd_final wd \/ (In c (td_extra t) /\ full_tree (op_depth o) (td_first t) (wd_final wd) c) ->
      accuracy (wd_X wd) (wd_y wd) (cart_class c label) a \/
      (converts (wd_single wd) (wd_X wd) /\ clean_cart (wd_single wd) (wd_X wd) c /\ accuracy (wd_X wd) (wd_y wd) (single_class (wd_single wd) c label) a) ->
      (a <= rs_train r2)%Q.
Proof.
  intros wd o fuel t r1 r2 Si Et Em K1 K2 Sc Ho Hop.
  destruct (train_done wd o fuel t Si Et) as (n & m & ag & rest & pre & out & w0 & Hn & Hm & E1 & E2 & Ep & EA & _ & Ew & Ef).
  unfold main in Em. rewrite Et in Em. cbn [obind] in Em. destruct (cart_row_ok wd o t Si) as (r1' & Er1 & A1 & A2). rewrite Er1 in Em. cbn [lift obind] in Em.
  destruct (tree_results wd t) as [r2'|] eqn:Er2; [|discriminate]. cbn [lift obind] in Em. injection Em as <- <-.
  destruct (si_classes _ _ Si) as [Cy Cab]. destruct (si_rows _ _ Si) as [R1 R2]. destruct (si_labels _ _ Si) as [L1 L2].
  assert (Ex : experiment (op_depth o) (td_first t) (wd_final wd) (td_extra t) (wd_X wd) (wd_y wd)) by (rewrite E1, E2; apply script_experiment; exact Si).
  assert (R : trainable (td_args t) (wd_X wd) (wd_y wd)) by (rewrite EA; eapply C68_trainable; eauto).
  assert (H : honest (fit_setup (td_args t) (wd_X wd) (wd_y wd)) (wd_solvers wd)) by (apply Ho; apply (tr_setup _ _ _ R)).
  assert (H' : near_selection (fit_setup (td_args t) (wd_X wd) (wd_y wd)) (wd_solvers wd)) by (apply Hop; apply (tr_setup _ _ _ R)).
  assert (F : Forall (fits (ta_splits (td_args t))) (wd_X wd) /\ Forall (fits (ta_splits (td_args t))) (wd_Xt wd)) by (rewrite EA; rewrite E1, E2 in Ep; eapply script_fits; eauto).
  destruct F as [F1 F2].
  assert (G := C69_no_worse_than_cart (op_depth o) (td_first t) (wd_final wd) (td_extra t) (wd_X wd) (wd_y wd) ag rest (wd_pre_clock wd) out (op_iterations o) (budget o - pre)%Q 10 true false false (wd_solvers wd) (wd_fit_clock wd) w0 fuel (td_state t) Ex K1 K2 Sc Cy Cab Ep).
  cbv zeta in G. rewrite <- EA in G. destruct (G H H' Ew Ef) as (code & rs & Pc & Rc & Best). exists code. split; [exact Pc|]. split; [exact A1|]. split; [exact A2|].
  assert (T : forall X y q, length y = length X -> Forall (fits (ta_splits (td_args t))) X -> tree_score wd t X y = Ok q -> accuracy X y (fun x c => code x = Z.of_nat c) q).
  { intros X y q Ly Fx Es. unfold tree_score in Es. rewrite Pc in Es by exact Fx. rewrite classes_contiguous in Es by exact Cy. destruct (map_res _ X) as [p|] eqn:Emr; [|discriminate]. cbn [bind] in Es.
    destruct (map_decode _ _ _ _ Emr) as [Lp Hp]. apply (score_right p); auto. intros; eapply Hp; eauto. }
  unfold tree_results in Er2. destruct (tree_score wd t (wd_X wd) (wd_y wd)) as [a|] eqn:Ea; [|discriminate]. cbn [bind] in Er2.
  destruct (tree_score wd t (wd_Xt wd) (wd_yt wd)) as [b|] eqn:Eb; [|discriminate]. cbn [bind] in Er2.
  destruct (getitem (f_cols (td_state t)) 0) as [l0|]; [|discriminate]. cbn [bind] in Er2. destruct (getitem l0 0) as [c0|]; [|discriminate]. cbn [bind] in Er2.
  destruct (getitem (f_cols (td_state t)) 1) as [l1|]; [|discriminate]. cbn [bind] in Er2. destruct (getitem (f_tsp (td_state t)) 0) as [q0|]; [|discriminate]. cbn [bind] in Er2.
  destruct (getitem q0 0) as [e0|]; [|discriminate]. cbn [bind] in Er2. destruct (getitem (f_tsp (td_state t)) 1) as [q1|]; [|discriminate]. cbn [bind] in Er2. injection Er2 as <-. cbn [rs_train rs_test].
  assert (Aa := T _ _ _ L1 F1 Ea). split; [exact Aa|]. split; [exact (T _ _ _ L2 F2 Eb)|].
  assert (Le : forall c label q, c = wd_final wd \/ (In c (td_extra t) /\ full_tree (op_depth o) (td_first t) (wd_final wd) c) -> accuracy (wd_X wd) (wd_y wd) (cart_class c label) q -> (q <= a)%Q).
  { intros c label q Hw Aq. eapply accuracy_unique; [exact R1| |exact Aq|exact Aa]. intros rs1 rs2 Q1 Q2.
    transitivity (length rs); [eapply Best; eauto|]. apply NoDup_incl_length; [apply Rc|]. intros r Hr. apply Q2. apply Rc. exact Hr. }
  destruct (si_width _ _ Si) as (mw & Wx & _ & Wf & Wm). apply Forall_app in Wx. destruct Wx as [Wx _].
  assert (Ls : forall c label q, c = wd_final wd \/ (In c (td_extra t) /\ full_tree (op_depth o) (td_first t) (wd_final wd) c) -> converts (wd_single wd) (wd_X wd) -> clean_cart (wd_single wd) (wd_X wd) c ->
    accuracy (wd_X wd) (wd_y wd) (single_class (wd_single wd) c label) q -> (q <= a)%Q).
  { intros c label q Hw Hcv Hcl (rs1 & Q1 & Q2). apply (Le c label q Hw). exists rs1. split; [|exact Q2]. eapply same_right_rows; eauto. instantiate (1 := op_depth o).
    destruct Hw as [->|[Hc _]]; [exact Wf|]. rewrite E2 in Hc. apply in_map_iff in Hc. destruct Hc as (j & <- & _). apply Wm. }
  split; [intros Hcv Hcl; eapply Ls; eauto|]. intros c label q Hc [Aq|(Hcv & Hcl & Aq)]; [eapply Le|eapply Ls]; eauto.
Qed.
Print Assumptions C70_no_worse_than_cart.

(** ** C70: which CART trees are used *)
Theorem C70_trees : forall wd o fuel t, script_input wd o -> train wd o fuel = Done t ->
  exists n m, n <= 300 /\ m <= 100 /\ td_first t = map (wd_first wd) (seq 0 n) /\ td_extra t = map (wd_more wd) (seq 0 m) /\
    (n < 300 \/ m < 100 -> (0 < pre_budget o)%Q /\ exists j, (pre_budget o < wd_clock wd j - wd_clock wd 0%nat)%Q).
Proof.
  intros wd o fuel t Si E. destruct (train_eq wd o Si) as (n & m & ag & rest & pre & ct & out & w0 & Hn & Hm & Ep & Ew & Hl & Ht). rewrite Ht in E.
  exists n, m. destruct (tree_fit _ _ _ _ _ fuel _) as [s [[]|e|]] eqn:Ef; try discriminate. injection E as <-. cbn [td_first td_extra]. auto.
Qed.
Print Assumptions C70_trees.

(** ** C71: what the results file reports about the run *)
Theorem C71_reported : forall wd o fuel t r1 r2, script_input wd o -> train wd o fuel = Done t -> main wd o fuel = Done (r1, r2) ->
  let tr := f_trace (td_state t) in
  rs_iterations r2 = count is_solve tr /\ rs_improving r2 = count is_improved tr /\
  ((0 < op_iterations o)%Z -> (Z.of_nat (rs_iterations r2) <= op_iterations o)%Z) /\
  map bare (tm_paths (tw_master (f_world (td_state t)))) = map bare (map mark_initial (ta_paths (td_args t))) ++ map bare (added_paths tr) /\
  rs_cols_heuristic r2 = count (is_add 0 0) tr /\ rs_cols_heuristic r2 + rs_cols_ip r2 = length (added_paths tr).
Proof.
  intros wd o fuel t r1 r2 Si Et Em tr. destruct (train_done wd o fuel t Si Et) as (n & m & ag & rest & pre & out & w0 & _ & _ & _ & _ & _ & EA & _ & Ew & Ef).
  unfold main in Em. rewrite Et in Em. cbn [obind] in Em. destruct (cart_row wd t) as [r1'|]; [|discriminate]. cbn [lift obind] in Em.
  destruct (tree_results wd t) as [r2'|] eqn:Er2; [|discriminate]. cbn [lift obind] in Em. injection Em as <- <-.
  unfold tree_results in Er2. destruct (tree_score wd t (wd_X wd) (wd_y wd)) as [a|]; [|discriminate]. cbn [bind] in Er2. destruct (tree_score wd t (wd_Xt wd) (wd_yt wd)) as [b|]; [|discriminate]. cbn [bind] in Er2.
  destruct (cols_total (tree_env (wd_solvers wd) (td_args t) (wd_fit_clock wd) (wd_X wd) (wd_y wd)) (length (sub_specs (td_args t))) fuel _ _ _ (f_trace (td_state t)) eq_refl Ef eq_refl) as (c0 & l1 & Ec & Hc).
  destruct (C11_column_accounting _ _ _ _ _ _ _ _ _ (f_trace (td_state t)) Ef eq_refl) as (_ & Hn & _). specialize (Hn 0 0). rewrite Ec in *. cbn [getitem nth_error bind] in Er2.
  destruct (getitem (f_tsp (td_state t)) 0) as [q0|]; [|discriminate]. cbn [bind] in Er2. destruct (getitem q0 0) as [e0|]; [|discriminate]. cbn [bind] in Er2. destruct (getitem (f_tsp (td_state t)) 1) as [q1|]; [|discriminate]. cbn [bind] in Er2. injection Er2 as <-.
  cbn [rs_iterations rs_improving rs_cols_heuristic rs_cols_ip].
  destruct (C08_iteration_cap _ _ _ (tree_env (wd_solvers wd) (td_args t) (wd_fit_clock wd) (wd_X wd) (wd_y wd)) fuel (map Z.of_nat (wd_y wd)) (new_estimator w0) (f_trace (td_state t))) as [C1 C2].
  { unfold tree_fit in Ef. rewrite Ef. reflexivity. }
  unfold tree_fit in Ef. rewrite Ef in C2. destruct (C2 eq_refl) as [C3 _]. cbn [fst] in C3.
  split; [exact C3|]. split; [destruct (C16_num_improving_iter _ _ _ _ _ _ _ _ _ (f_trace (td_state t)) Ef eq_refl) as [C _]; exact C|]. split.
  - intros H. rewrite C3. assert (Ei : max_iterations (tree_env (wd_solvers wd) (td_args t) (wd_fit_clock wd) (wd_X wd) (wd_y wd)) = op_iterations o).
    { cbn [max_iterations tree_env]. rewrite EA. destruct out as [[[[? ?] ?] ?] ?]. reflexivity. }
    rewrite Ei in C1. apply C1. exact H.
  - split; [|split; [exact Hn|rewrite added_count; exact Hc]].
    rewrite (tree_fit_paths (wd_solvers wd) (td_args t) (wd_fit_clock wd) (wd_X wd) (wd_y wd) fuel _ _ Ef eq_refl). f_equal. cbn [f_world new_estimator].
    unfold dtree_init in Ew. destruct (check_arguments _ _ _ _ _ _); [|discriminate]. cbn [bind] in Ew. destruct (construct _ _); [|discriminate]. cbn [bind] in Ew. injection Ew as <-. reflexivity.
Qed.
Print Assumptions C71_reported.

(** The row of the CART tree reports its fitting time and no training. *)
Theorem C71_cart_row : forall wd o fuel r1 r2, main wd o fuel = Done (r1, r2) ->
  (exists k, rs_time r1 = (wd_clock wd (S k) - wd_clock wd k)%Q) /\ rs_pre r1 = 0%Q /\ rs_iterations r1 = 0 /\ rs_improving r1 = 0 /\
  rs_cols_heuristic r1 = 0 /\ rs_cols_ip r1 = 0 /\ rs_hit_rate r1 = 0%Q /\ rs_master r1 = 0%Q /\ rs_cuts r1 = 0 /\ rs_sp_heuristic r1 = 0%Q /\ rs_sp_ip r1 = 0%Q /\
  rs_add r1 = 0%Q /\ rs_ip r1 = 0%Q.
Proof.
  intros wd o fuel r1 r2 Em. unfold main in Em. destruct (train wd o fuel) as [t| |] eqn:Et; try discriminate. cbn [obind] in Em.
  destruct (cart_row wd t) as [r|] eqn:Er; [|discriminate]. cbn [lift obind] in Em. destruct (tree_results wd t); [|discriminate]. cbn [lift obind] in Em. injection Em as <- <-.
  unfold cart_row in Er. destruct (cart_predict _ _ _ (wd_X wd)); [|discriminate]. cbn [bind] in Er. destruct (score _ (wd_y wd)); [|discriminate]. cbn [bind] in Er.
  destruct (cart_predict _ _ _ (wd_Xt wd)); [|discriminate]. cbn [bind] in Er. destruct (score _ (wd_yt wd)); [|discriminate]. cbn [bind] in Er. injection Er as <-.
  cbn [rs_time rs_pre rs_iterations rs_improving rs_cols_heuristic rs_cols_ip rs_hit_rate rs_master rs_cuts rs_sp_heuristic rs_sp_ip rs_add rs_ip]. split; [|repeat split].
  unfold train in Et. destruct (take_trees (seq 0 300) _ _ _ _) as [cs k1]. destruct (take_trees (seq 0 100) _ _ _ _) as [extra k2]. exists k1.
  destruct (prepare _ _ _ _ _ _ _ _ _) as [[[[[? ?] ?] ?] ?]|]; [|discriminate]. cbn [lift obind] in Et. destruct (dtree_init _); [|discriminate]. cbn [lift obind] in Et.
  destruct (tree_fit _ _ _ _ _ _ _) as [s [[]| |]]; try discriminate. injection Et as <-. reflexivity.
Qed.
Print Assumptions C71_cart_row.

(** The heuristic makes 100 attempts per call; the hit rate is the share of attempts that gave a path. *)
Theorem C71_hit_rate : forall wd o fuel t r1 r2, script_input wd o -> train wd o fuel = Done t -> main wd o fuel = Done (r1, r2) ->
  let tr := f_trace (td_state t) in
  (rs_hit_rate r2 * inject_Z (100 * Z.of_nat (heuristic_calls tr)) == inject_Z (Z.of_nat (heuristic_paths tr)))%Q /\ (0 <= rs_hit_rate r2 <= 1)%Q /\
  (heuristic_calls tr = 0 -> rs_hit_rate r2 = 0%Q).
Proof.
  intros wd o fuel t r1 r2 Si Et Em tr. destruct (train_done wd o fuel t Si Et) as (n & m & ag & rest & pre & out & w0 & _ & _ & _ & _ & _ & EA & _ & Ew & Ef).
  unfold main in Em. rewrite Et in Em. cbn [obind] in Em. destruct (cart_row wd t) as [r1'|]; [|discriminate]. cbn [lift obind] in Em.
  destruct (tree_results wd t) as [r2'|] eqn:Er2; [|discriminate]. cbn [lift obind] in Em. injection Em as <- <-.
  unfold tree_results in Er2. destruct (tree_score wd t (wd_X wd) (wd_y wd)) as [a|]; [|discriminate]. cbn [bind] in Er2. destruct (tree_score wd t (wd_Xt wd) (wd_yt wd)) as [b|]; [|discriminate]. cbn [bind] in Er2.
  destruct (getitem (f_cols (td_state t)) 0) as [l0|]; [|discriminate]. cbn [bind] in Er2. destruct (getitem l0 0) as [c0|]; [|discriminate]. cbn [bind] in Er2.
  destruct (getitem (f_cols (td_state t)) 1) as [l1|]; [|discriminate]. cbn [bind] in Er2. destruct (getitem (f_tsp (td_state t)) 0) as [q0|]; [|discriminate]. cbn [bind] in Er2.
  destruct (getitem q0 0) as [e0|]; [|discriminate]. cbn [bind] in Er2. destruct (getitem (f_tsp (td_state t)) 1) as [q1|]; [|discriminate]. cbn [bind] in Er2. injection Er2 as <-. cbn [rs_hit_rate].
  destruct (heuristic_stats _ _ _ _ _ _ _ _ Ef eq_refl) as [H1 H2].
  { unfold dtree_init in Ew. destruct (check_arguments _ _ _ _ _ _); [|discriminate]. cbn [bind] in Ew. destruct (construct _ _); [|discriminate]. cbn [bind] in Ew. injection Ew as <-. reflexivity. }
  fold tr in H1, H2. set (h := tw_heur (f_world (td_state t))) in *. destruct (Nat.ltb_spec 0 (h_success h + h_failed h)) as [Hp|Hp].
  - assert (Ez : (100 * Z.of_nat (heuristic_calls tr) = Z.of_nat (h_success h + h_failed h))%Z) by lia.
    assert (Hq : (0 < inject_Z (Z.of_nat (h_success h + h_failed h)))%Q) by (change 0%Q with (inject_Z 0); rewrite <- Zlt_Qlt; lia).
    split; [rewrite Ez, <- H1; field; intros Hz; lra|]. split; [|intros Hz; lia]. split.
    + apply Qle_shift_div_l; [exact Hq|]. rewrite Qmult_0_l. change 0%Q with (inject_Z 0). rewrite <- Zle_Qle. lia.
    + apply Qle_shift_div_r; [exact Hq|]. rewrite Qmult_1_l. rewrite <- Zle_Qle. lia.
  - assert (Hs : h_success h = 0) by lia. split; [rewrite <- H1, Hs, Qmult_0_l; reflexivity|]. split; [lra|reflexivity].
Qed.
Print Assumptions C71_hit_rate.

(** No timer is reset while a tree is trained. *)
Lemma no_reset sv A clk X y fuel s s' : tree_fit sv A clk X y fuel s = (s', Done tt) -> f_trace s = [] -> count is_reset (f_trace s') = 0.
Proof.
  intros E Et. refine (fit_invariant (tree_env sv A clk X y) (fun _ t => count is_reset t = 0) _ _ _ _ _ _ _ _ fuel _ s s' E _);
    try (intros; match goal with H : count is_reset ?t = 0 |- _ => unfold count in *; rewrite filter_app, app_length, H; reflexivity end).
  - intros w t I. exact I.
  - intros w _. rewrite Et. reflexivity.
Qed.

(** ** C71: the time limit *)
Theorem C71_time_limit : forall wd o fuel t, script_input wd o -> train wd o fuel = Done t -> (0 < budget o - td_pre t)%Q ->
  forall j l i d cols, nth_error (f_trace (td_state t)) j = Some (EvGenerate l i d cols) ->
    exists j' k e, j = S j' /\ nth_error (f_trace (td_state t)) j' = Some (EvCheck l i e) /\
      e = (wd_fit_clock wd k - wd_fit_clock wd 0%nat)%Q /\ (td_pre t + e <= budget o)%Q.
Proof.
  intros wd o fuel t Si Et Hb j l i d cols Hj. destruct (train_done wd o fuel t Si Et) as (n & m & ag & rest & pre & out & w0 & _ & _ & _ & _ & _ & EA & Ep & Ew & Ef).
  assert (Hr := no_reset _ _ _ _ _ _ _ _ Ef eq_refl).
  destruct (C12_time_limit _ _ _ _ _ _ _ _ _ (f_trace (td_state t)) Ef eq_refl) as (H1 & H2 & _).
  destruct (H1 _ _ _ _ _ Hj) as (j' & e & -> & Hc & Hl). destruct (H2 l i e (nth_error_In _ _ Hc)) as (k0 & k & _ & _ & He & Hk). rewrite (Hk Hr) in He. cbn [f_tick new_estimator clock tree_env] in He.
  exists j', k, e. split; [reflexivity|]. split; [exact Hc|]. split; [exact He|].
  assert (El : time_limit (tree_env (wd_solvers wd) (td_args t) (wd_fit_clock wd) (wd_X wd) (wd_y wd)) = (budget o - td_pre t)%Q).
  { cbn [time_limit tree_env]. rewrite EA, Ep. destruct out as [[[[? ?] ?] ?] ?]. reflexivity. }
  rewrite El in Hl. destruct (Qlt_le_dec (budget o - td_pre t) e) as [Hlt|Hle]; [exfalso; auto|lra].
Qed.
Print Assumptions C71_time_limit.

(** The reported training time is the time between the first and the last look at the clock. *)
Theorem C71_reported_time : forall wd o fuel t r1 r2, script_input wd o -> train wd o fuel = Done t -> main wd o fuel = Done (r1, r2) ->
  (forall n, (wd_fit_clock wd n <= wd_fit_clock wd (S n))%Q) ->
  rs_time r2 = (wd_fit_clock wd (f_tick (td_state t) - 1)%nat - wd_fit_clock wd 0%nat)%Q /\ (reported_time (td_state t) <= rs_time r2)%Q /\ rs_pre r2 = td_pre t.
Proof.
  intros wd o fuel t r1 r2 Si Et Em Hm. destruct (train_done wd o fuel t Si Et) as (n & m & ag & rest & pre & out & w0 & _ & _ & _ & _ & _ & EA & _ & Ew & Ef).
  unfold main in Em. rewrite Et in Em. cbn [obind] in Em. destruct (cart_row wd t) as [r1'|]; [|discriminate]. cbn [lift obind] in Em.
  destruct (tree_results wd t) as [r2'|] eqn:Er2; [|discriminate]. cbn [lift obind] in Em. injection Em as <- <-.
  unfold tree_results in Er2. destruct (tree_score wd t (wd_X wd) (wd_y wd)) as [a|]; [|discriminate]. cbn [bind] in Er2. destruct (tree_score wd t (wd_Xt wd) (wd_yt wd)) as [b|]; [|discriminate]. cbn [bind] in Er2.
  destruct (getitem (f_cols (td_state t)) 0) as [l0|]; [|discriminate]. cbn [bind] in Er2. destruct (getitem l0 0) as [c0|]; [|discriminate]. cbn [bind] in Er2.
  destruct (getitem (f_cols (td_state t)) 1) as [l1|]; [|discriminate]. cbn [bind] in Er2. destruct (getitem (f_tsp (td_state t)) 0) as [q0|]; [|discriminate]. cbn [bind] in Er2.
  destruct (getitem q0 0) as [e0|]; [|discriminate]. cbn [bind] in Er2. destruct (getitem (f_tsp (td_state t)) 1) as [q1|]; [|discriminate]. cbn [bind] in Er2. injection Er2 as <-. cbn [rs_time rs_pre].
  assert (Hr := no_reset _ _ _ _ _ _ _ _ Ef eq_refl).
  destruct (C17_time_accounting _ _ _ (tree_env (wd_solvers wd) (td_args t) (wd_fit_clock wd) (wd_X wd) (wd_y wd)) _ _ _ _ _ (f_trace (td_state t)) Hm Ef eq_refl) as (_ & _ & _ & _ & _ & Hrt & He & _).
  rewrite (He Hr). split; [reflexivity|]. split; [exact Hrt|reflexivity].
Qed.
Print Assumptions C71_reported_time.

(** ** A run: 300 + 100 stumps, two columns are found and the tree is better than CART's *)
Definition two_answers (a b : lp_answer) : fsolvers :=
  let e := enumerating_best (fun _ => 0%Q) (fun _ => 0%Q) in
  mkFsv (mkTsv (fun i => if i =? 0 then lp_by (fst a) (snd a) else lp_by (fst b) (snd b)) (tv_cuts (fs_tree e)) (tv_ip (fs_tree e))) (fs_rand e) (fs_order e) (fs_streams e) (fs_sat e) (fs_mip e).
Lemma two_honest a b : always_honest (two_answers a b).
Proof.
  intros u V. destruct (enumerating_best_honest u (fst a) (snd a) V) as [H1 H2 H3 H4 H5 H6]. destruct (enumerating_best_honest u (fst b) (snd b) V) as [_ G2 _ _ _ _]. constructor; auto.
  intros i ops cuts s Ha Hx. cbn [tv_lp fs_tree two_answers]. destruct (i =? 0); [apply (H2 0 ops cuts s Ha Hx)|apply (G2 0 ops cuts s Ha Hx)].
Qed.
Lemma two_optimal a b : always_optimal (two_answers a b).
Proof. intros u V. exact (optimal_is_near u _ (enumerating_best_optimal u (fun _ => 0%Q) (fun _ => 0%Q) V)). Qed.
Definition main_sv : fsolvers :=
  two_answers (fun j => nth j [1; 1; 1] 0, fun i => nth i [1; 1; 0; - (1 # 2); 0; 1 # 2] 0)%Q (fun j => nth j [1; 1; 1] 0, fun i => nth i [1; 1] 0)%Q.
Definition main_world (clk fclk : nat -> Q) : world :=
  mkWorld ex1_X [0; 1; 1] [[0]; [3]]%Q [0; 0] (fun _ => stump 0 (1 # 2)) (stump 0 (3 # 2)) (fun i => if i =? 1 then 0 else 1) (fun q => q) (fun _ => stump 0 (3 # 2)) clk (fun _ => 0%Q) fclk main_sv.
Lemma main_input clk fclk t : script_input (main_world clk fclk) (mkOptions 1 (-1) t).
Proof.
  constructor; cbn.
  - lia.
  - lia.
  - auto.
  - exists 1. split; [repeat constructor|]. split; [intros; apply stump_for; lia|]. split; [apply stump_for; lia|intros; apply stump_for; lia].
  - exists 0, 0, (3 # 2)%Q. apply stump_tests. auto.
  - split.
    + intros c Hc. cbn in Hc. destruct c as [|[|c]]; [left; auto|right; left; auto|lia].
    + exists 0, 1. repeat split; auto.
Qed.
Lemma main_kept clk fclk t : splits_kept (main_world clk fclk) (mkOptions 1 (-1) t).
Proof.
  intros n m Hn Hm cs. cbn [op_depth wd_final wd_first wd_more main_world] in *. split.
  - split; [unfold cs; rewrite map_length, seq_length; lia|]. intros h Hh. cbn in Hh. assert (h = 0) by lia. subst h. split; [vm_compute; lia|]. left. exists 0, (3 # 2)%Q. apply stump_tests. auto.
  - intros c h f u Hc Ht. apply in_map_iff in Hc. destruct Hc as (i & <- & _). apply stump_tests in Ht. destruct Ht as (-> & -> & ->). left. split.
    + exists (stump 0 (3 # 2)), (3 # 2)%Q. split; [apply in_or_app; right; left; reflexivity|]. split; [apply stump_tests; auto|reflexivity].
    + exists [(0, (1 # 2)%Q); (0, (3 # 2)%Q)]. split; [vm_compute; lia|]. intros k0 _ c' f' u' k' Hc' Ht' _ _. apply in_app_or in Hc'. destruct Hc' as [Hc'|[<-|[]]].
      * unfold cs in Hc'. apply in_map_iff in Hc'. destruct Hc' as (i' & <- & _). apply stump_tests in Ht'. destruct Ht' as (_ & -> & ->). exists (1 # 2)%Q. split; [left; reflexivity|reflexivity].
      * apply stump_tests in Ht'. destruct Ht' as (_ & -> & ->). exists (3 # 2)%Q. split; [right; left; reflexivity|reflexivity].
Qed.
Definition fast : world := main_world (fun _ => 0%Q) (fun k => inject_Z (Z.of_nat k) / 10)%Q.
Definition plain : options := mkOptions 1 (-1) None.
Lemma fast_train : match train fast plain 9 with Done t => length (td_first t) = 300 /\ length (td_extra t) = 100 /\ f_iter (td_state t) = 3 /\
  td_pre t = 0%Q /\ length (added_paths (f_trace (td_state t))) = 2 /\ existsb (fun x => match x with EvGenerate _ _ _ _ => true | _ => false end) (f_trace (td_state t)) = true | _ => False end.
Proof. vm_compute. auto 9. Qed.
Lemma fast_main : match main fast plain 9 with
  | Done (r1, r2) => Qeq_bool (rs_train r1) (2 # 3) && Qeq_bool (rs_train r2) 1 && Qeq_bool (rs_test r2) (1 # 2) && (rs_cols_heuristic r2 =? 0) && (rs_cols_ip r2 =? 2) = true
  | _ => False end.
Proof. vm_compute. reflexivity. Qed.
Example C70_case : exists t r1 r2, script_input fast plain /\ splits_kept fast plain /\ steady (wd_pre_clock fast) /\ always_honest (wd_solvers fast) /\ always_optimal (wd_solvers fast) /\
  train fast plain 9 = Done t /\ main fast plain 9 = Done (r1, r2) /\
  initial_kept (op_depth plain) (td_first t) (wd_final fast) /\ extra_kept (op_depth plain) (td_first t) (wd_final fast) (td_extra t) /\
  length (td_first t) = 300 /\ length (td_extra t) = 100 /\ f_iter (td_state t) = 3 /\ (rs_train r1 == 2 # 3)%Q /\ (rs_train r2 == 1)%Q.
Proof.
  pose proof fast_train as Ht. pose proof fast_main as Hm. destruct (train fast plain 9) as [t|e|] eqn:Et; [|exfalso; exact Ht|exfalso; exact Ht].
  destruct (main fast plain 9) as [[r1 r2]|e|]; [|exfalso; exact Hm|exfalso; exact Hm].
  destruct (C70_trees fast plain 9 t (main_input _ _ _) Et) as (n & m & Hn & Hm' & E1 & E2 & _). destruct (main_kept (fun _ => 0%Q) (fun k => inject_Z (Z.of_nat k) / 10)%Q None n m Hn Hm') as [K1 K2].
  exists t, r1, r2. destruct Ht as (T1 & T2 & T3 & _). rewrite !andb_true_iff in Hm. destruct Hm as ((((M1 & M2) & _) & _) & _). apply Qeq_bool_iff in M1, M2.
  split; [apply main_input|]. split; [apply main_kept|]. split; [intros a b c; cbn; lra|]. split; [apply two_honest|]. split; [apply two_optimal|].
  rewrite E1, E2. split; [reflexivity|]. split; [reflexivity|]. split; [exact K1|]. split; [exact K2|]. rewrite <- E1, <- E2. clear Et. repeat split; assumption.
Qed.

Example C71_case : exists t r1 r2, script_input fast plain /\ train fast plain 9 = Done t /\ main fast plain 9 = Done (r1, r2) /\
  (forall n, (wd_fit_clock fast n <= wd_fit_clock fast (S n))%Q) /\ (0 < budget plain - td_pre t)%Q /\
  (exists j l i d cols, nth_error (f_trace (td_state t)) j = Some (EvGenerate l i d cols)) /\ length (added_paths (f_trace (td_state t))) = 2.
Proof.
  pose proof fast_train as Ht. pose proof fast_main as Hm. destruct (train fast plain 9) as [t|e|] eqn:Et; [|exfalso; exact Ht|exfalso; exact Ht]. clear Et.
  destruct (main fast plain 9) as [[r1 r2]|e|]; [|exfalso; exact Hm|exfalso; exact Hm]. clear Hm. destruct Ht as (_ & _ & _ & T1 & T2 & T3).
  exists t, r1, r2. split; [apply main_input|]. split; [reflexivity|]. split; [reflexivity|]. split.
  { intros k; cbn [wd_fit_clock fast main_world]; rewrite Nat2Z.inj_succ; unfold Z.succ; rewrite inject_Z_plus; change (inject_Z 1) with 1%Q. unfold Qdiv. change (/ 10)%Q with (1 # 10)%Q. lra. }
  rewrite T1. split; [reflexivity|]. split; [|exact T2]. apply existsb_exists in T3. destruct T3 as (x & Hx & Hc). apply In_nth_error in Hx. destruct Hx as [j Ej].
  destruct x as [| | | | | |l i d cols| |]; try discriminate Hc. exists j, l, i, d, cols. exact Ej.
Qed.

(** ** C71: preprocessing that takes too long lifts the time limit *)
(** The first CART tree takes 61 of 60 seconds; a look at the clock during training takes 1000000 seconds. *)
Definition slow : world := main_world (fun k => if k <=? 1 then 0%Q else 61%Q) (fun k => (inject_Z (Z.of_nat k) * 1000000)%Q).
Definition minute : options := mkOptions 1 (-1) (Some 60%Z).
Definition late_request (t : trained) : bool :=
  existsb (fun p => match p with (EvCheck l i e, EvGenerate l' i' _ _) => (l =? l') && (i =? i') && Qle_bool 1000000 e | _ => false end) (combine (f_trace (td_state t)) (tl (f_trace (td_state t)))).
Lemma slow_train : match train slow minute 9 with Done t => late_request t = true /\ td_pre t = 61%Q /\ f_optimal (td_state t) = true | _ => False end.
Proof. vm_compute. auto. Qed.
Lemma combine_tl {A} (l : list A) : forall a b, In (a, b) (combine l (tl l)) -> exists j, nth_error l j = Some a /\ nth_error l (S j) = Some b.
Proof.
  induction l as [|x l IH]; intros a b H; [contradiction|]. destruct l as [|x' l]; [contradiction|]. cbn [tl combine] in H. destruct H as [H|H].
  - injection H as <- <-. exists 0. auto.
  - destruct (IH a b H) as (j & J1 & J2). exists (S j). auto.
Qed.
Theorem C71_time_limit_refuted : exists wd o fuel t, script_input wd o /\ splits_kept wd o /\ steady (wd_pre_clock wd) /\ always_honest (wd_solvers wd) /\
  (forall k, (wd_clock wd k <= wd_clock wd (S k))%Q) /\ (forall k, (wd_fit_clock wd k <= wd_fit_clock wd (S k))%Q) /\
  op_time o = Some 60%Z /\ train wd o fuel = Done t /\ td_pre t = 61%Q /\
  exists j l i e d cols, nth_error (f_trace (td_state t)) j = Some (EvCheck l i e) /\ nth_error (f_trace (td_state t)) (S j) = Some (EvGenerate l i d cols) /\ (1000000 <= e)%Q.
Proof.
  pose proof slow_train as H. destruct (train slow minute 9) as [t|e|] eqn:Et; [|exfalso; exact H|exfalso; exact H]. exists slow, minute, 9, t. destruct H as (H1 & H2 & _).
  split; [apply main_input|]. split; [apply main_kept|]. split; [intros a b c; cbn; lra|]. split; [apply two_honest|]. split; [intros [|[|k]]; cbn; lra|].
  split; [intros k; cbn [wd_fit_clock slow main_world]; rewrite Nat2Z.inj_succ; unfold Z.succ; rewrite inject_Z_plus; change (inject_Z 1) with 1%Q; lra|].
  split; [reflexivity|]. split; [exact Et|]. split; [exact H2|]. unfold late_request in H1. apply existsb_exists in H1. destruct H1 as ([a b] & Hin & Hc).
  clear Et H2. destruct a as [| | | | |l i e| | |]; try discriminate Hc. destruct b as [| | | | | |l' i' d cols| |]; try discriminate Hc. rewrite !andb_true_iff, !Nat.eqb_eq, Qle_bool_iff in Hc. destruct Hc as [[<- <-] He].
  destruct (combine_tl _ _ _ Hin) as (j & J1 & J2). exists j, l, i, e, d, cols. auto.
Qed.
Print Assumptions C71_time_limit_refuted.

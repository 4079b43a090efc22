(** Property C84: training changes the lists given to the constructor; what a second classifier built from them does. *)
From Verif Require Import Base Lp LpProofs SpecDual FitModel SpecFit FitMainProofs FitHoareProofs SolveModel SolveObs TreeModel TreePricingModel TreeFitModel SpecTree
  SpecTreeRun SpecTreeLp SpecTreePrice SpecTreeMip SpecTreeFit SpecTreeTrain SpecTreeResult TreeCheck TreeGeoProofs TreePathProofs TreeLpBuild TreeBuildProofs TreeInvProofs TreeMasterProofs TreeFormProofs
  TreeSolProofs TreeLpProofs TreeHonestProofs TreeResultProofs TreeOutcomeProofs PropTree PropTreeLp PropTreeMaster PropTreePrice PropTreeCert PropTreeFit PropTreeTrain PropTreeResult.
From Verif Require Import ReuseModel ReuseProofs.
Open Scope nat_scope.

(** After a training the caller's list of paths is the given paths, marked as initial, then the generated ones, all with new
    ids; the nodes have the same ids and candidates and the splits the same thresholds and rows. *)
Theorem C84_lists : forall A X y sv clk w0 fuel s' shared, dtree_init A = Ok w0 -> trainable A X y -> honest (fit_setup A X y) sv ->
  tree_fit sv A clk X y fuel (new_estimator w0) = (s', Done tt) ->
  let A2 := again shared A (tw_master (f_world s')) in
  (exists generated, Forall2 (fun p q => q = with_id p (p_id q)) (map mark_initial (ta_paths A) ++ generated) (ta_paths A2)) /\
  NoDup (map p_id (ta_paths A2)) /\ Forall (tree_path (ta_depth A) (ta_splits A)) (ta_paths A2) /\ Forall (uses_candidates (ta_nodes A)) (ta_paths A2) /\
  Forall2 same_node (ta_nodes A2) (ta_nodes A) /\ Forall2 same_core (ta_splits A2) (ta_splits A) /\ ta_leaves A2 = ta_leaves A.
Proof.
  intros A X y sv clk w0 fuel s' shared Ew R Ho Ef A2. destruct (left_any A X y sv clk R Ho w0 fuel s' Ew Ef) as (ops & cuts & s & sel & tree & Ha & HP & Em & _).
  unfold A2. rewrite Em. cbn [again ta_paths ta_nodes ta_splits ta_leaves with_selected tm_paths tm_nodes tm_splits tm_leaves].
  destruct (after_inv _ ops cuts s (tr_setup _ _ _ R) Ha) as (kinds & H & _ & _ & _ & _ & Fp & _). pose proof (after_formulated _ _ _ _ (tr_setup _ _ _ R) H) as F.
  split; [exists (columns ops); exact Fp|]. split; [apply (fm_path_ids _ _ _ _ _ _ _ _ _ _ F)|].
  unfold proper_paths in HP. split; [eapply Forall_impl; [|exact HP]; intros p Hp; apply Hp|]. split; [eapply Forall_impl; [|exact HP]; intros p Hp; apply Hp|].
  split; [exact (ti_nodes _ _ _ _ _ _ _ H)|]. split; [exact (ti_splits _ _ _ _ _ _ _ H)|]. rewrite (tr_leaves _ _ _ R). exact (ti_leaves _ _ _ _ _ _ _ H).
Qed.
Print Assumptions C84_lists.

(** The constructor accepts the changed lists exactly if every path has one of the classes. *)
Theorem C84_constructor : forall A X y sv clk w0 fuel s' shared, dtree_init A = Ok w0 -> trainable A X y -> honest (fit_setup A X y) sv ->
  tree_fit sv A clk X y fuel (new_estimator w0) = (s', Done tt) ->
  let A2 := again shared A (tw_master (f_world s')) in
  (exists w2, dtree_init A2 = Ok w2) <-> Forall (fun p => In (p_target p) (ta_targets A)) (ta_paths A2).
Proof. intros A X y sv clk w0 fuel s' shared Ew R Ho Ef. exact (left_init A X y sv clk R Ho w0 fuel s' Ew Ef shared). Qed.
Print Assumptions C84_constructor.

(** Without generated cuts there are none after the training. *)
Theorem C84_no_cuts : forall A X y sv clk w0 fuel s', dtree_init A = Ok w0 -> ta_gen A = false ->
  tree_fit sv A clk X y fuel (new_estimator w0) = (s', Done tt) -> tm_cut_cons (tw_master (f_world s')) = [].
Proof.
  intros A X y sv clk w0 fuel s' Ew G Ef. refine (proj2 (fit_cutless sv A clk X y fuel _ s' Ef _ _)).
  - unfold dtree_init in Ew. destruct (check_arguments _ _ _ _ _ _); [|discriminate]. cbn [bind] in Ew. destruct (construct _ _); [|discriminate]. cbn [bind] in Ew. injection Ew as <-. exact G.
  - unfold dtree_init in Ew. destruct (check_arguments _ _ _ _ _ _); [|discriminate]. cbn [bind] in Ew. destruct (construct _ _); [|discriminate]. cbn [bind] in Ew. injection Ew as <-. reflexivity.
Qed.
Print Assumptions C84_no_cuts.

(** If the first training generated no cut and new rows are given, the second classifier trains to the end too and classifies at
    least the weight that the first one's selected paths promise. *)
Theorem C84_second_training : forall A X y sv clk w0 fuel s', dtree_init A = Ok w0 -> trainable A X y -> honest (fit_setup A X y) sv ->
  tree_fit sv A clk X y fuel (new_estimator w0) = (s', Done tt) -> tm_cut_cons (tw_master (f_world s')) = [] ->
  let A2 := again false A (tw_master (f_world s')) in
  trainable A2 X y /\
  forall sv2 clk2 w2 fuel2, dtree_init A2 = Ok w2 -> honest (fit_setup A2 X y) sv2 -> iteration_bound (fit_setup A2 X y) <= fuel2 ->
  exists s2, tree_fit sv2 A2 clk2 X y fuel2 (new_estimator w2) = (s2, Done tt) /\
    forall w sel, data_weight (fit_setup A X y) w -> (ta_old A = true -> forall r, active (fit_setup A X y) r -> 1 <= row_weight (fit_setup A X y) r) ->
      Forall (modest (fit_setup A X y) w) (ta_paths A) -> optimal_selection (fit_setup A2 X y) sv2 -> tm_selected (tw_master (f_world s')) = Some sel ->
      exists code v, predicts A2 s2 code /\ correct_weight (fit_setup A X y) w code v /\ (qsum p_cost sel <= v)%Q.
Proof.
  intros A X y sv clk w0 fuel s' Ew R Ho Ef Ec A2. pose proof (left_trainable A X y sv clk R Ho w0 fuel s' Ew Ef Ec) as R2. fold A2 in R2. split; [exact R2|].
  intros sv2 clk2 w2 fuel2 Ew2 Ho2 Hf. destruct (C65_training A2 X y sv2 clk2 w2 fuel2 Ew2 R2 Ho2 Hf) as (s2 & _ & _ & Ef2 & _). exists s2. split; [exact Ef2|].
  intros w sel W H1 Hm Hop Es. pose proof (left_modest A X y sv clk R Ho w w0 fuel s' W H1 Hm Ew Ef) as Hm2.
  destruct (left_any A X y sv clk R Ho w0 fuel s' Ew Ef) as (ops & cuts & s & sel' & tree & Ha & HP & Em & Hi & T1 & T2 & T3).
  destruct (after_inv _ ops cuts s (tr_setup _ _ _ R) Ha) as (kinds & H & _).
  assert (EA : A2 = again false A s) by (unfold A2; rewrite Em; reflexivity).
  assert (W2 : data_weight (fit_setup A2 X y) w) by (rewrite EA; apply again_weight; exact W).
  assert (Es' : sel' = sel) by (rewrite Em in Es; cbn in Es; congruence). subst sel'.
  destruct (run_modest A2 X y sv2 clk2 R2 Ho2 w w2 fuel2 s2 W2) as (ops2 & cuts2 & m2 & x & sel2 & tree2 & Ha2 & Hx & (i & Hxi) & _ & _ & _ & Hpr & Eo & v & Hv & Hle); auto.
  { intros Eold r Hr. assert (Er : ta_rows A2 = ta_rows A) by (rewrite EA; apply again_rows). unfold active, row_weight in *. cbn [fit_setup su_rows] in *. rewrite Er in *. apply H1; auto. }
  { rewrite EA in *. rewrite Em in Hm2. cbn [again ta_paths]. eapply Forall_impl; [|exact Hm2]. intros p Hp. eapply again_modest; eauto. }
  eexists _, v. split; [exact Hpr|]. split.
  - exact Hv.
  - destruct (initial_value A2 X y R2 ops2 cuts2 m2 tree sel Ha2) as (x0 & Hx0 & Ex0).
    { rewrite EA. exact Hi. }
    { rewrite EA. split; [|split; [exact T2|exact T3]]. cbn [fit_setup su_depth su_nodes again ta_depth ta_nodes]. eapply again_tree_over; eauto. }
    pose proof (proj2 (Hop i ops2 cuts2 m2 x Ha2 Hxi) x0 Hx0) as Hbest. unfold as_good in Hbest.
    destruct (after_inv _ ops2 cuts2 m2 (tr_setup _ _ _ R2) Ha2) as (kinds2 & H2 & _). pose proof (after_formulated _ _ _ _ (tr_setup _ _ _ R2) H2) as F2.
    rewrite (fm_max _ _ _ _ _ _ _ _ _ _ F2) in Hbest. lra.
Qed.
Print Assumptions C84_second_training.

(** * Without these hypotheses it is false *)

(** A generated path may have no class: then the constructor raises for the same lists it accepted before. *)
Theorem C84_no_class_refuted : exists A X y sv clk w0 fuel s', dtree_init A = Ok w0 /\ trainable A X y /\ right_answers (fit_setup A X y) sv /\
  tree_fit sv A clk X y fuel (new_estimator w0) = (s', Done tt) /\ f_optimal s' = true /\
  forall shared, dtree_init (again shared A (tw_master (f_world s'))) = Err AssertionError.
Proof.
  assert (V : match w_run with Some s => Some (dtree_init (again false w_args (tw_master (f_world s))), dtree_init (again true w_args (tw_master (f_world s)))) | None => None end
            = Some (Err AssertionError, Err AssertionError)) by (vm_compute; reflexivity).
  pose proof w_run_ok as H. destruct w_run as [s|] eqn:E; [|destruct H]. destruct H as (H1 & _). destruct (w_run_fit s E) as (w & Ew & Ef). injection V as V1 V2.
  exists w_args, ex1_X, ex1_y, (listing w_answers 1), (fun _ => 0%Q), w, 3, s.
  split; [exact Ew|]. split; [apply w_trainable|]. split; [apply listing_right; apply (tr_setup _ _ _ w_trainable)|]. split; [exact Ef|]. split; [exact H1|].
  intros [|]; [exact V2|exact V1].
Qed.
Print Assumptions C84_no_class_refuted.

(** The cuts of the first master problem stay in the splits: the second one, which has no cuts, raises when a column is added. *)
Definition r_args : targs := mkTargs ex_paths (complete_leaves 2) ex_nodes ex_splits 2 [0; 1]%Z (-1) (-1) 3 false true None false.
Theorem C84_cuts_refuted : exists A X y ops cuts s p w2 s0, valid_setup (fit_setup A X y) /\ after (fit_setup A X y) ops cuts s /\
  let A2 := again false A s in
  dtree_init A2 = Ok w2 /\ plain_path (ta_depth A) (ta_splits A) p /\
  generate_mp X y (tw_master w2) = Ok s0 /\ add_column p s0 = Err IndexError.
Proof.
  set (ops := [Store (fun _ => 2%Q); Cuts ex_sols]).
  assert (V : match run_setup (fit_setup r_args ex_X [0; 1; 1; 0]) ops with
              | Ok (cuts, s) => match dtree_init (again false r_args s) with
                                | Ok w2 => match generate_mp ex_X [0; 1; 1; 0] (tw_master w2) with Ok s0 => Some (add_column ex_new s0) | Err _ => None end
                                | Err _ => None end
              | Err _ => None end = Some (Err IndexError)) by (vm_compute; reflexivity).
  destruct (run_setup _ ops) as [[cuts s]|] eqn:E; [|discriminate V]. destruct (dtree_init (again false r_args s)) as [w2|] eqn:E2; [|discriminate V].
  destruct (generate_mp _ _ (tw_master w2)) as [s0|] eqn:E3; [|discriminate V]. injection V as V.
  exists r_args, ex_X, [0; 1; 1; 0], ops, cuts, s, ex_new, w2, s0. split; [exact (ex_valid false)|].
  split; [apply run_setup_after; [|exact E]; apply Forall_cons; [exact I|]; apply Forall_cons; [exact ex_sols_sound|apply Forall_nil]|].
  cbv zeta. split; [exact E2|]. split; [repeat split; simpl; try lia; repeat constructor; simpl; lia|]. split; [exact E3|exact V].
Qed.
Print Assumptions C84_cuts_refuted.

(** Given rows keep the ids of the first master problem's paths: if they are given again the tenth solve raises, because one
    id is not the id of any path of the second. *)
Definition q_rows : list row := [new_row; new_row; new_row].
Definition q_args : targs :=
  mkTargs [mkPath 0 [0] [0] 1 0 0 false; mkPath 1 [0] [0] 1 0 1 false] (complete_leaves 1) ex1_nodes ex1_splits 1 [0; 1]%Z (-1) (-1) 3 true true (Some q_rows) false.
Definition q_new : path := mkPath 0 [0] [1] 1 0 0 false.
Theorem C84_shared_rows_refuted : exists A X y ops s w2 s0 sv, valid_setup (fit_setup A X y) /\ after (fit_setup A X y) ops [] s /\
  let A2 := again true A s in
  dtree_init A2 = Ok w2 /\ generate_mp X y (tw_master w2) = Ok s0 /\ sound_solvers sv /\
  (exists cuts s9, run_ops (repeat (Solve sv) 9) s0 = Ok (cuts, s9) /\ solve_rmp sv s9 = Err KeyError).
Proof.
  assert (V : match run_setup (fit_setup q_args ex1_X ex1_y) [Column q_new] with
              | Ok ([], s) => match dtree_init (again true q_args s) with
                              | Ok w2 => match generate_mp ex1_X ex1_y (tw_master w2) with
                                         | Ok s0 => match run_ops (repeat (Solve ex_sv) 9) s0 with
                                                    | Ok (cuts, s9) => match solve_rmp ex_sv s9 with Ok _ => None | Err e => Some e end
                                                    | Err _ => None end
                                         | Err _ => None end
                              | Err _ => None end
              | _ => None end = Some KeyError) by (vm_compute; reflexivity).
  destruct (run_setup _ [Column q_new]) as [[[|] s]|] eqn:E; try discriminate V. destruct (dtree_init (again true q_args s)) as [w2|] eqn:E2; [|discriminate V].
  destruct (generate_mp _ _ (tw_master w2)) as [s0|] eqn:E3; [|discriminate V]. destruct (run_ops _ s0) as [[cuts s9]|] eqn:E4; [|discriminate V].
  destruct (solve_rmp ex_sv s9) as [?|e] eqn:E5; [discriminate V|]. injection V as ->.
  exists q_args, ex1_X, ex1_y, [Column q_new], s, w2, s0, ex_sv.
  split; [destruct (tr_setup _ _ _ (ex1_trainable false)) as (W & P & _); split; [exact W|split; [exact P|split; [reflexivity|repeat constructor]]]|].
  split; [apply run_setup_after; [|exact E]; apply Forall_cons; [|apply Forall_nil]; repeat split; simpl; try lia; repeat constructor; simpl; lia|].
  cbv zeta. split; [exact E2|]. split; [exact E3|]. split; [intros n; exact ex_sols_sound|]. exists cuts, s9. exact (conj E4 E5).
Qed.
Print Assumptions C84_shared_rows_refuted.

(** * A case *)
Example C84_case : forall old, exists w s, dtree_init (ex1c_args old) = Ok w /\ trainable (ex1c_args old) ex1_X ex1_y /\
  honest (fit_setup (ex1c_args old) ex1_X ex1_y) (enumerating_best (fun _ => 0%Q) (fun _ => 0%Q)) /\
  tree_fit (enumerating_best (fun _ => 0%Q) (fun _ => 0%Q)) (ex1c_args old) (fun _ => 0%Q) ex1_X ex1_y 9 (new_estimator w) = (s, Done tt) /\
  tm_cut_cons (tw_master (f_world s)) = [] /\ length (ta_paths (ex1c_args old)) < length (ta_paths (again false (ex1c_args old) (tw_master (f_world s)))) /\
  exists w2, dtree_init (again false (ex1c_args old) (tw_master (f_world s))) = Ok w2.
Proof.
  intros old.
  assert (V : match ex1c_run old with
              | Some s => Some (tm_cut_cons (tw_master (f_world s)), Nat.ltb (length (ta_paths (ex1c_args old))) (length (ta_paths (again false (ex1c_args old) (tw_master (f_world s))))),
                                match dtree_init (again false (ex1c_args old) (tw_master (f_world s))) with Ok _ => true | Err _ => false end)
              | None => None end = Some ([], true, true)) by (destruct old; vm_compute; reflexivity).
  destruct (ex1c_run old) as [s|] eqn:E; [|discriminate V]. injection V as V1 V2 V3. destruct (ex1c_run_fit old s E) as (w & Ew & Ef).
  exists w, s. split; [exact Ew|]. split; [apply ex1c_trainable|]. split; [apply enumerating_best_honest; apply (tr_setup _ _ _ (ex1c_trainable old))|]. split; [exact Ef|].
  split; [exact V1|]. split; [apply Nat.ltb_lt; exact V2|]. destruct (dtree_init (again _ _ _)) as [w2|]; [exists w2; reflexivity|discriminate V3].
Qed.

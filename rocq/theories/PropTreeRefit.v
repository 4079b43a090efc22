(** Properties C32 and C85: a second training of the tree classifier. *)
From Coq Require Import String Sorted.
From Verif Require Import Base Lp LpProofs FitModel SpecFit FitMainProofs SpecDual LpCheck TreeModel TreePricingModel TreeFitModel SpecTree SpecTreeLp SpecTreeRun SpecTreePrice SpecTreeMip SpecTreeFit SpecTreeTrain SpecTreeResult
  PropTreeLp PropTreeLp PropTreePrice TreeCheck  PropTreeFit PropTreeTrain PropTreeResult ScriptModel SpecScript PropData LifeModel SpecLife LifeProofs TreeRefitProofs.
Open Scope nat_scope.

(** C32: when fit is called on a tree classifier whose master problem exists, the samples, the labels and the paths of the master problem stay those of
    the earlier training, with their costs counted on its labels; paths can only be appended. *)
Theorem C32_tree_refit_keeps_the_data : forall sv A clk X y fuel s, let before := tw_master (f_world s) in tm_generated before = true ->
  let later := tw_master (f_world (fst (tree_fit sv A clk X y fuel s))) in
  tm_X later = tm_X before /\ tm_y later = tm_y before /\ exists more, tm_paths later = tm_paths before ++ more.
Proof. intros sv A clk X y fuel s before G later. apply (refit_same sv A clk X y fuel s G). Qed.
Print Assumptions C32_tree_refit_keeps_the_data.

Definition r_splits : list split := [mkSplit 0 0 (1 # 2) false [0] [1; 2] [] []].
Definition r_args : targs := mkTargs [mkPath 0 [0] [0] 1 0 0 false; mkPath 1 [0] [0] 2 1 1 false] (complete_leaves 1) [mkNode 0 [0] None 0 0 false] r_splits 1 [0; 1]%Z (-1) (-1) 3 false true None false.
Definition r_X : list sample := [[0]; [1]; [2]]%Q.
Definition r_answers : list lp_answer := [(fun _ => 1, fun i => nth i [1; 2; 0; 0] 0)]%Q.
Lemma r_trainable : trainable r_args r_X [0; 1; 1].
Proof.
  constructor.
  - reflexivity.
  - apply valid_setup_ok; [vm_compute|]; reflexivity.
  - apply data_okb_ok. vm_compute. reflexivity.
  - intros rows r dr E. discriminate.
  - apply Permutation_refl.
  - repeat constructor.
  - exists 0, 1. cbn. intuition discriminate.
  - apply proper_pathb_ok. vm_compute. reflexivity.
  - exists (fun _ => 0), [mkPath 0 [0] [0] 1 0 0 false; mkPath 1 [0] [0] 2 1 1 false]. split; [|split; [|split]].
    + intros p [<-|[<-|[]]]; cbn; auto.
    + intros n nd Hn E. cbn in Hn. assert (n = 0) by lia. subst n. injection E as <-. left. reflexivity.
    + apply Permutation_refl.
    + repeat constructor; intros n k [H|[]]; injection H as <- <-; reflexivity.
Qed.
(** The two trainings of that estimator: the labels of the second are not in the master problem. *)
Example C32_tree_case : match dtree_init r_args with
  | Ok w => let '(s1, r1) := tree_fit (listing r_answers 1) r_args (fun _ => 0%Q) r_X [0; 1; 1] 3 (new_estimator w) in
            let '(s2, r2) := tree_fit (listing r_answers 1) r_args (fun _ => 0%Q) r_X [1; 0; 0] 3 s1 in
            (r1, r2, tm_generated (tw_master (f_world s1)), tm_y (tw_master (f_world s1)), tm_y (tw_master (f_world s2))) = (Done tt, Done tt, true, [0; 1; 1], [0; 1; 1])
  | Err _ => False end.
Proof. vm_compute. reflexivity. Qed.

(** The tree classifier likewise: every solver answer is right, the second training returns and reports optimality, and every prediction on its data is wrong. *)
Theorem C85_second_tree_refuted : exists A X y y' w sv, forall wreck, let k := tree_kind sv A (fun _ => 0%Q) wreck in let said := reply_to k Z.ltb 3 w in
  dtree_init A = Ok w /\ trainable A X [0; 1; 1] /\ right_answers (fit_setup A X [0; 1; 1]) sv /\
  encode Z.ltb (label_classes Z.ltb y) y = Ok [0; 1; 1] /\ encode Z.ltb (label_classes Z.ltb y') y' = Ok [1; 0; 0] /\
  said [] (Fit X y) = Fitted /\ said [Fit X y] (Predict X) = Labels y /\ said [Fit X y] (Fit X y') = Fitted /\
  f_optimal (lv_state (object_after k Z.ltb 3 w [Fit X y; Fit X y'])) = true /\
  exists ls, said [Fit X y; Fit X y'] (Predict X) = Labels ls /\ Forall2 (fun v u => v <> u) ls y'.
Proof.
  destruct (dtree_init r_args) as [w|] eqn:Ew; [|vm_compute in Ew; discriminate].
  exists r_args, r_X, [4; 6; 6]%Z, [6; 4; 4]%Z, w, (listing r_answers 1). intros wreck k said. subst said k.
  vm_compute in Ew. injection Ew as <-. split; [vm_compute; reflexivity|]. split; [exact r_trainable|].
  split; [apply listing_right, (tr_setup _ _ _ r_trainable)|]. split; [reflexivity|]. split; [reflexivity|].
  split; [vm_compute; reflexivity|]. split; [vm_compute; reflexivity|]. split; [vm_compute; reflexivity|]. split; [vm_compute; reflexivity|].
  exists [4; 6; 6]%Z. split; [vm_compute; reflexivity|]. repeat constructor; discriminate.
Qed.
Print Assumptions C85_second_tree_refuted.

(** The outcome of a training run, for any property of paths kept by the run. *)
From Verif Require Import Base Lp LpProofs FitModel SpecFit FitMainProofs FitHoareProofs SolveModel SolveObs TreeModel TreePricingModel TreeFitModel SpecTree SpecTreeRun SpecTreeLp
  SpecTreePrice SpecTreeMip SpecTreeFit SpecTreeTrain SpecTreeResult TreeGeoProofs TreePathProofs TreeLpBuild TreeBuildProofs TreeInvProofs TreeMasterProofs TreeFormProofs TreeSolProofs
  TreeLpProofs TreePriceProofs TreeHeurProofs TreeFedProofs TreeTrainProofs TreeTrainInvProofs TreeTrainCertProofs TreeResultProofs PropTreeLp PropTreePrice.
Open Scope nat_scope.

Section Outcome.
Variables (A : targs) (X : list sample) (y : list nat) (sv : fsolvers) (clk : nat -> Q).
Local Notation u := (fit_setup A X y).
Local Notation nt := (length (ta_targets A)).
Hypothesis R : trainable A X y.
Hypothesis Ho : honest u sv.
Let V : valid_setup u := tr_setup _ _ _ R.
Let D : valid_data u := tr_data _ _ _ R.

Lemma outcome (Gp : path -> Prop) w0 fuel s' :
  (forall p id, Gp p -> Gp (with_id p id)) -> Forall Gp (map mark_initial (ta_paths A)) ->
  (forall cuts dl p, tree_path (ta_depth A) (ta_splits A) p -> offered u cuts dl p -> Gp p) ->
  (forall c lf l p, In (c, lf) (sub_specs A) -> path_to u l p -> fair_class u c nt p -> Gp p) ->
  dtree_init A = Ok w0 -> tree_fit sv A clk X y fuel (new_estimator w0) = (s', Done tt) ->
  exists ops cuts s x sel tree, after u ops cuts s /\ proper_paths u (tm_paths s) /\ Forall Gp sel /\ ip_feasible (tm_lp s) x /\
    (exists i, tv_ip (fs_tree sv) i (tm_lp s) = Some x) /\ tm_lp (tw_master (f_world s')) = tm_lp s /\
    tm_selected (tw_master (f_world s')) = Some sel /\ forms_tree u tree sel /\ Forall (tree_path (ta_depth A) (ta_splits A)) sel /\
    predicts A s' (fun xr => leaf_target sel (tree_leaf (ta_depth A) (ta_splits A) tree xr)) /\
    (objective_value (tm_lp s) x == qsum p_cost sel)%Q.
Proof.
  intros G1 G2 G3 G4 Ew Ef.
  destruct (train_ok A X y sv clk R Ho Gp G1 G2 G3 G4 w0 (Nat.max fuel (iteration_bound u)) Ew (Nat.le_max_r _ _)) as (s2 & Es & _ & (ops & cuts & s & x & Ha & [HP HG] & Hx & Hi & Eip) & _).
  unfold tree_fit in *. rewrite (fit_mono _ fuel) in Es by (try apply Nat.le_max_l; rewrite Ef; discriminate). rewrite Ef in Es. injection Es as <-.
  destruct (after_inv u ops cuts s V Ha) as (kinds & H & _). pose proof (after_formulated u _ _ _ V H) as F.
  destruct (proper_forms u _ _ _ _ _ _ x F HP) as (tree & Ht & Hs & Hsol).
  { eapply feasible_meets; [exact F|apply Hx]. } { eapply feasible_integral; eauto. }
  set (sel := filter (fun p => Qltb 0 (x (p_id p))) (tm_paths s)) in *.
  assert (E2 : solve_ip (Some x) s = Ok (true, with_selected sel s)) by (unfold solve_ip; rewrite (ti_gen _ _ _ _ _ _ _ H); reflexivity).
  rewrite E2 in Eip. injection Eip as Em.
  exists ops, cuts, s, x, sel, tree. split; auto. split; auto. split.
  { rewrite Forall_forall in *. intros p Hp. apply filter_In in Hp. apply HG, Hp. }
  split; auto. split; auto. rewrite <- Em. split; [reflexivity|]. split; [reflexivity|]. split; auto. split; [exact Hs|]. split.
  - intros L classes Xs HX. unfold tree_predict. rewrite <- Em. cbn [tm_selected tm_splits with_selected]. rewrite (tr_leaves _ _ _ R). cbn [tw_master].
    apply (predict_core classes (ta_depth A) (ta_splits A) (tm_splits s) tree sel Xs (ti_splits _ _ _ _ _ _ _ H) HX Hs (proj2 (proj2 Ht))).
  - rewrite (form_objective _ _ _ _ _ _ _ _ _ _ F). unfold sel. rewrite qsum_filter. apply qsum_ext. intros p Hin.
    destruct (Qltb 0 (x (p_id p))) eqn:E.
    + assert (Hsel : In p sel) by (apply filter_In; auto).
      assert (E1 : (x (p_id p) == 1)%Q).
      { unfold su_leaves in F. eapply (sel_one _ _ _ _ _ _ _ _ _ _ F HP); [| |exact Hsel].
        - eapply feasible_meets; [exact F|apply Hx].
        - eapply feasible_integral; eauto. }
      rewrite E1. lra.
    + apply Qltb_false in E. assert (E0 : (x (p_id p) == 0)%Q); [|rewrite E0; lra].
      pose proof (feas_path _ _ _ _ _ _ _ _ _ _ F x (proj1 Hx) p Hin). lra.
Qed.

(** The paths of an initial tree are a solution of every reachable master problem, with their total cost. *)
Lemma initial_value ops cuts s tree sel : after u ops cuts s -> incl sel (ta_paths A) -> forms_tree u tree sel ->
  exists x, ip_feasible (tm_lp s) x /\ (objective_value (tm_lp s) x == qsum p_cost sel)%Q.
Proof.
  intros Ha Hi (T1 & T2 & T3). destruct (after_inv u ops cuts s V Ha) as (kinds & H & _ & _ & _ & _ & Fp & _). pose proof (after_formulated u _ _ _ V H) as F.
  destruct (copies _ _ Fp (map mark_initial sel)) as (sel' & I' & F').
  { intros p Hp. apply in_or_app. left. cbn. apply in_map_iff in Hp. destruct Hp as (q & <- & Hq). apply in_map. auto. }
  assert (Hs : Forall (tree_path (ta_depth A) (ta_splits A)) sel).
  { apply Forall_forall. intros p Hp. pose proof (tr_paths _ _ _ R) as P. unfold proper_paths in P. rewrite Forall_forall in P. apply P, Hi, Hp. }
  assert (G : Forall (tree_path (su_depth u) (su_splits u)) sel' /\ map p_leaf sel' = map p_leaf sel /\ Forall (agrees tree) sel' /\ (qsum p_cost sel' == qsum p_cost sel)%Q).
  { clear - F' T3 Hs. revert sel' F'. induction sel as [|p ps IH]; intros sel' F'; cbn [map] in F'; inversion F' as [|? q ? ps' E F]; subst; [repeat split; auto; reflexivity|].
    inversion T3; subst. inversion Hs; subst. destruct (IH H2 H4 _ F) as (G1 & G2 & G3 & G4). rewrite !qsum_cons, E. split; [constructor; auto|]. split; [cbn; rewrite G2; reflexivity|].
    split; [constructor; auto|]. rewrite G4. reflexivity. }
  destruct G as (G1 & G2 & G3 & G4).
  assert (Hn : NoDup (map p_leaf sel')) by (rewrite G2; eapply Permutation_NoDup; [apply Permutation_sym; exact T2|apply seq_NoDup]).
  destruct (C37_all_trees u ops cuts s tree sel' V Ha I' G1) as (x & Hx & X1 & X0); [split; auto; split; auto; rewrite G2; exact T2|].
  exists x. split; auto. rewrite <- G4, (form_objective _ _ _ _ _ _ _ _ _ _ F).
  assert (Np : NoDup (tm_paths s)) by (apply (NoDup_map_inv' p_id), (fm_path_ids _ _ _ _ _ _ _ _ _ _ F)).
  assert (P : Permutation sel' (filter (fun p => if in_dec path_eq_dec p sel' then true else false) (tm_paths s))).
  { apply NoDup_Permutation; [apply (NoDup_map_inv' p_leaf); auto|apply NoDup_filter; auto|]. intros p. rewrite filter_In. destruct (in_dec path_eq_dec p sel'); split; intros; try tauto; [|destruct H0; discriminate].
    split; auto. }
  rewrite (qsum_perm p_cost _ _ P), qsum_filter. apply qsum_ext. intros p Hp. destruct (in_dec path_eq_dec p sel') as [Hin|Hni]; [rewrite (X1 p Hin)|rewrite (X0 p Hp Hni)]; lra.
Qed.

(** Paths of a run never promise more than they classify correctly. *)
Lemma modest_id w p id : modest u w p -> modest u w (with_id p id).
Proof. intros H. exact H. Qed.
Lemma labelled_id p id : labelled u nt p -> labelled u nt (with_id p id).
Proof. intros H. exact H. Qed.
Lemma run_modest w w0 fuel s' : data_weight u w -> (ta_old A = true -> forall r, active u r -> 1 <= row_weight u r) -> Forall (modest u w) (ta_paths A) ->
  dtree_init A = Ok w0 -> tree_fit sv A clk X y fuel (new_estimator w0) = (s', Done tt) ->
  exists ops cuts s x sel tree, after u ops cuts s /\ ip_feasible (tm_lp s) x /\
    (exists i, tv_ip (fs_tree sv) i (tm_lp s) = Some x) /\ tm_lp (tw_master (f_world s')) = tm_lp s /\
    tm_selected (tw_master (f_world s')) = Some sel /\ forms_tree u tree sel /\
    predicts A s' (fun xr => leaf_target sel (tree_leaf (ta_depth A) (ta_splits A) tree xr)) /\
    (objective_value (tm_lp s) x == qsum p_cost sel)%Q /\
    exists v, correct_weight u w (fun xr => leaf_target sel (tree_leaf (ta_depth A) (ta_splits A) tree xr)) v /\ (qsum p_cost sel <= v)%Q.
Proof.
  intros W H1 Hm Ew Ef. destruct (outcome (modest u w) w0 fuel s') as (ops & cuts & s & x & sel & tree & Ha & _ & HG & Hx & Hi & El & Es & Ht & Hp & Hpr & Eo); auto.
  - apply Forall_map. exact Hm.
  - intros cuts dl p _ O. eapply offered_modest; eauto.
  - intros c lf l p Hin _ Hf. eapply fair_modest; eauto. intros Hc. apply H1. destruct (spec_ok A X y R _ _ Hin) as (_ & l' & _ & _ & [[_ ->]|[Eo _]]); [discriminate|exact Eo].
  - exists ops, cuts, s, x, sel, tree. repeat (split; [assumption|]). apply modest_tree; auto; apply Ht.
Qed.
Lemma run_labelled w0 fuel s' : Forall (fun p => class_number nt (p_target p)) (ta_paths A) ->
  dtree_init A = Ok w0 -> tree_fit sv A clk X y fuel (new_estimator w0) = (s', Done tt) ->
  exists sel tree, tm_selected (tw_master (f_world s')) = Some sel /\ forms_tree u tree sel /\ Forall (tree_path (ta_depth A) (ta_splits A)) sel /\ Forall (labelled u nt) sel /\
    predicts A s' (fun xr => leaf_target sel (tree_leaf (ta_depth A) (ta_splits A) tree xr)).
Proof.
  intros Hl Ew Ef. destruct (outcome (labelled u nt) w0 fuel s') as (ops & cuts & s & x & sel & tree & Ha & _ & HG & Hx & Hi & El & Es & Ht & Hp & Hpr & Eo); auto.
  - apply Forall_map. eapply Forall_impl; [|exact Hl]. intros p H. left. exact H.
  - intros cuts dl p _ O. eapply offered_labelled; eauto. apply (tr_labels _ _ _ R).
  - intros c lf l p Hin _ Hf. left. destruct (spec_ok A X y R _ _ Hin) as (_ & l' & _ & _ & Hc). destruct Hf as [(t & v & ? & Ho' & Ht' & _)|(-> & _)].
    + rewrite Ht'. unfold class_number. assert (t < nt) by (destruct Hc as [[_ ->]|[_ (t' & -> & Hlt)]]; cbn in Ho'; subst; auto). lia.
    + exfalso. destruct Hc as [[_ Hc]|[_ (t' & Hc & _)]]; discriminate.
  - exists sel, tree. auto.
Qed.
End Outcome.

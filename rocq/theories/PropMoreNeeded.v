(** C90_no_worse: why it asks that the selected paths promise what they classify. *)
From Verif Require Import Base Lp LpProofs SpecDual DualProofs LpCheck LpBrute FitModel SpecFit FitMainProofs FitHoareProofs SolveModel SolveObs TreeModel TreePricingModel TreeFitModel SpecTree
  SpecTreeRun SpecTreeLp SpecTreePrice SpecTreeMip SpecTreeFit SpecTreeTrain SpecTreeResult TreeCheck TreeHonestProofs TreeResultProofs ExpMainModel PropTreeLp PropTreePrice PropTreeCert PropTreeFit PropTreeTrain PropTreeResult SpecMore PropMore.
Open Scope nat_scope.

(** CP-SAT reports the listed points, by number of the call, where they are feasible. *)
Definition reports (said : nat -> list (list bool)) (k : nat) (st : settings) (m : lp) : answer * list (nat -> Q) :=
  (mkAnswer OPTIMAL 1 0 0, map bit_point (filter (fun bs => feasibleb m (bit_point bs)) (said k))).
Definition reporting (pi : nat -> nat -> Q) (draw : nat) (said : nat -> list (list bool)) : fsolvers :=
  let e := stepping pi in mkFsv (fs_tree e) (fun _ _ => draw) (fs_order e) (fs_streams e) (reports said) (fs_mip e).
Lemma reporting_honest u pi draw said : valid_setup u -> honest u (reporting pi draw said).
Proof.
  intros V. destruct (stepping_honest u pi V) as [H1 H2 H3 H4 H5 H6]. constructor; auto.
  intros k st m. split; [|unfold zero_gap_failure; cbn; intuition discriminate]. cbn [fs_sat reporting reports snd]. apply Forall_forall. intros x Hx. apply in_map_iff in Hx.
  destruct Hx as (bs & <- & Hb). apply filter_In in Hb. split; [apply feasibleb_ok, Hb|]. intros j v _ _. unfold bit_point. destruct (nth j bs false); [exists 1%Z|exists 0%Z]; reflexivity.
Qed.
Lemma reporting_optimal u pi draw said : valid_setup u -> optimal_selection u (reporting pi draw said).
Proof. intros V. exact (stepping_optimal u pi V). Qed.

(** Four rows 0, 1, 2, 3 of classes 0, 0, 0, 1; thresholds 2.5 and 1.5.  In the first iteration CP-SAT reports the path to the left of 2.5 with class 0 and counts
    one of its three rows; in the second it reports the path to the left of 1.5 with class 0 and counts both of its rows. *)
Definition p_X : list sample := [[0]; [1]; [2]; [3]]%Q.
Definition p_y : list nat := [0; 0; 0; 1].
Definition p_args : targs :=
  mkTargs [mkPath 0 [0] [0] 0 0 1 false; mkPath 1 [0] [0] 0 0 0 false; mkPath 1 [0] [1] 0 0 2 false] (complete_leaves 1) ex1_nodes
    [mkSplit 0 0 (5 # 2) false [0; 1; 2] [3] [] []; mkSplit 1 0 (3 # 2) false [0; 1] [2; 3] [] []] 1 [0; 1; 2]%Z (-1) (-1) 3 false true None false.
Definition p_duals (i j : nat) : Q := if j =? 0 then (if i =? 0 then 0%Q else 1%Q) else if j =? 1 then 5%Q else 0%Q.
Definition p_said (k : nat) : list (list bool) :=
  if k =? 1 then [[true; true; false; true; false; true; false; false; true; false; true; false; false]]
  else if k =? 3 then [[true; true; true; true; false; false; false; false; false; true; true; false; false]] else [].
Definition p_sv : fsolvers := reporting p_duals 1 p_said.
Definition p_run (m : Z) : option (fstate tworld tduals path) :=
  match dtree_init p_args with
  | Ok w => match tree_fit p_sv (args_limits p_args m (-1)) ticks p_X p_y 9 (new_estimator w) with (s, Done tt) => Some s | _ => None end
  | Err _ => None end.
Lemma p_run_fit m s : p_run m = Some s -> exists w, dtree_init p_args = Ok w /\ tree_fit p_sv (args_limits p_args m (-1)) ticks p_X p_y 9 (new_estimator w) = (s, Done tt).
Proof.
  unfold p_run. destruct (dtree_init p_args) as [w|]; [|discriminate]. intros H. exists w. split; auto.
  destruct (tree_fit _ _ _ _ _ _ _) as [s1 [[]| | ]]; congruence.
Qed.
Lemma p_trainable : trainable p_args p_X p_y.
Proof.
  constructor.
  - reflexivity.
  - apply valid_setup_ok; [vm_compute|]; reflexivity.
  - apply data_okb_ok. vm_compute. reflexivity.
  - intros rows r dr E. discriminate.
  - apply Permutation_refl.
  - repeat constructor.
  - exists 0, 1. cbn. intuition discriminate.
  - apply proper_pathb_ok. vm_compute. reflexivity.
  - exists (fun _ => 0), [mkPath 0 [0] [0] 0 0 1 false; mkPath 1 [0] [0] 0 0 0 false]. split; [|split; [|split]].
    + intros p [<-|[<-|[]]]; cbn; auto.
    + intros n nd Hn E. cbn in Hn. assert (n = 0) by lia. subst n. injection E as <-. left. reflexivity.
    + apply Permutation_refl.
    + repeat constructor; intros n k [H|[]]; injection H as <- <-; reflexivity.
Qed.

(** All hypotheses of C90_no_worse hold and every initial path promises what it classifies; still the score on the training data is lower with two iterations than
    with one. *)
Theorem C90_promise_needed : exists A X y sv clk w0 m m' q fuel t t' w pred pred' v v',
  iterations_allowed m m' /\ dtree_init A = Ok w0 /\ trainable A X y /\ honest (fit_setup A X y) sv /\ optimal_selection (fit_setup A X y) sv /\
  data_weight (fit_setup A X y) w /\ Forall (counts_rows (fit_setup A X y) w) (ta_paths A) /\
  tree_fit sv (args_limits A m q) clk X y fuel (new_estimator w0) = (t, Done tt) /\ tree_fit sv (args_limits A m' q) clk X y fuel (new_estimator w0) = (t', Done tt) /\
  tree_predict A [0; 1; 2] t X = Ok pred /\ tree_predict A [0; 1; 2] t' X = Ok pred' /\ score pred y = Ok v /\ score pred' y = Ok v' /\ (v' < v)%Q.
Proof.
  assert (H : match p_run 1 with Some s => tree_predict p_args [0; 1; 2] s p_X = Ok [0; 0; 0; 0] | None => False end) by (vm_compute; reflexivity).
  assert (H' : match p_run 2 with Some s => tree_predict p_args [0; 1; 2] s p_X = Ok [0; 0; 2; 2] | None => False end) by (vm_compute; reflexivity).
  destruct (p_run 1) as [s|] eqn:E; [|destruct H]. destruct (p_run 2) as [s'|] eqn:E'; [|destruct H'].
  destruct (p_run_fit 1 s E) as (w & Ew & Ef). destruct (p_run_fit 2 s' E') as (w' & Ew' & Ef'). rewrite Ew in Ew'. injection Ew' as <-.
  pose proof (tr_setup _ _ _ p_trainable) as V.
  exists p_args, p_X, p_y, p_sv, ticks, w, 1%Z, 2%Z, (-1)%Q, 9, s, s', (fun _ => 1%Q), [0; 0; 0; 0], [0; 0; 2; 2]. do 2 eexists.
  split; [right; lia|]. split; [exact Ew|]. split; [exact p_trainable|]. split; [apply reporting_honest; exact V|]. split; [apply reporting_optimal; exact V|].
  split; [intros r; split; [reflexivity|unfold active; cbn; tauto]|]. split; [apply countsb_ok; vm_compute; reflexivity|].
  split; [exact Ef|]. split; [exact Ef'|]. split; [exact H|]. split; [exact H'|]. split; [reflexivity|]. split; [reflexivity|]. vm_compute. reflexivity.
Qed.
Print Assumptions C90_promise_needed.

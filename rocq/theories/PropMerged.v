(** C94, continued: rows with weights.  Merging equal rows into one row with their total weight changes nothing. *)
From Verif Require Import Base Lp LpProofs SpecDual DualProofs LpCheck LpBrute FitModel SpecFit FitMainProofs FitHoareProofs SolveModel SolveObs TreeModel TreePricingModel TreeFitModel SpecTree
  SpecTreeRun SpecTreeLp SpecTreePrice SpecTreeMip SpecTreeFit SpecTreeTrain SpecTreeResult TreeCheck TreeGeoProofs TreePathProofs TreeLpBuild TreeBuildProofs TreeInvProofs TreeMasterProofs TreeFormProofs
  TreeSolProofs TreeLpProofs TreeHonestProofs TreePriceProofs TreeHeurProofs TreeFedProofs TreeTrainProofs TreeTrainInvProofs TreeTrainCertProofs TreeResultProofs TreeOutcomeProofs
  PropTreeLp PropTreePrice PropTreeCert PropTreeFit PropTreeTrain PropTreeResult SpecMore MoreProofs PropMore.
From Verif Require Import SpecSubset PropSubset.
Open Scope nat_scope.

Lemma moved_weight A A' X y w X' y' w' tree label v : length y = length X -> length y' = length X' -> ta_depth A = ta_depth A' ->
  weight_moved (ta_splits A) X y w (ta_splits A') X' y' w' ->
  correct_weight (fit_setup A X y) w (fun xr => label (tree_leaf (ta_depth A) (ta_splits A) tree xr)) v ->
  exists v', correct_weight (fit_setup A' X' y') w' (fun xr => label (tree_leaf (ta_depth A') (ta_splits A') tree xr)) v' /\ (v <= v')%Q.
Proof.
  intros Hl Hl' Ed (t & Ht & Hout & Hin & Hsame) Hv.
  set (code := fun xr => label (tree_leaf (ta_depth A) (ta_splits A) tree xr)) in *.
  set (code' := fun xr => label (tree_leaf (ta_depth A') (ta_splits A') tree xr)).
  eexists. split; [apply correct_sum; reflexivity|]. apply correct_sum in Hv. rewrite Hv. cbn [fit_setup su_X].
  set (ok := correct (fit_setup A X y) code). set (ok' := correct (fit_setup A' X' y') code').
  apply Qle_trans with (qsum (fun r => qsum (fun r' => if ok r then t r r' else 0%Q) (seq 0 (length X'))) (seq 0 (length X))).
  { apply qsum_le. intros r Hr. apply in_seq in Hr. destruct (ok r).
    - rewrite (Hout r) by lia. apply Qle_refl.
    - apply qsum_nonneg. intros; lra. }
  rewrite qsum_swap. apply qsum_le. intros r' Hr'. apply in_seq in Hr'.
  apply Qle_trans with (qsum (fun r => if ok' r' then t r r' else 0%Q) (seq 0 (length X))).
  - apply qsum_le. intros r Hr. apply in_seq in Hr. pose proof (Ht r r') as Hp. destruct (ok r) eqn:E1; destruct (ok' r') eqn:E2; try lra.
    destruct (Qlt_le_dec 0 (t r r')) as [L|L]; [|exact L]. exfalso. unfold ok, ok', correct in E1, E2. cbn [fit_setup su_X] in E1, E2.
    destruct (nth_error X r) as [x|] eqn:Ex; [|discriminate]. apply hit_iff in E1. destruct E1 as (c & Ey & Ec). cbn [fit_setup su_y] in Ey.
    destruct (nth_error X' r') as [x'|] eqn:Ex'; [|apply nth_error_None in Ex'; lia].
    destruct (nth_error y' r') as [c'|] eqn:Ey'; [|apply nth_error_None in Ey'; lia].
    destruct (Hsame r r' x c x' c' L Ex Ey Ex' Ey') as (-> & Hg).
    assert (H : hit (fit_setup A' X' y') r' (code' x') = true).
    { apply hit_iff. exists c'. split; [exact Ey'|]. rewrite <- Ec. unfold code, code'. f_equal. rewrite Ed. symmetry. apply leaf_same. exact Hg. }
    congruence.
  - destruct (ok' r'); [apply Hin; lia|]. rewrite qsum_zero by reflexivity. apply Qle_refl.
Qed.

(** The weight estimator [A] classifies correctly on (X, y) is bounded by the last dual objective of every training of [A'] on (X', y') that
    found no more columns, if the weight can be moved from (X, y) to (X', y'). *)
Theorem C94_weights_bounded : forall A A' X y X' y' w w' s s' sv' clk' w0' fuel' x pi tau g, fewer_choices A A' -> trained A X y s ->
  dtree_init A' = Ok w0' -> trainable A' X' y' -> honest (fit_setup A' X' y') sv' -> gap_pricing sv' g ->
  tree_fit sv' A' clk' X' y' fuel' (new_estimator w0') = (s', Done tt) -> f_optimal s' = true ->
  tm_answer (tw_master (f_world s')) = Some (x, pi) -> near_dual (tm_lp (tw_master (f_world s'))) pi tau -> training_weight A' (fit_setup A' X' y') w' ->
  weight_moved (ta_splits A) X y w (ta_splits A') X' y' w' ->
  exists code, predicts A s code /\ forall v, correct_weight (fit_setup A X y) w code v ->
    (v <= dual_value (tm_lp (tw_master (f_world s'))) pi + inject_Z (Z.of_nat (2 ^ ta_depth A')) * (slack A' X' (tw_master (f_world s')) + leaf_gap A' g)
          + inject_Z (Z.of_nat (2 ^ ta_depth A' - 1)) * tau)%Q.
Proof.
  intros A A' X y X' y' w w' s s' sv' clk' w0' fuel' x pi tau g Hf (sv & clk & w0 & fuel & Ew & R & Ho & Ef) Ew' R' Ho' Hx' Ef' Hopt Ea K W Hs.
  destruct (outcome A X y sv clk R Ho (fun _ => True) w0 fuel s) as (ops & cuts & s1 & x1 & sel & tree & _ & _ & _ & _ & _ & _ & _ & Ht & _ & Hpr & _); auto.
  { apply Forall_forall. auto. }
  eexists. split; [exact Hpr|]. intros v Hv. destruct Ht as (T1 & _). cbn [fit_setup su_depth su_nodes] in T1.
  pose proof (choices_over A A' tree Hf T1) as T1'. pose proof (tr_data _ _ _ R) as (Hl & _). pose proof (tr_data _ _ _ R') as (Hl' & _). cbn [fit_setup su_X su_y] in Hl, Hl'.
  destruct (moved_weight A A' X y w X' y' w' tree (leaf_target sel) v Hl Hl' (proj1 Hf) Hs Hv) as (v' & Hv' & Hle).
  pose proof (C66_any_duals A' X' y' sv' clk' w0' fuel' s' x pi tau g w' Ew' R' Ho' Hx' Ef' Hopt Ea K W tree (leaf_target sel) v' T1' Hv'). lra.
Qed.
Print Assumptions C94_weights_bounded.

(** Training [A] on (X, y) and a closed training of [A'] on (X', y'), where the weight can be moved from (X, y) to (X', y'). *)
Theorem C94_weights_unbeaten : forall A A' X y X' y' w w' s s', fewer_choices A A' -> trained A X y s -> trained_closed A' X' y' w' s' ->
  weight_moved (ta_splits A) X y w (ta_splits A') X' y' w' ->
  exists code code' v', predicts A s code /\ predicts A' s' code' /\ correct_weight (fit_setup A' X' y') w' code' v' /\
    forall v, correct_weight (fit_setup A X y) w code v -> (v <= v')%Q.
Proof.
  intros A A' X y X' y' w w' s s' Hf (sv & clk & w0 & fuel & Ew & R & Ho & Ef)
    (sv' & clk' & w0' & fuel' & x & pi & sel & Ew' & R' & Ho' & Hx' & TW & W & H1 & Hc & Ef' & Hopt & Ea & K & Esel & Hgap) Hs.
  destruct (outcome A X y sv clk R Ho (fun _ => True) w0 fuel s) as (ops & cuts & s1 & x1 & sel1 & tree & _ & _ & _ & _ & _ & _ & _ & Ht & _ & Hpr & _); auto.
  { apply Forall_forall. auto. }
  destruct (C67_gap A' X' y' sv' clk' w0' fuel' s' w' x pi sel Ew' R' Ho' Hx' TW W H1 Hc Ef' Hopt Ea K Esel) as (code' & v' & Hp' & Hv' & HB).
  eexists _, code', v'. split; [exact Hpr|]. split; [exact Hp'|]. split; [exact Hv'|]. intros v Hv. destruct Ht as (T1 & _). cbn [fit_setup su_depth su_nodes] in T1.
  pose proof (choices_over A A' tree Hf T1) as T1'. pose proof (tr_data _ _ _ R) as (Hl & _). pose proof (tr_data _ _ _ R') as (Hl' & _). cbn [fit_setup su_X su_y] in Hl, Hl'.
  destruct (moved_weight A A' X y w X' y' w' tree (leaf_target sel1) v Hl Hl' (proj1 Hf) Hs Hv) as (v2 & Hv2 & Hle).
  specialize (HB tree (leaf_target sel1) v2 T1' Hv2). apply Qle_trans with v2; [exact Hle|].
  destruct (correct_whole _ _ _ _ W Hv2) as [n E1]. destruct (correct_whole _ _ _ _ W Hv') as [n' E2]. rewrite E1, E2 in *.
  rewrite <- Zle_Qle. apply whole_le. lra.
Qed.
Print Assumptions C94_weights_unbeaten.

(** Merged rows: two estimators with the same candidates are trained on data sets between which the weight can be moved both ways (rows
    merged into weights, or copied), and both close their gaps: they classify the same weight correctly. *)
Theorem C94_merged_rows : forall A A' X y X' y' w w' s s', fewer_choices A A' -> fewer_choices A' A -> trained_closed A X y w s -> trained_closed A' X' y' w' s' ->
  weight_moved (ta_splits A) X y w (ta_splits A') X' y' w' -> weight_moved (ta_splits A') X' y' w' (ta_splits A) X y w ->
  exists code code' v v', predicts A s code /\ predicts A' s' code' /\ correct_weight (fit_setup A X y) w code v /\ correct_weight (fit_setup A' X' y') w' code' v' /\ (v == v')%Q.
Proof.
  intros A A' X y X' y' w w' s s' Hf Hf' HC HC' Hs Hs'.
  assert (T : forall B U z om t, trained_closed B U z om t -> trained B U z t /\ trainable B U z).
  { intros B U z om t (sv & clk & w0 & fuel & x & pi & sel & H1 & H2 & H3 & _ & _ & _ & _ & _ & H4 & _). split; [exists sv, clk, w0, fuel; auto|exact H2]. }
  destruct (T _ _ _ _ _ HC) as (HT & R). destruct (T _ _ _ _ _ HC') as (HT' & R').
  destruct (C94_weights_unbeaten A A' X y X' y' w w' s s' Hf HT HC' Hs) as (c1 & c1' & v' & P1 & P1' & W1 & L1).
  destruct (C94_weights_unbeaten A' A X' y' X y w' w s' s Hf' HT' HC Hs') as (c2' & c2 & v & P2' & P2 & W2 & L2).
  exists c2, c1', v, v'. split; [exact P2|]. split; [exact P1'|]. split; [exact W2|]. split; [exact W1|].
  apply Qle_antisym; [apply L1; apply (predicts_weight A s X y w c2)|apply L2; apply (predicts_weight A' s' X' y' w' c1')]; auto.
Qed.
Print Assumptions C94_merged_rows.

(** Rows 2 and 3 are equal.  In the second training row 3 is removed and row 2 has weight 2, as the preprocessing of the experiment does it. *)
Definition ex2_X : list sample := [[0]; [1]; [2]; [2]]%Q.
Definition ex2_y : list nat := [0; 1; 0; 0].
Definition ex2_rows : list row := [new_row; new_row; mkRow [] [] [] [] [] false false 2; mkRow [] [] [] [] [] true true 0].
Definition ex2_args (rows : option (list row)) (old : bool) : targs :=
  mkTargs [mkPath 0 [0] [1] 1 0 0 false; mkPath 1 [0] [1] 2 0 0 false] (complete_leaves 1) ex1_nodes
    [mkSplit 0 0 (1 # 2) false [0] [1; 2; 3] [] []; mkSplit 1 0 (3 # 2) false [0; 1] [2; 3] [] []] 1 [0; 1]%Z (-1) (-1) 3 false true rows old.
Definition ex2_x (j : nat) : Q := if memb j [0; 1; 3] then 1%Q else 0%Q.
Definition ex2_pi (i : nat) : Q := if i =? 0 then 1%Q else if i =? 1 then 2%Q else 0%Q.
Definition ex2_run (rows : option (list row)) (old : bool) : option (fstate tworld tduals path) :=
  match dtree_init (ex2_args rows old) with
  | Ok w => match tree_fit (enumerating ex2_x ex2_pi) (ex2_args rows old) (fun _ => 0%Q) ex2_X ex2_y 3 (new_estimator w) with (s, Done tt) => Some s | _ => None end
  | Err _ => None end.
Definition ex2_w (rows : option (list row)) (r : nat) : Q := match rows with None => 1%Q | Some l => match nth_error l r with Some dr => inject_Z (Z.of_nat (r_weight dr)) | None => 0%Q end end.
Lemma ex2_trainable rows old : rows = None \/ rows = Some ex2_rows -> trainable (ex2_args rows old) ex2_X ex2_y.
Proof.
  intros Hr. assert (V : valid_setup (fit_setup (ex2_args None old) ex2_X ex2_y)) by (apply valid_setup_ok; [vm_compute|]; reflexivity). constructor.
  - reflexivity.
  - destruct V as (V1 & V2 & _). split; [exact V1|]. split; [exact V2|]. destruct Hr as [->| ->]; cbn; [exact I|]. split; [reflexivity|repeat constructor].
  - apply data_okb_ok. vm_compute. reflexivity.
  - intros l r dr E. cbn in E. destruct Hr as [->| ->]; [discriminate|]. injection E as <-. destruct r as [|[|[|[|r]]]]; cbn; intros H; try (injection H as <-; cbn; congruence). destruct r; discriminate.
  - apply Permutation_refl.
  - repeat constructor.
  - exists 0, 1. cbn. intuition discriminate.
  - apply proper_pathb_ok. vm_compute. reflexivity.
  - exists (fun _ => 1), (ta_paths (ex2_args rows old)). split; [intros p Hp; exact Hp|]. split; [|split].
    + intros n nd Hn E. cbn in Hn. assert (n = 0) by lia. subst n. injection E as <-. right. left. reflexivity.
    + apply Permutation_refl.
    + repeat constructor; intros n k [H|[]]; injection H as <- <-; reflexivity.
Qed.
Definition ex2_run_okb (rows : option (list row)) (old : bool) : Prop :=
  match ex2_run rows old with
  | Some s => f_optimal s = true /\ tm_answer (tw_master (f_world s)) = Some (ex2_x, ex2_pi) /\ kktb (tm_lp (tw_master (f_world s))) ex2_x ex2_pi = true /\
      match tm_selected (tw_master (f_world s)) with
      | Some sel => Qeq_bool (objective_value (tm_lp (tw_master (f_world s))) ex2_x - qsum p_cost sel) 0 = true | None => False end /\
      tm_cut_cons (tw_master (f_world s)) = [] /\ tree_predict (ex2_args rows old) [0; 1] s ex2_X = Ok [0; 0; 0; 0]
  | None => False end.
Lemma ex2_run_none : ex2_run_okb None true.
Proof. vm_compute. repeat split. Qed.
Lemma ex2_run_some : ex2_run_okb (Some ex2_rows) false.
Proof. vm_compute. repeat split. Qed.
Lemma ex2_closed rows old s : (rows = None /\ old = true) \/ (rows = Some ex2_rows /\ old = false) -> ex2_run_okb rows old -> ex2_run rows old = Some s ->
  trained_closed (ex2_args rows old) ex2_X ex2_y (ex2_w rows) s.
Proof.
  intros Hro H Er. unfold ex2_run_okb in H. rewrite Er in H. destruct H as (H1 & H2 & H3 & Eg & Hcut & _).
  assert (Hr : rows = None \/ rows = Some ex2_rows) by (destruct Hro as [(-> & _)|(-> & _)]; auto).
  destruct (tm_selected (tw_master (f_world s))) as [sel|] eqn:Es; [|destruct Eg]. apply Qeq_bool_iff in Eg.
  assert (Hf : exists w, dtree_init (ex2_args rows old) = Ok w /\ tree_fit (enumerating ex2_x ex2_pi) (ex2_args rows old) (fun _ => 0%Q) ex2_X ex2_y 3 (new_estimator w) = (s, Done tt)).
  { unfold ex2_run in Er. destruct (dtree_init (ex2_args rows old)) as [w|]; [|discriminate]. exists w. split; auto. destruct (tree_fit _ _ _ _ _ _ _) as [s1 [[]| | ]]; congruence. }
  destruct Hf as (w & Ew & Ef).
  assert (W : data_weight (fit_setup (ex2_args rows old) ex2_X ex2_y) (ex2_w rows)).
  { intros r. unfold active, row_weight. cbn [su_rows fit_setup ta_rows ex2_args]. destruct Hr as [->| ->]; cbn [ex2_w]; [split; [reflexivity|tauto]|].
    destruct r as [|[|[|[|[|r]]]]]; cbn; (split; [reflexivity|]); intros Hn; try reflexivity; exfalso; apply Hn; eexists; split; reflexivity. }
  exists (enumerating ex2_x ex2_pi), (fun _ => 0%Q), w, 3, ex2_x, ex2_pi, sel. split; [exact Ew|]. split; [apply ex2_trainable; exact Hr|].
  split; [apply enumerating_honest; apply (tr_setup _ _ _ (ex2_trainable rows old Hr))|]. split; [apply enumerating_exact|].
  split. { destruct Hro as [(-> & ->)|(-> & ->)]; exact W. }
  split; [exact W|].
  split. { intros Eo r _. destruct Hro as [(-> & _)|(_ & ->)]; [cbn; lia|discriminate Eo]. }
  split; [apply countsb_ok; destruct Hr as [->| ->]; vm_compute; reflexivity|]. split; [exact Ef|]. split; [exact H1|]. split; [exact H2|].
  split; [apply kktb_ok; exact H3|]. split; [exact Es|].
  rewrite Eg. unfold slack, pricing_vars, teps. rewrite Hcut. change (ta_old (ex2_args rows old)) with old.
  change (inject_Z (Z.of_nat (2 ^ ta_depth (ex2_args rows old)))) with 2%Q. destruct Hro as [(-> & ->)|(-> & ->)]; [lra|].
  match goal with |- context [inject_Z (Z.of_nat ?n)] => let k := eval vm_compute in (inject_Z (Z.of_nat n)) in change (inject_Z (Z.of_nat n)) with k end. lra.
Qed.

Lemma ex2_facts rows old : (rows = None /\ old = true) \/ (rows = Some ex2_rows /\ old = false) -> ex2_run_okb rows old ->
  exists s, trained_closed (ex2_args rows old) ex2_X ex2_y (ex2_w rows) s /\ tree_predict (ex2_args rows old) [0; 1] s ex2_X = Ok [0; 0; 0; 0].
Proof.
  intros Hro H. pose proof (ex2_closed rows old) as C. pose proof H as H0. unfold ex2_run_okb in H0. destruct (ex2_run rows old) as [s|] eqn:Er; [|destruct H0].
  exists s. split; [apply C; auto|]. destruct H0 as (_ & _ & _ & _ & _ & Hp). exact Hp.
Qed.

(** Row 3 gives its weight to row 2; row 2 gives half of its weight 2 back. *)
Definition ex2_merge (r r' : nat) : Q := if (if r =? 3 then 2 else r) =? r' then 1%Q else 0%Q.
Example C94_case_merged : exists s s', fewer_choices (ex2_args None true) (ex2_args (Some ex2_rows) false) /\ fewer_choices (ex2_args (Some ex2_rows) false) (ex2_args None true) /\
  trained_closed (ex2_args None true) ex2_X ex2_y (ex2_w None) s /\ trained_closed (ex2_args (Some ex2_rows) false) ex2_X ex2_y (ex2_w (Some ex2_rows)) s' /\
  weight_moved (ta_splits (ex2_args None true)) ex2_X ex2_y (ex2_w None) (ta_splits (ex2_args (Some ex2_rows) false)) ex2_X ex2_y (ex2_w (Some ex2_rows)) /\
  weight_moved (ta_splits (ex2_args (Some ex2_rows) false)) ex2_X ex2_y (ex2_w (Some ex2_rows)) (ta_splits (ex2_args None true)) ex2_X ex2_y (ex2_w None) /\
  map (ex2_w None) [0; 1; 2; 3] = [1; 1; 1; 1]%Q /\ map (ex2_w (Some ex2_rows)) [0; 1; 2; 3] = [1; 1; 2; 0]%Q /\
  tree_predict (ex2_args None true) [0; 1] s ex2_X = Ok [0; 0; 0; 0] /\ tree_predict (ex2_args (Some ex2_rows) false) [0; 1] s' ex2_X = Ok [0; 0; 0; 0].
Proof.
  destruct (ex2_facts None true (or_introl (conj eq_refl eq_refl)) ex2_run_none) as (s & C & Hp).
  destruct (ex2_facts (Some ex2_rows) false (or_intror (conj eq_refl eq_refl)) ex2_run_some) as (s' & C' & Hp').
  exists s, s'. split; [apply ex1_choices; reflexivity|]. split; [apply ex1_choices; reflexivity|]. split; [exact C|]. split; [exact C'|].
  assert (Same : forall r r' x c x' c', r < 4 -> r' < 4 -> (if r =? 3 then 2 else r) = (if r' =? 3 then 2 else r') -> nth_error ex2_X r = Some x -> nth_error ex2_y r = Some c ->
    nth_error ex2_X r' = Some x' -> nth_error ex2_y r' = Some c' -> c = c' /\ x = x').
  { intros r r' x c x' c' Hr Hr' E E1 E2 E3 E4. destruct r as [|[|[|[|r]]]]; [| | | |lia]; (destruct r' as [|[|[|[|r']]]]; [| | | |lia]); cbn in E; try discriminate E;
      cbn in E1, E2, E3, E4; injection E1 as <-; injection E2 as <-; injection E3 as <-; injection E4 as <-; split; reflexivity. }
  assert (Lt : forall r x, nth_error ex2_X r = Some x -> r < 4) by (intros r x E; change 4 with (length ex2_X); apply nth_error_Some; congruence).
  split; [|split; [|split; [reflexivity|split; [reflexivity|split; [exact Hp|exact Hp']]]]].
  - exists ex2_merge. split; [intros r r'; unfold ex2_merge; destruct (_ =? r'); lra|]. split; [|split].
    + change (length ex2_X) with 4. intros [|[|[|[|r]]]] Hr; try lia; vm_compute; reflexivity.
    + change (length ex2_X) with 4. intros [|[|[|[|r]]]] Hr; try lia; vm_compute; discriminate.
    + intros r r' x c x' c' Ht E1 E2 E3 E4. unfold ex2_merge in Ht. destruct (Nat.eqb_spec (if r =? 3 then 2 else r) r') as [E|E]; [|lra].
      assert (E5 : (if r =? 3 then 2 else r) = (if r' =? 3 then 2 else r')). { rewrite <- E. destruct (Nat.eqb_spec r 3); [reflexivity|]. destruct (Nat.eqb_spec r 3); [contradiction|reflexivity]. }
      destruct (Same r r' x c x' c' (Lt _ _ E1) (Lt _ _ E3) E5 E1 E2 E3 E4) as (-> & ->). split; [reflexivity|]. intros k. reflexivity.
  - exists (fun r r' => ex2_merge r' r). split; [intros r r'; unfold ex2_merge; destruct (_ =? r); lra|]. split; [|split].
    + change (length ex2_X) with 4. intros [|[|[|[|r]]]] Hr; try lia; vm_compute; reflexivity.
    + change (length ex2_X) with 4. intros [|[|[|[|r]]]] Hr; try lia; vm_compute; discriminate.
    + intros r r' x c x' c' Ht E1 E2 E3 E4. unfold ex2_merge in Ht. destruct (Nat.eqb_spec (if r' =? 3 then 2 else r') r) as [E|E]; [|lra].
      assert (E5 : (if r =? 3 then 2 else r) = (if r' =? 3 then 2 else r')). { rewrite <- E. destruct (Nat.eqb_spec r' 3); [reflexivity|]. destruct (Nat.eqb_spec r' 3); [contradiction|reflexivity]. }
      destruct (Same r r' x c x' c' (Lt _ _ E1) (Lt _ _ E3) E5 E1 E2 E3 E4) as (-> & ->). split; [reflexivity|]. intros k. reflexivity.
Qed.

(** C94: tree trainings on parts of the data, and on the data in another order. *)
From Verif Require Import Base Lp LpProofs SpecDual DualProofs LpCheck LpBrute FitModel SpecFit FitMainProofs FitHoareProofs SolveModel SolveObs TreeModel TreePricingModel TreeFitModel SpecTree
  SpecTreeRun SpecTreeLp SpecTreePrice SpecTreeMip SpecTreeFit SpecTreeTrain SpecTreeResult TreeCheck TreeGeoProofs TreePathProofs TreeLpBuild TreeBuildProofs TreeInvProofs TreeMasterProofs TreeFormProofs
  TreeSolProofs TreeLpProofs TreeHonestProofs TreePriceProofs TreeHeurProofs TreeFedProofs TreeTrainProofs TreeTrainInvProofs TreeTrainCertProofs TreeResultProofs TreeOutcomeProofs
  PropTreeLp PropTreePrice PropTreeCert PropTreeFit PropTreeTrain PropTreeResult SpecMore MoreProofs PropMore.
From Verif Require Import SpecSubset.
Open Scope nat_scope.

Lemma choices_over A A' tree : fewer_choices A A' -> tree_over (ta_depth A) (ta_nodes A) tree -> tree_over (ta_depth A') (ta_nodes A') tree.
Proof.
  intros (Ed & H) Ht n nd' Hn E. destruct (H n nd' E) as (nd & En & Hi). apply Hi. apply (Ht n nd); [rewrite Ed; exact Hn|exact En].
Qed.
Lemma route_same f g d : (forall n, f n = g n) -> forall i, route d f i = route d g i.
Proof. intros H. induction d as [|d IH]; intros i; cbn [route]; [reflexivity|]. rewrite H. apply IH. Qed.
Lemma leaf_same d splits splits' tree x x' : (forall k, goes_left splits x k = goes_left splits' x' k) -> tree_leaf d splits tree x = tree_leaf d splits' tree x'.
Proof. intros H. unfold tree_leaf, leaf_reached. rewrite (route_same _ (fun n => goes_left splits' x' (tree n))); auto. Qed.
Lemma qsum_part (f : nat -> Q) l m : NoDup l -> incl l m -> (forall a, In a m -> (0 <= f a)%Q) -> (qsum f l <= qsum f m)%Q.
Proof.
  revert m. induction l as [|a l IH]; intros m Hn Hi Hf; [apply qsum_nonneg; auto|]. inversion Hn as [|? ? Ha Hn']; subst.
  destruct (in_split a m (Hi a (or_introl eq_refl))) as (m1 & m2 & ->). rewrite qsum_cons, qsum_app, qsum_cons.
  assert (H : (qsum f l <= qsum f (m1 ++ m2))%Q).
  { apply IH; [exact Hn'| |].
    - intros b Hb. specialize (Hi b (or_intror Hb)). apply in_app_or in Hi. apply in_or_app. destruct Hi as [Hi|[->|Hi]]; auto. contradiction.
    - intros b Hb. apply Hf. apply in_app_or in Hb. apply in_or_app. destruct Hb; [left|right; right]; auto. }
  rewrite qsum_app in H. lra.
Qed.
Lemma weight_pos A u w : training_weight A u w -> forall r, (0 <= w r)%Q.
Proof.
  intros W r. destruct (W r) as (H1 & H2). assert (D : active u r \/ ~ active u r).
  { unfold active. destruct (su_rows u) as [l|]; [|left; exact I]. destruct (nth_error l r) as [dr|]; [|right; intros (d & E & _); discriminate].
    destruct (r_gone_sp dr) eqn:E; [right; intros (d & E1 & E2); congruence|left; eauto]. }
  destruct D as [D|D]; [rewrite (H1 D)|rewrite (H2 D); lra]. destruct (ta_old A); [lra|]. change 0%Q with (inject_Z 0). rewrite <- Zle_Qle. lia.
Qed.
(** What a tree classifies correctly on a part of the data it classifies correctly on all of it. *)
Lemma part_weight A A' X y w X' y' w' tree label v : length y = length X -> ta_depth A = ta_depth A' ->
  subset_of (ta_splits A) X y w (ta_splits A') X' y' w' -> (forall r, (0 <= w' r)%Q) ->
  correct_weight (fit_setup A X y) w (fun xr => label (tree_leaf (ta_depth A) (ta_splits A) tree xr)) v ->
  exists v', correct_weight (fit_setup A' X' y') w' (fun xr => label (tree_leaf (ta_depth A') (ta_splits A') tree xr)) v' /\ (v <= v')%Q.
Proof.
  intros Hl Ed (h & Hinj & Hh) Hw (rs & Hn & Ev & Hrs).
  set (code' := fun xr => label (tree_leaf (ta_depth A') (ta_splits A') tree xr)).
  assert (Hc : exists v', correct_weight (fit_setup A' X' y') w' code' v') by (eexists; apply correct_sum; reflexivity).
  destruct Hc as (v' & Hv'). exists v'. split; [exact Hv'|]. destruct Hv' as (rs' & Hn' & Ev' & Hrs'). cbn [fit_setup su_X su_y] in *.
  assert (Hlt : forall r, In r rs -> r < length X). { intros r Hr. apply Hrs in Hr. destruct Hr as (x & c & Hx & _). apply nth_error_Some. congruence. }
  rewrite Ev, Ev'. apply Qle_trans with (qsum (fun r => w' (h r)) rs).
  - apply qsum_le. intros r Hr. apply Hrs in Hr. destruct Hr as (x & c & Hx & Hy & _). destruct (Hh r x c Hx Hy) as (_ & _ & _ & H & _). exact H.
  - rewrite <- qsum_map. apply qsum_part; auto.
    + clear -Hn Hinj Hlt. induction rs as [|r rs IH]; [constructor|]. inversion Hn as [|? ? Hr Hn']; subst. cbn [map]. constructor.
      * intros Hi. apply in_map_iff in Hi. destruct Hi as (r' & E & Hr'). apply Hr. rewrite (Hinj r r'); auto using in_eq, in_cons.
      * apply IH; auto using in_cons.
    + intros b Hb. apply in_map_iff in Hb. destruct Hb as (r & <- & Hr). apply Hrs in Hr. destruct Hr as (x & c & Hx & Hy & E).
      destruct (Hh r x c Hx Hy) as (x' & Hx' & Hy' & _ & Hg). apply Hrs'. exists x', c. split; [exact Hx'|]. split; [exact Hy'|].
      unfold code'. rewrite <- E. f_equal. rewrite Ed. symmetry. apply leaf_same. exact Hg.
Qed.

(** Estimator [A] is trained on a part (X, y) of the data (X', y').  What it classifies correctly there is bounded by the last dual
    objective of every training of [A'] on all of the data that found no more columns. *)
Theorem C94_bounds_parts : forall A A' X y X' y' w w' s s' sv' clk' w0' fuel' x pi tau g, fewer_choices A A' -> trained A X y s ->
  dtree_init A' = Ok w0' -> trainable A' X' y' -> honest (fit_setup A' X' y') sv' -> gap_pricing sv' g ->
  tree_fit sv' A' clk' X' y' fuel' (new_estimator w0') = (s', Done tt) -> f_optimal s' = true ->
  tm_answer (tw_master (f_world s')) = Some (x, pi) -> near_dual (tm_lp (tw_master (f_world s'))) pi tau -> training_weight A' (fit_setup A' X' y') w' ->
  subset_of (ta_splits A) X y w (ta_splits A') X' y' w' ->
  exists code, predicts A s code /\ forall v, correct_weight (fit_setup A X y) w code v ->
    (v <= dual_value (tm_lp (tw_master (f_world s'))) pi + inject_Z (Z.of_nat (2 ^ ta_depth A')) * (slack A' X' (tw_master (f_world s')) + leaf_gap A' g)
          + inject_Z (Z.of_nat (2 ^ ta_depth A' - 1)) * tau)%Q.
Proof.
  intros A A' X y X' y' w w' s s' sv' clk' w0' fuel' x pi tau g Hf (sv & clk & w0 & fuel & Ew & R & Ho & Ef) Ew' R' Ho' Hx' Ef' Hopt Ea K W Hs.
  destruct (outcome A X y sv clk R Ho (fun _ => True) w0 fuel s) as (ops & cuts & s1 & x1 & sel & tree & _ & _ & _ & _ & _ & _ & _ & Ht & _ & Hpr & _); auto.
  { apply Forall_forall. auto. }
  eexists. split; [exact Hpr|]. intros v Hv. destruct Ht as (T1 & _). cbn [fit_setup su_depth su_nodes] in T1.
  pose proof (choices_over A A' tree Hf T1) as T1'. pose proof (tr_data _ _ _ R) as (Hl & _). cbn [fit_setup su_X su_y] in Hl.
  destruct (part_weight A A' X y w X' y' w' tree (leaf_target sel) v Hl (proj1 Hf) Hs (weight_pos _ _ _ W) Hv) as (v' & Hv' & Hle).
  pose proof (C66_any_duals A' X' y' sv' clk' w0' fuel' s' x pi tau g w' Ew' R' Ho' Hx' Ef' Hopt Ea K W tree (leaf_target sel) v' T1' Hv'). lra.
Qed.
Print Assumptions C94_bounds_parts.

(** If the training of [A'] on all of the data closed its gap, [A'] classifies at least as much weight correctly on all of the data as
    [A] does on the part. *)
Theorem C94_parts_unbeaten : forall A A' X y X' y' w w' s s', fewer_choices A A' -> trained A X y s -> trained_closed A' X' y' w' s' ->
  subset_of (ta_splits A) X y w (ta_splits A') X' y' w' ->
  exists code code' v', predicts A s code /\ predicts A' s' code' /\ correct_weight (fit_setup A' X' y') w' code' v' /\
    forall v, correct_weight (fit_setup A X y) w code v -> (v <= v')%Q.
Proof.
  intros A A' X y X' y' w w' s s' Hf (sv & clk & w0 & fuel & Ew & R & Ho & Ef)
    (sv' & clk' & w0' & fuel' & x & pi & sel & Ew' & R' & Ho' & Hx' & TW & W & H1 & Hc & Ef' & Hopt & Ea & K & Esel & Hgap) Hs.
  destruct (outcome A X y sv clk R Ho (fun _ => True) w0 fuel s) as (ops & cuts & s1 & x1 & sel1 & tree & _ & _ & _ & _ & _ & _ & _ & Ht & _ & Hpr & _); auto.
  { apply Forall_forall. auto. }
  destruct (C67_gap A' X' y' sv' clk' w0' fuel' s' w' x pi sel Ew' R' Ho' Hx' TW W H1 Hc Ef' Hopt Ea K Esel) as (code' & v' & Hp' & Hv' & HB).
  eexists _, code', v'. split; [exact Hpr|]. split; [exact Hp'|]. split; [exact Hv'|]. intros v Hv. destruct Ht as (T1 & _). cbn [fit_setup su_depth su_nodes] in T1.
  pose proof (choices_over A A' tree Hf T1) as T1'. pose proof (tr_data _ _ _ R) as (Hl & _). cbn [fit_setup su_X su_y] in Hl.
  destruct (part_weight A A' X y w X' y' w' tree (leaf_target sel1) v Hl (proj1 Hf) Hs (weight_pos _ _ _ TW) Hv) as (v2 & Hv2 & Hle).
  specialize (HB tree (leaf_target sel1) v2 T1' Hv2). apply Qle_trans with v2; [exact Hle|].
  destruct (correct_whole _ _ _ _ W Hv2) as [n E1]. destruct (correct_whole _ _ _ _ W Hv') as [n' E2]. rewrite E1, E2 in *.
  rewrite <- Zle_Qle. apply whole_le. lra.
Qed.
Print Assumptions C94_parts_unbeaten.

Lemma decode_number z c : (z = Z.of_nat c) <-> decode (seq 0 (S c)) z = Ok c.
Proof.
  unfold decode. split.
  - intros ->. destruct (Z.ltb_spec (Z.of_nat c) 0) as [H|_]; [lia|]. rewrite Nat2Z.id. rewrite (nth_error_nth' _ 0) by (rewrite seq_length; lia). rewrite seq_nth by lia. reflexivity.
  - destruct (Z.ltb_spec z 0) as [H|H]; [discriminate|]. destruct (nth_error (seq 0 (S c)) (Z.to_nat z)) as [l|] eqn:E; [|discriminate]. intros Q. injection Q as ->.
    assert (Hl : Z.to_nat z < S c). { rewrite <- (seq_length (S c) 0). apply nth_error_Some. congruence. }
    apply (nth_error_nth _ _ 0) in E. rewrite seq_nth in E by exact Hl. lia.
Qed.
Lemma predicts_unique A s code code' x c : predicts A s code -> predicts A s code' -> fits (ta_splits A) x -> code x = Z.of_nat c -> code' x = Z.of_nat c.
Proof.
  intros H H' Hx E. pose proof (H _ (seq 0 (S c)) [x] (Forall_cons _ Hx (Forall_nil _))) as E1. rewrite (H' _ (seq 0 (S c)) [x] (Forall_cons _ Hx (Forall_nil _))) in E1.
  apply decode_number. apply decode_number in E. cbn [map_res] in E1. rewrite E in E1. destruct (decode (seq 0 (S c)) (code' x)); cbn in E1; congruence.
Qed.
Lemma predicts_weight A s X y w code code' v : trainable A X y -> predicts A s code -> predicts A s code' ->
  correct_weight (fit_setup A X y) w code v -> correct_weight (fit_setup A X y) w code' v.
Proof.
  intros R H H' (rs & Hn & Ev & Hrs). exists rs. split; [exact Hn|]. split; [exact Ev|]. intros r. rewrite (Hrs r).
  assert (F : forall x, nth_error (su_X (fit_setup A X y)) r = Some x -> fits (ta_splits A) x).
  { intros x Hx. pose proof (tr_setup _ _ _ R) as V. destruct V as (V & _). pose proof (wt_fits _ _ _ _ V) as F. rewrite Forall_forall in F. apply F. eapply nth_error_In. exact Hx. }
  split; intros (x & c & Hx & Hy & E); exists x, c; (split; [exact Hx|split; [exact Hy|]]); [apply (predicts_unique A s code)|apply (predicts_unique A s code')]; auto.
Qed.

(** Two estimators with the same candidates are trained on the same rows in different order and both close their gaps: they
    classify the same weight correctly, although the trees may differ. *)
Theorem C94_row_order : forall A A' X y X' y' w w' s s', fewer_choices A A' -> fewer_choices A' A -> trained_closed A X y w s -> trained_closed A' X' y' w' s' ->
  subset_of (ta_splits A) X y w (ta_splits A') X' y' w' -> subset_of (ta_splits A') X' y' w' (ta_splits A) X y w ->
  exists code code' v v', predicts A s code /\ predicts A' s' code' /\ correct_weight (fit_setup A X y) w code v /\ correct_weight (fit_setup A' X' y') w' code' v' /\ (v == v')%Q.
Proof.
  intros A A' X y X' y' w w' s s' Hf Hf' HC HC' Hs Hs'.
  assert (T : forall B U z om t, trained_closed B U z om t -> trained B U z t /\ trainable B U z).
  { intros B U z om t (sv & clk & w0 & fuel & x & pi & sel & H1 & H2 & H3 & _ & _ & _ & _ & _ & H4 & _). split; [exists sv, clk, w0, fuel; auto|exact H2]. }
  destruct (T _ _ _ _ _ HC) as (HT & R). destruct (T _ _ _ _ _ HC') as (HT' & R').
  destruct (C94_parts_unbeaten A A' X y X' y' w w' s s' Hf HT HC' Hs) as (c1 & c1' & v' & P1 & P1' & W1 & L1).
  destruct (C94_parts_unbeaten A' A X' y' X y w' w s' s Hf' HT' HC Hs') as (c2' & c2 & v & P2' & P2 & W2 & L2).
  exists c2, c1', v, v'. split; [exact P2|]. split; [exact P1'|]. split; [exact W2|]. split; [exact W1|].
  apply Qle_antisym; [apply L1; apply (predicts_weight A s X y w c2)|apply L2; apply (predicts_weight A' s' X' y' w' c1')]; auto.
Qed.
Print Assumptions C94_row_order.

(** The rows in [ex1b_X] are the last rows of [ex1_X], in the other order. *)
Definition ex1b_X : list sample := [[2]; [1]]%Q.
Definition ex1b_y : list nat := [0; 1].
Definition ex1b_args (old : bool) : targs :=
  mkTargs [mkPath 0 [0] [0] 0 0 1 false; mkPath 1 [0] [1] 0 0 1 false; mkPath 1 [0] [0] 0 0 1 false] (complete_leaves 1) ex1_nodes
    [mkSplit 0 0 (1 # 2) false [] [0; 1] [] []; mkSplit 1 0 (3 # 2) false [1] [0] [] []] 1 [0; 1]%Z (-1) (-1) 3 false true None old.
Lemma ex1b_trainable old : trainable (ex1b_args old) ex1b_X ex1b_y.
Proof.
  constructor.
  - reflexivity.
  - apply valid_setup_ok; [vm_compute|]; reflexivity.
  - apply data_okb_ok. vm_compute. reflexivity.
  - intros rows r dr E. discriminate.
  - apply Permutation_refl.
  - repeat constructor.
  - exists 0, 1. cbn. intuition discriminate.
  - apply proper_pathb_ok. vm_compute. reflexivity.
  - exists (fun _ => 0), [mkPath 0 [0] [0] 0 0 1 false; mkPath 1 [0] [0] 0 0 1 false]. split; [|split; [|split]].
    + intros p [<-|[<-|[]]]; cbn; auto.
    + intros n nd Hn E. cbn in Hn. assert (n = 0) by lia. subst n. injection E as <-. left. reflexivity.
    + apply Permutation_refl.
    + repeat constructor; intros n k [H|[]]; injection H as <- <-; reflexivity.
Qed.
Definition ex1b_run (old : bool) : option (fstate tworld tduals path) :=
  match dtree_init (ex1b_args old) with
  | Ok w => match tree_fit (enumerating_best (fun _ => 0%Q) (fun _ => 0%Q)) (ex1b_args old) (fun _ => 0%Q) ex1b_X ex1b_y 9 (new_estimator w) with (s, Done tt) => Some s | _ => None end
  | Err _ => None end.

(** [ex1r_X] is [ex1_X] in the other order. *)
Definition ex1r_X : list sample := [[2]; [1]; [0]]%Q.
Definition ex1r_args (old : bool) : targs :=
  mkTargs [mkPath 0 [0] [0] 1 0 0 false; mkPath 1 [0] [0] 1 0 1 false] (complete_leaves 1) ex1_nodes
    [mkSplit 0 0 (1 # 2) false [2] [0; 1] [] []; mkSplit 1 0 (3 # 2) false [1; 2] [0] [] []] 1 [0; 1]%Z (-1) (-1) 3 false true None old.
Lemma ex1r_trainable old : trainable (ex1r_args old) ex1r_X ex1_y.
Proof.
  constructor.
  - reflexivity.
  - apply valid_setup_ok; [vm_compute|]; reflexivity.
  - apply data_okb_ok. vm_compute. reflexivity.
  - intros rows r dr E. discriminate.
  - apply Permutation_refl.
  - repeat constructor.
  - exists 0, 1. cbn. intuition discriminate.
  - apply proper_pathb_ok. vm_compute. reflexivity.
  - exists (fun _ => 0), (ta_paths (ex1r_args old)). split; [intros p Hp; exact Hp|]. split; [|split].
    + intros n nd Hn E. cbn in Hn. assert (n = 0) by lia. subst n. injection E as <-. left. reflexivity.
    + apply Permutation_refl.
    + repeat constructor; intros n k [H|[]]; injection H as <- <-; reflexivity.
Qed.
Definition ex1r_run (old : bool) : option (fstate tworld tduals path) :=
  match dtree_init (ex1r_args old) with
  | Ok w => match tree_fit (enumerating ex1_x ex1_pi) (ex1r_args old) (fun _ => 0%Q) ex1r_X ex1_y 3 (new_estimator w) with (s, Done tt) => Some s | _ => None end
  | Err _ => None end.
Lemma ex1r_run_ok : forall old, match ex1r_run old with
  | Some s => f_optimal s = true /\ tm_answer (tw_master (f_world s)) = Some (ex1_x, ex1_pi) /\ kktb (tm_lp (tw_master (f_world s))) ex1_x ex1_pi = true /\
      match tm_selected (tw_master (f_world s)) with
      | Some sel => Qeq_bool (objective_value (tm_lp (tw_master (f_world s))) ex1_x - qsum p_cost sel) 0 = true | None => False end /\
      tm_cut_cons (tw_master (f_world s)) = [] /\ tree_predict (ex1r_args old) [0; 1] s ex1r_X = Ok [1; 1; 0]
  | None => False end.
Proof. intros [|]; vm_compute; repeat split. Qed.
Lemma ex1_closed old s : ex1_run old = Some s -> trained_closed (ex1_args 1 old) ex1_X ex1_y (fun _ => 1%Q) s.
Proof.
  intros Er. destruct (ex1_run_fit old s Er) as (w & Ew & Ef). pose proof (ex1_run_ok old) as H. rewrite Er in H. destruct H as (H1 & H2 & H3 & _ & Hcut & _).
  destruct (C67_case_gap old) as (s2 & sel & E2 & Es & Eg & TW & W & Hc). rewrite Er in E2. injection E2 as <-.
  exists (enumerating ex1_x ex1_pi), (fun _ => 0%Q), w, 3, ex1_x, ex1_pi, sel. split; [exact Ew|]. split; [apply ex1_trainable|].
  split; [apply enumerating_honest; apply (tr_setup _ _ _ (ex1_trainable old))|]. split; [apply enumerating_exact|]. split; [exact TW|]. split; [exact W|].
  split; [intros _ r _; cbn; lia|]. split; [exact Hc|]. split; [exact Ef|]. split; [exact H1|]. split; [exact H2|]. split; [apply kktb_ok; exact H3|]. split; [exact Es|].
  rewrite Eg. unfold slack, pricing_vars, teps. rewrite Hcut. change (ta_old (ex1_args 1 old)) with old.
  change (inject_Z (Z.of_nat (2 ^ ta_depth (ex1_args 1 old)))) with 2%Q. destruct old; [lra|].
  match goal with |- context [inject_Z (Z.of_nat ?n)] => let k := eval vm_compute in (inject_Z (Z.of_nat n)) in change (inject_Z (Z.of_nat n)) with k end. lra.
Qed.
Lemma ex1r_closed old s : ex1r_run old = Some s -> trained_closed (ex1r_args old) ex1r_X ex1_y (fun _ => 1%Q) s.
Proof.
  intros Er. pose proof (ex1r_run_ok old) as H. rewrite Er in H. destruct H as (H1 & H2 & H3 & Eg & Hcut & _).
  destruct (tm_selected (tw_master (f_world s))) as [sel|] eqn:Es; [|destruct Eg]. apply Qeq_bool_iff in Eg.
  assert (Hf : exists w, dtree_init (ex1r_args old) = Ok w /\ tree_fit (enumerating ex1_x ex1_pi) (ex1r_args old) (fun _ => 0%Q) ex1r_X ex1_y 3 (new_estimator w) = (s, Done tt)).
  { unfold ex1r_run in Er. destruct (dtree_init (ex1r_args old)) as [w|]; [|discriminate]. exists w. split; auto. destruct (tree_fit _ _ _ _ _ _ _) as [s1 [[]| | ]]; congruence. }
  destruct Hf as (w & Ew & Ef).
  exists (enumerating ex1_x ex1_pi), (fun _ => 0%Q), w, 3, ex1_x, ex1_pi, sel. split; [exact Ew|]. split; [apply ex1r_trainable|].
  split; [apply enumerating_honest; apply (tr_setup _ _ _ (ex1r_trainable old))|]. split; [apply enumerating_exact|].
  split; [intros r; split; [intros _; destruct old; reflexivity|intros Hn; exfalso; apply Hn; exact I]|]. split; [apply ones_weight; reflexivity|].
  split; [intros _ r _; cbn; lia|]. split; [apply countsb_ok; destruct old; vm_compute; reflexivity|]. split; [exact Ef|]. split; [exact H1|]. split; [exact H2|].
  split; [apply kktb_ok; exact H3|]. split; [exact Es|].
  rewrite Eg. unfold slack, pricing_vars, teps. rewrite Hcut. change (ta_old (ex1r_args old)) with old.
  change (inject_Z (Z.of_nat (2 ^ ta_depth (ex1r_args old)))) with 2%Q. destruct old; [lra|].
  match goal with |- context [inject_Z (Z.of_nat ?n)] => let k := eval vm_compute in (inject_Z (Z.of_nat n)) in change (inject_Z (Z.of_nat n)) with k end. lra.
Qed.
Lemma ex1_choices A A' : ta_depth A = ta_depth A' -> ta_nodes A = ta_nodes A' -> fewer_choices A A'.
Proof. intros E1 E2. split; [exact E1|]. intros n nd E. exists nd. rewrite E2. split; [exact E|intros k Hk; exact Hk]. Qed.
Lemma ex1_turns (x x' : sample) (splits splits' : list split) : length splits = 2 -> length splits' = 2 -> goes_left splits x 0 = goes_left splits' x' 0 -> goes_left splits x 1 = goes_left splits' x' 1 ->
  forall k, goes_left splits x k = goes_left splits' x' k.
Proof.
  intros L L' H0 H1 [|[|k]]; auto. unfold goes_left. rewrite (proj2 (nth_error_None splits _)), (proj2 (nth_error_None splits' _)) by lia. reflexivity.
Qed.

(** Training on two of the rows classifies one of them correctly; training on all three rows classifies two. *)
Example C94_case : forall old old', exists s s', fewer_choices (ex1b_args old) (ex1_args 1 old') /\ trained (ex1b_args old) ex1b_X ex1b_y s /\
  trained_closed (ex1_args 1 old') ex1_X ex1_y (fun _ => 1%Q) s' /\
  subset_of (ta_splits (ex1b_args old)) ex1b_X ex1b_y (fun _ => 1%Q) (ta_splits (ex1_args 1 old')) ex1_X ex1_y (fun _ => 1%Q) /\
  tree_predict (ex1b_args old) [0; 1] s ex1b_X = Ok [1; 1] /\ tree_predict (ex1_args 1 old') [0; 1] s' ex1_X = Ok [0; 1; 1].
Proof.
  intros old old'. assert (H : match ex1b_run old with Some s => tree_predict (ex1b_args old) [0; 1] s ex1b_X = Ok [1; 1] | None => False end) by (destruct old; vm_compute; reflexivity).
  destruct (ex1b_run old) as [s|] eqn:Er; [|destruct H]. pose proof (ex1_run_ok old') as H'. destruct (ex1_run old') as [s'|] eqn:Er'; [|destruct H']. destruct H' as (_ & _ & _ & _ & _ & Hp').
  exists s, s'. split; [apply ex1_choices; reflexivity|]. split.
  { unfold ex1b_run in Er. destruct (dtree_init (ex1b_args old)) as [w|] eqn:Ew; [|discriminate].
    exists (enumerating_best (fun _ => 0%Q) (fun _ => 0%Q)), (fun _ => 0%Q), w, 9. split; [exact Ew|]. split; [apply ex1b_trainable|].
    split; [apply enumerating_best_honest; apply (tr_setup _ _ _ (ex1b_trainable old))|]. destruct (tree_fit _ _ _ _ _ _ _) as [s1 [[]| | ]]; congruence. }
  split; [apply ex1_closed; exact Er'|]. split; [|split; [exact H|exact Hp']].
  exists (fun r => 2 - r). split; [unfold ex1b_X, ex1r_X, ex1_X; cbn [length]; lia|]. intros [|[|r]] x c Hx Hy; cbn in Hx, Hy; [injection Hx as <-; injection Hy as <-|injection Hx as <-; injection Hy as <-|destruct r; discriminate];
    (eexists; split; [reflexivity|]; split; [reflexivity|]; split; [lra|]; apply ex1_turns; reflexivity).
Qed.

(** The same rows in the other order. *)
Example C94_case_order : forall old old', exists s s', fewer_choices (ex1r_args old) (ex1_args 1 old') /\ fewer_choices (ex1_args 1 old') (ex1r_args old) /\
  trained_closed (ex1r_args old) ex1r_X ex1_y (fun _ => 1%Q) s /\ trained_closed (ex1_args 1 old') ex1_X ex1_y (fun _ => 1%Q) s' /\
  subset_of (ta_splits (ex1r_args old)) ex1r_X ex1_y (fun _ => 1%Q) (ta_splits (ex1_args 1 old')) ex1_X ex1_y (fun _ => 1%Q) /\
  subset_of (ta_splits (ex1_args 1 old')) ex1_X ex1_y (fun _ => 1%Q) (ta_splits (ex1r_args old)) ex1r_X ex1_y (fun _ => 1%Q) /\
  tree_predict (ex1r_args old) [0; 1] s ex1r_X = Ok [1; 1; 0] /\ tree_predict (ex1_args 1 old') [0; 1] s' ex1_X = Ok [0; 1; 1].
Proof.
  intros old old'. pose proof (ex1r_run_ok old) as H. destruct (ex1r_run old) as [s|] eqn:Er; [|destruct H]. destruct H as (_ & _ & _ & _ & _ & Hp).
  pose proof (ex1_run_ok old') as H'. destruct (ex1_run old') as [s'|] eqn:Er'; [|destruct H']. destruct H' as (_ & _ & _ & _ & _ & Hp').
  exists s, s'. split; [apply ex1_choices; reflexivity|]. split; [apply ex1_choices; reflexivity|]. split; [apply ex1r_closed; exact Er|]. split; [apply ex1_closed; exact Er'|].
  split; [|split; [|split; [exact Hp|exact Hp']]].
  - exists (fun r => 2 - r). split; [unfold ex1b_X, ex1r_X, ex1_X; cbn [length]; lia|]. intros [|[|[|r]]] x c Hx Hy; cbn in Hx, Hy; try (injection Hx as <-; injection Hy as <-); try (destruct r; discriminate);
      (eexists; split; [reflexivity|]; split; [reflexivity|]; split; [lra|]; apply ex1_turns; reflexivity).
  - exists (fun r => 2 - r). split; [unfold ex1b_X, ex1r_X, ex1_X; cbn [length]; lia|]. intros [|[|[|r]]] x c Hx Hy; cbn in Hx, Hy; try (injection Hx as <-; injection Hy as <-); try (destruct r; discriminate);
      (eexists; split; [reflexivity|]; split; [reflexivity|]; split; [lra|]; apply ex1_turns; reflexivity).
Qed.

(** A training run that ends because no subproblem finds a column certifies the bound on every tree. *)
From Verif Require Import Base Lp LpProofs SpecDual FitModel SpecFit FitMainProofs FitHoareProofs SolveModel SolveObs TreeModel TreePricingModel TreeFitModel
  SpecTree SpecTreeRun SpecTreeLp SpecTreePrice SpecTreeMip SpecTreeFit SpecTreeTrain TreeGeoProofs TreePathProofs TreeBuildProofs TreeInvProofs TreeSolProofs TreeHeurProofs TreeMasterProofs TreeFormProofs TreeSymProofs TreeSubmipProofs
  TreeDecodeProofs TreeMipProofs TreeColsProofs TreeFedProofs TreeCertProofs TreeTrainProofs TreeTrainInvProofs PropTreeLp PropTreePrice PropTreeMip PropTreeCert.
Open Scope nat_scope.

(** ** Pricing models are 0/1 models with a bounded number of variables *)
Section Size.
Variables (u : setup) (c : pclass) (l nt : nat) (cuts : list (list bool)) (obj : vkind -> Q) (off : Q) (names : list vkind) (pr : pricing).
Hypothesis V : valid_setup u.
Hypothesis Hl : l < 2 ^ su_depth u.
Hypothesis B : built u c l nt cuts (length cuts) obj off names pr.
Lemma built_zero_one : zero_one_model (pr_lp pr).
Proof.
  split; [apply (bu_max _ _ _ _ _ _ _ _ _ _ B)|]. intros v Hv. rewrite (sy_vars _ _ _ (bu_sym _ _ _ _ _ _ _ _ _ _ B)) in Hv. apply repeat_spec in Hv. exact Hv.
Qed.
Definition all_names : list vkind :=
  map VZ (seq 0 (length (su_X u))) ++ map VY (seq 0 (length (su_X u))) ++ map VC (seq 0 (length cuts)) ++
  flat_map (fun n => map (VU n) (seq 0 (length (su_splits u)))) (l_left (create_leaf l (su_depth u)) ++ l_right (create_leaf l (su_depth u))) ++ map VW (seq 0 nt).
Lemma flat_map_const {C D} (f : C -> list D) n ls : (forall a, In a ls -> length (f a) = n) -> length (flat_map f ls) = length ls * n.
Proof. induction ls as [|a ls IH]; intros H; cbn; auto. rewrite app_length, H by (left; auto). rewrite IH by (intros; apply H; right; auto). reflexivity. Qed.
Lemma built_size : num_vars (pr_lp pr) <= 2 * length (su_X u) + length cuts + su_depth u * length (su_splits u) + nt.
Proof.
  unfold num_vars. rewrite (sy_vars _ _ _ (bu_sym _ _ _ _ _ _ _ _ _ _ B)), repeat_length.
  transitivity (length all_names).
  - apply NoDup_incl_length; [apply (sy_nodup _ _ _ (bu_sym _ _ _ _ _ _ _ _ _ _ B))|]. intros kd Hk.
    apply (bu_names _ _ _ _ _ _ _ _ _ _ B) in Hk. unfold all_names. rewrite !in_app_iff. destruct kd as [i|i|i|n k|t]; cbn in Hk.
    + left. apply in_map, in_seq. lia.
    + right; left. apply in_map, in_seq. lia.
    + right; right; left. apply in_map, in_seq. lia.
    + do 3 right; left. apply in_flat_map. exists n. split; [apply Hk|]. apply in_map, in_seq. destruct Hk as [_ Hk].
      destruct (cands_ok u V n) as [_ Hc]. rewrite Forall_forall in Hc. specialize (Hc k Hk). lia.
    + do 4 right. apply in_map, in_seq. lia.
  - unfold all_names. rewrite !app_length, !map_length, !seq_length.
    rewrite (flat_map_const _ (length (su_splits u))) by (intros; rewrite map_length, seq_length; reflexivity).
    rewrite create_leaf_length by auto. lia.
Qed.
End Size.

Section Cert.
Variables (A : targs) (X : list sample) (y : list nat) (sv : fsolvers) (clk : nat -> Q).
Local Notation u := (fit_setup A X y).
Local Notation d := (ta_depth A).
Local Notation targets := (ta_targets A).
Local Notation nt := (length (ta_targets A)).
Local Notation specs := (sub_specs A).
Local Notation E := (tree_env sv A clk X y).
Hypothesis R : trainable A X y.
Hypothesis Ho : honest u sv.
Variable g : Q.
Hypothesis Hx : gap_pricing sv g.
Let V : valid_setup u := tr_setup _ _ _ R.
Let D : valid_data u := tr_data _ _ _ R.
Let HR : rows_agree u := tr_rows _ _ _ R.

Lemma spec_at c l : l < 2 ^ d -> (ta_old A = false /\ c = CSat) \/ (ta_old A = true /\ exists t, c = COld t /\ t < nt) ->
  exists i, nth_error specs i = Some (c, create_leaf l d).
Proof.
  intros Hl Hc. apply In_nth_error. unfold sub_specs. apply in_flat_map. exists (create_leaf l d). split.
  { rewrite (tr_leaves _ _ _ R). unfold complete_leaves. apply (in_map (fun l => create_leaf l d)), in_seq. lia. }
  destruct Hc as [[-> ->]|[-> (t & -> & Ht)]]; [left; reflexivity|]. apply in_map_iff. exists (Z.of_nat t). rewrite Nat2Z.id. split; auto.
  apply (Permutation_in _ (Permutation_sym (tr_targets _ _ _ R))). apply in_map, in_seq. lia.
Qed.
Lemma leaf_path l : l < 2 ^ d -> exists p, path_to u l p.
Proof.
  intros Hl. destruct (tr_tree _ _ _ R) as (tree & sel & Hin & _ & Pm & _). cbn [su_depth fit_setup] in Pm.
  assert (Hs : In l (map p_leaf sel)) by (apply (Permutation_in _ (Permutation_sym Pm)), in_seq; lia).
  apply in_map_iff in Hs. destruct Hs as (p & El & Hp). exists p. pose proof (tr_paths _ _ _ R) as P. unfold proper_paths in P. rewrite Forall_forall in P.
  destruct (P p (Hin p Hp)) as [T U]. split; auto.
Qed.
Lemma leaf_class c l t : l < 2 ^ d -> own_class c nt t -> exists p, path_to u l p /\ exact_class u c nt p.
Proof.
  intros Hl Hc. destruct (leaf_path l Hl) as [p Hp]. pose proof Hp as (T & U & El).
  destruct (path_pick u l p T U El) as (pick & Hpk & _). destruct (cval_exists u c l V D Hl pick p t Hpk) as (n & Hn & _).
  exists (mkPath (p_leaf p) (p_nodes p) (p_splits p) (inject_Z (Z.of_nat n)) (p_id p) (Z.of_nat t) (p_initial p)). split; [exact Hp|].
  exists t, n. split; auto. split; [reflexivity|]. split; [|reflexivity]. clear - Hn. destruct c; exact Hn.
Qed.
Lemma labels_exist : 0 < nt.
Proof. destruct (tr_classes _ _ _ R) as (a & b & Ha & _). pose proof (tr_labels _ _ _ R) as Hy. rewrite Forall_forall in Hy. specialize (Hy a Ha). lia. Qed.

Lemma certificate Gp k dl w x pi tau wt : I1 A X y sv Gp k dl (all_subproblems (levels E)) w ->
  tm_answer (tw_master w) = Some (x, pi) -> near_dual (tm_lp (tw_master w)) pi tau -> training_weight A u wt ->
  forall tree label v, tree_over d (ta_nodes A) tree -> correct_weight u wt (fun xr => label (tree_leaf d (ta_splits A) tree xr)) v ->
    (v <= dual_value (tm_lp (tw_master w)) pi + inject_Z (Z.of_nat (2 ^ d)) * (slack A X (tw_master w) + leaf_gap A g) + inject_Z (Z.of_nat (2 ^ d - 1)) * tau)%Q.
Proof.
  intros (ops & old & s & x1 & pi1 & S & (Elp & En & Es & Ep & Ea & Ec) & _ & HP & _ & _ & _ & Hno) Ean K W tree label v Ht Hv.
  pose proof S as (_ & _ & _ & _ & _ & _ & Ean1). rewrite Ea, Ean1 in Ean. injection Ean as -> ->. rewrite Elp in *.
  destruct (solved_inv _ _ _ _ _ _ _ _ V S) as (kinds & H & _).
  assert (Hcl : length (tm_cut_cons s) = length (old ++ d_new_cuts dl)) by apply (ti_cut_len _ _ _ _ _ _ _ H).
  assert (Hyt : Forall (fun t => t < nt) (su_y u)) by apply (tr_labels _ _ _ R).
  assert (Hn : forall c l, l < 2 ^ d -> (ta_old A = false /\ c = CSat) \/ (ta_old A = true /\ exists t, c = COld t /\ t < nt) ->
    classes_ok u c nt targets /\
    if is_sat c then sat_found_nothing u l nt (pricing_vars A X (tw_master w)) g (old ++ d_new_cuts dl) dl s
    else mip_found_nothing u c l nt g (old ++ d_new_cuts dl) dl s).
  { intros c l Hl Hc. destruct (spec_at c l Hl Hc) as [i Hi].
    destruct (Hno i) as (c' & lf & l' & kk & Hi' & Hl' & El & Hnone); [apply (subs_In A X y sv clk); right; split; auto; apply nth_error_Some; congruence|].
    rewrite Hi in Hi'. injection Hi' as <- El2. assert (l = l') by (apply (f_equal l_id) in El; rewrite <- El2 in El; rewrite !create_leaf_id in El by auto; auto). subst l' lf.
    destruct (spec_ok A X y R _ _ (nth_error_In _ _ Hi)) as [HC _]. split; auto.
    assert (Hc0 : exists t, own_class c nt t) by (pose proof labels_exist; destruct c; [exists 0|exists 0|eexists]; cbn; auto).
    destruct Hc0 as [t0 Ht0]. destruct (leaf_class c l t0 Hl Ht0) as (p & Hp & Hpc).
    destruct (is_sat c) eqn:Eis.
    - destruct c; try discriminate. destruct Hnone as (pr & sub & sub' & pr' & Fd & Eg).
      destruct (refresh_solved u CSat l nt targets V D Hl HC _ _ _ _ _ _ _ pr S (fed_alive _ _ _ _ _ V D Hl HC _ _ Fd)) as (pr1 & names & E1 & B).
      assert (Epr : pr1 = pr').
      { cbn [su_depth su_rows su_X su_y fit_setup] in E1. unfold sat_generate in Eg. rewrite E1 in Eg. cbn [bind] in Eg. destruct (getitem _ _); [|discriminate]. cbn [bind] in Eg.
        destruct (solve_model _ _ _ _) as [sub1 [st|e]]; cbn [bind] in Eg; [|discriminate]. destruct (for_each _ _ _); cbn [bind] in Eg; [congruence|discriminate]. }
      subst pr1. destruct (path_point u CSat l nt targets V D Hl HC dl _ names pr' B p Hp Hpc) as (x' & _ & Hx' & _).
      exists targets, pr, (fs_streams sv kk), (fs_sat sv kk), sub, sub', pr'. split; auto. split; auto. split; [|split; [exact Eg|]].
      + intros st. split; [apply (ho_sat _ _ Ho)|]. destruct (Hx kk (pr_lp pr')) as [_ Hx2]; [eapply built_zero_one; eauto|eauto|]. apply Hx2.
      + pose proof (built_size u CSat l nt _ _ _ names pr' V Hl B) as Hsz. unfold pricing_vars. rewrite Ec, Hcl. exact Hsz.
    - destruct Hnone as (pr0 & pr & Fd & Eu & Eg).
      destruct (built_update u c l nt targets old pr0 ops (fs_tree sv) dl s x pi pr V D Hl HC Eis Fd S Eu) as (names & B).
      destruct (path_point u c l nt targets V D Hl HC dl _ names pr B p Hp Hpc) as (x' & _ & Hx' & _).
      destruct (Hx kk (pr_lp pr)) as [(y' & Ey & Hy') _]; [eapply built_zero_one; eauto|eauto|].
      exists targets, old, pr0, pr, (fs_mip sv kk), y'. auto 10. }
  pose proof labels_exist as Hnt. unfold slack, leaf_gap. unfold training_weight in W. destruct (ta_old A) eqn:Eo.
  - apply (C64_any_duals_old u nt ops _ (fs_tree sv) dl s x pi tau g wt V D HR Hnt Hyt S K W) with (tree := tree) (label := label); auto.
    intros l t Hl Ht'. apply (Hn (COld t) l Hl). right. eauto.
  - apply (C64_any_duals_sat u nt _ ops _ (fs_tree sv) dl s x pi tau g wt V D HR Hnt S K W) with (tree := tree) (label := label); auto.
    intros l Hl. apply (Hn CSat l Hl). auto.
Qed.
End Cert.

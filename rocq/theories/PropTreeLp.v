(** C37-C40, C47, C58: what solutions of the tree master problem mean. *)
From Verif Require Import Base Lp LpProofs SpecDual DualProofs LpCheck TreeModel SpecTree TreeGeoProofs TreePathProofs TreeLpBuild TreeInvProofs TreeFormProofs
  TreeBuildProofs SpecTreeRun TreeRunProofs TreeMasterProofs SpecTreeLp TreeLpProofs TreeReachProofs TreeSolProofs TreeCheck PropTree PropTreeMaster.
Open Scope nat_scope.

Lemma leaf_reached_same d f g : (forall n, f n = g n) -> leaf_reached d f = leaf_reached d g.
Proof.
  intros H. unfold leaf_reached. f_equal. generalize 0. induction d as [|d IH]; intros i; cbn [route]; auto. rewrite H. apply IH.
Qed.
Lemma feasible_meets kinds m x X leaves nodes splits paths rws cuts cv : formulation X leaves nodes splits paths rws cuts kinds cv m ->
  lp_feasible m x -> meets_tree_constraints kinds m x.
Proof.
  intros F H. split.
  - intros j Hj. eapply feas_nonneg; eauto.
  - intros i c k Hc Hk _. destruct H as [_ H]. eapply H; eauto.
Qed.
Lemma feasible_integral m x X leaves nodes splits paths rws cuts kinds cv : formulation X leaves nodes splits paths rws cuts kinds cv m ->
  ip_feasible m x -> integral m x.
Proof.
  intros F [_ H] j Hj. destruct (nth_error_some_lt (lp_vars m) j Hj) as [v Hv]. apply (H j v Hv).
  rewrite (fm_vars _ _ _ _ _ _ _ _ _ _ F v (nth_error_In _ _ Hv)). reflexivity.
Qed.
Lemma proper_forms u paths rws cuts kinds cv m x : formulation (su_X u) (su_leaves u) (su_nodes u) (su_splits u) paths rws cuts kinds cv m ->
  proper_paths u paths -> meets_tree_constraints kinds m x -> integral m x ->
  let sel := filter (fun p => Qltb 0 (x (p_id p))) paths in
  exists tree, forms_tree u tree sel /\ Forall (tree_path (su_depth u) (su_splits u)) sel /\
    tree_solution (su_depth u) (su_splits u) tree paths x.
Proof.
  intros F P M I sel. exists (tree_of paths x). unfold su_leaves in F.
  assert (Hs : Forall (tree_path (su_depth u) (su_splits u)) sel).
  { apply Forall_forall. intros p Hin. apply filter_In in Hin. unfold proper_paths in P. rewrite Forall_forall in P. apply P. apply Hin. }
  split; [|split; [exact Hs|]].
  - split; [eapply tree_of_over; eauto|]. split; [eapply sel_leaves; eauto|]. eapply sel_agrees; eauto.
  - eapply sel_tree_solution; eauto.
Qed.

(** C37: an integer solution of the master problem selects one path for every leaf, all belonging to one decision tree over
    the candidate splits; predict walks this tree and returns the class of the leaf it reaches. *)
Theorem C37_trees : forall u ops cuts s x, valid_setup u -> after u ops cuts s -> proper_paths u (tm_paths s) -> ip_feasible (tm_lp s) x ->
  exists s' sel tree, solve_ip (Some x) s = Ok (true, s') /\ tm_selected s' = Some sel /\
    (forall p, In p sel <-> In p (tm_paths s) /\ (0 < x (p_id p))%Q) /\
    forms_tree u tree sel /\
    forall L (classes : list L) Xs, Forall (fits (su_splits u)) Xs ->
      predict classes (su_leaves u) (tm_splits s') sel Xs =
      map_res (fun xr => decode classes (leaf_target sel (tree_leaf (su_depth u) (su_splits u) tree xr))) Xs.
Proof.
  intros u ops cuts s x V A P Hx. destruct (after_inv u ops cuts s V A) as (kinds & H & _). pose proof (after_formulated u _ _ _ V H) as F.
  destruct (proper_forms u _ _ _ _ _ _ x F P) as (tree & Ht & Hs & _).
  { eapply feasible_meets; [exact F|apply Hx]. } { eapply feasible_integral; eauto. }
  set (sel := filter (fun p => Qltb 0 (x (p_id p))) (tm_paths s)) in *.
  exists (with_selected sel s), sel, tree. split.
  { unfold solve_ip. rewrite (ti_gen _ _ _ _ _ _ _ H). reflexivity. }
  split; [reflexivity|]. split.
  { intros p. unfold sel. rewrite filter_In, Qltb_true. reflexivity. }
  split; [exact Ht|]. intros L classes Xs Hf. apply predict_core; auto.
  - apply (ti_splits _ _ _ _ _ _ _ H).
  - apply Ht.
Qed.
Print Assumptions C37_trees.

(** ... and conversely every decision tree over the candidate splits whose paths are in the master problem is such a solution. *)
Theorem C37_all_trees : forall u ops cuts s tree sel, valid_setup u -> after u ops cuts s -> incl sel (tm_paths s) ->
  Forall (tree_path (su_depth u) (su_splits u)) sel -> forms_tree u tree sel ->
  exists x, ip_feasible (tm_lp s) x /\ (forall p, In p sel -> (x (p_id p) == 1)%Q) /\
            (forall p, In p (tm_paths s) -> ~ In p sel -> (x (p_id p) == 0)%Q).
Proof.
  intros u ops cuts s tree sel V A Hi Hp Hf. destruct (after_inv u ops cuts s V A) as (kinds & H & _). pose proof (after_formulated u _ _ _ V H) as F.
  pose proof V as (wf & _). exists (tree_point u (cv_of (tm_ns_vars s)) tree sel). split; [|split].
  - eapply tree_point_feasible; eauto.
  - intros p Hin. rewrite point_sel by auto. reflexivity.
  - intros p Hin Hn. erewrite point_unsel; eauto. reflexivity.
Qed.
Print Assumptions C37_all_trees.

(** C38: if the cost of each path is the total weight of the training rows that follow it and have its class, the integer
    objective is the total weight of the training rows that predict classifies correctly ([code] is the predicted class
    number). *)
Theorem C38_accuracy : forall u ops cuts s x w, valid_setup u -> after u ops cuts s -> proper_paths u (tm_paths s) ->
  Forall (counts_rows u w) (tm_paths s) -> ip_feasible (tm_lp s) x ->
  exists s' sel code, solve_ip (Some x) s = Ok (true, s') /\ tm_selected s' = Some sel /\
    (forall xr, fits (su_splits u) xr -> predict_code xr (su_leaves u) (tm_splits s') sel = Ok (code xr)) /\
    correct_weight u w code (objective_value (tm_lp s) x).
Proof.
  intros u ops cuts s x w V A P Hc Hx. destruct (after_inv u ops cuts s V A) as (kinds & H & _). pose proof (after_formulated u _ _ _ V H) as F.
  destruct (proper_forms u _ _ _ _ _ _ x F P) as (tree & Ht & Hs & Hsol).
  { eapply feasible_meets; [exact F|apply Hx]. } { eapply feasible_integral; eauto. }
  set (sel := filter (fun p => Qltb 0 (x (p_id p))) (tm_paths s)) in *. destruct Ht as (Ho & Hperm & Ha).
  exists (with_selected sel s), sel, (fun xr => leaf_target sel (tree_leaf (su_depth u) (su_splits u) tree xr)). split.
  { unfold solve_ip. rewrite (ti_gen _ _ _ _ _ _ _ H). reflexivity. }
  split; [reflexivity|]. split.
  - intros xr Hf. pose proof (predict_code_core (su_depth u) (su_splits u) (tm_splits s) tree sel xr (ti_splits _ _ _ _ _ _ _ H) Hf Hs Ha) as E. exact E.
  - assert (Hcs : Forall (counts_rows u w) sel).
    { rewrite Forall_forall in *. intros p Hin. apply Hc. apply filter_In in Hin. apply Hin. }
    pose proof (tree_weight u w tree sel Hperm Hs Ha Hcs) as Hw. rewrite correct_sum in *. rewrite <- Hw.
    rewrite (form_objective _ _ _ _ _ _ _ _ _ _ F). unfold sel. rewrite qsum_filter. apply qsum_ext. intros p Hin.
    destruct (Qltb 0 (x (p_id p))) eqn:E.
    + assert (Hsel : In p sel) by (apply filter_In; auto).
      assert (E1 : (x (p_id p) == 1)%Q).
      { unfold su_leaves in F. eapply (sel_one _ _ _ _ _ _ _ _ _ _ F P); [| |exact Hsel].
        - eapply feasible_meets; [exact F|apply Hx].
        - eapply feasible_integral; eauto. }
      rewrite E1. lra.
    + apply Qltb_false in E. assert (E0 : (x (p_id p) == 0)%Q); [|rewrite E0; lra].
      pose proof (feas_path _ _ _ _ _ _ _ _ _ _ F x (proj1 Hx) p Hin). lra.
Qed.
Print Assumptions C38_accuracy.

(** C39: an integer solution of the leaf and consistency constraints selects exactly one path per training row ... *)
Theorem C39_integer : forall u ops cuts s rws kinds cv x r v, valid_setup u -> after u ops cuts s -> formulated u rws cuts kinds cv s ->
  proper_paths u (tm_paths s) -> meets_tree_constraints kinds (tm_lp s) x -> integral (tm_lp s) x -> r < length (su_X u) ->
  covered_sum (su_X u) (su_leaves u) (su_splits u) (KRow r) (tm_paths s) x v -> (v == 1)%Q.
Proof.
  intros u ops cuts s rws kinds cv x r v V A F P M I Hr Hv.
  assert (Hn : NoDup (tm_paths s)) by (apply (NoDup_map_inv' p_id), (fm_path_ids _ _ _ _ _ _ _ _ _ _ F)).
  apply covered_sum_iff in Hv; auto. rewrite Hv. destruct (proper_forms u _ _ _ _ _ _ x F P M I) as (tree & _ & _ & Hsol).
  destruct (nth_error_some_lt (su_X u) r Hr) as [xr Ex].
  apply (tree_solution_sum _ _ _ _ _ _ (goes_left (su_splits u) xr) Hn Hsol). intros p Hpin [Hl _]. rewrite covb_iff. cbn [covers].
  unfold su_leaves. rewrite (complete_leaves_nth _ _ Hl), Ex. split.
  - intros (x' & lf & E1 & E2 & Hf). injection E1 as <-. injection E2 as <-. exact Hf.
  - intros Hf. eauto 6.
Qed.
Print Assumptions C39_integer.

(** ... and every fractional solution gives total 1 to the paths of a row that can reach at most two leaves. *)
Theorem C39_fractional : forall u ops cuts s rws kinds cv x r xr R v, valid_setup u -> after u ops cuts s -> formulated u rws cuts kinds cv s ->
  proper_paths u (tm_paths s) -> meets_tree_constraints kinds (tm_lp s) x -> nth_error (su_X u) r = Some xr ->
  length R <= 2 -> (forall l, reachable (su_depth u) (su_nodes u) (goes_left (su_splits u) xr) l -> In l R) ->
  covered_sum (su_X u) (su_leaves u) (su_splits u) (KRow r) (tm_paths s) x v -> (v == 1)%Q.
Proof.
  intros u ops cuts s rws kinds cv x r xr R v V A F P M Ex HR Hall Hv. pose proof V as (wf & _).
  assert (Hn : NoDup (tm_paths s)) by (apply (NoDup_map_inv' p_id), (fm_path_ids _ _ _ _ _ _ _ _ _ _ F)).
  apply covered_sum_iff in Hv; auto. rewrite Hv. unfold formulated, su_leaves in F.
  rewrite <- (two_leaves _ _ _ _ _ _ _ _ _ _ F P x M (wt_nodes _ _ _ _ wf) (fun n Hn => proj1 (wt_cands _ _ _ _ wf n Hn)) (goes_left (su_splits u) xr) R HR Hall).
  apply qsum_ext. intros p Hpin. unfold proper_paths in P. rewrite Forall_forall in P. destruct (P p Hpin) as [[Hl _] _].
  assert (E : covb (su_X u) (su_leaves u) (su_splits u) (KRow r) p = followsb (create_leaf (p_leaf p) (su_depth u)) (goes_left (su_splits u) xr) p).
  { apply eq_true_iff_eq. rewrite covb_iff, followsb_iff. cbn [covers]. unfold su_leaves. rewrite (complete_leaves_nth _ _ Hl), Ex. split.
    - intros (x' & lf & E1 & E2 & Hf). injection E1 as <-. injection E2 as <-. exact Hf.
    - intros Hf. eauto 6. }
  rewrite E. reflexivity.
Qed.
Print Assumptions C39_fractional.

(** C40: without given rows, the master problem records for every training row exactly the reachable leaves, and removes the
    row iff there are at most two. *)
Definition fresh_nodes (u : setup) : Prop := Forall (fun n => n_bottom n = false) (su_nodes u).
Theorem C40_reachable : forall u ops cuts s, valid_setup u -> su_rows u = None -> fresh_nodes u -> after u ops cuts s ->
  exists rows, tm_rows s = Some rows /\ length rows = length (su_X u) /\
    forall r xr dr, nth_error (su_X u) r = Some xr -> nth_error rows r = Some dr ->
      NoDup (r_leaves dr) /\
      (forall l, In l (r_leaves dr) <-> reachable (su_depth u) (su_nodes u) (goes_left (su_splits u) xr) l) /\
      (r_gone dr = true <-> length (r_leaves dr) <= 2).
Proof.
  intros u ops cuts s V Hrows Hfresh A. destruct (after_inv u ops cuts s V A) as (kinds & _ & _ & _ & _ & _ & _ & rows & Hr & Hlen & _ & _ & Hm).
  pose proof V as (wf & _). rewrite Hrows in Hm. destruct Hm as (rs0 & ps & Hs & Hrec). exists rows. split; auto. split; auto.
  intros r xr dr Hx Hdr. destruct (Forall2_nth_l _ _ _ _ _ Hs Hdr) as (dr0 & Hdr0 & (S1 & S2 & S3 & S4 & S5 & S6)).
  destruct (Forall2_nth_l _ _ _ _ _ Hrec Hx) as (dr0' & Hdr0' & (_ & Hleft & _ & Hreach & Hgone & _)). assert (dr0' = dr0) by congruence. subst dr0'.
  symmetry in Hreach.
  assert (Hbot : forall n, In n (su_nodes u) -> n_bottom n = true -> 2 ^ su_depth u - 1 <= 2 * n_id n + 1).
  { intros n Hn Hb. unfold fresh_nodes in Hfresh. rewrite Forall_forall in Hfresh. rewrite (Hfresh n Hn) in Hb. discriminate. }
  destruct (reach_leaves _ _ (wt_depth _ _ _ _ wf) (wt_nodes _ _ _ _ wf) Hbot _ _ _ Hreach) as [Hnd Hin].
  assert (El : forall k, memb k (r_left dr0) = goes_left (su_splits u) xr k).
  { intros k. apply eq_true_iff_eq. rewrite memb_In, Hleft. unfold goes_left. split.
    - intros (sp & Hsp & Eid & Hl). apply In_nth_error in Hsp. destruct Hsp as [i Hi]. rewrite (wt_ids _ _ _ _ wf i sp Hi) in Eid. subst i. rewrite Hi. exact Hl.
    - destruct (nth_error (su_splits u) k) as [sp|] eqn:E; [|discriminate]. intros Hl. exists sp. split; [eapply nth_error_In; eauto|]. split; auto.
      exact (wt_ids _ _ _ _ wf k sp E). }
  assert (Er : r_leaves dr = r_leaves dr0) by assumption. assert (Eg : r_gone dr = r_gone dr0) by assumption.
  rewrite Er, Eg, Hgone. split; [exact Hnd|]. split; [|apply Nat.leb_le].
  intros l. rewrite Hin. unfold reachable. assert (Et : forall tree, leaf_reached (su_depth u) (fun n => memb (tree n) (r_left dr0)) = leaf_reached (su_depth u) (fun n => goes_left (su_splits u) xr (tree n))).
  { intros tree. apply leaf_reached_same. intros n. apply El. }
  split; intros (Hl & tree & Hc & E); (split; [exact Hl|]); exists tree; (split; [exact Hc|]); [rewrite <- Et|rewrite Et]; exact E.
Qed.
Print Assumptions C40_reachable.

(** So the rows the master problem removes need no constraint, in the linear relaxation as well. *)
Theorem C39_removed : forall u ops cuts s rws kinds cv x rows r dr v, valid_setup u -> su_rows u = None -> fresh_nodes u -> after u ops cuts s ->
  formulated u rws cuts kinds cv s -> proper_paths u (tm_paths s) -> meets_tree_constraints kinds (tm_lp s) x ->
  tm_rows s = Some rows -> nth_error rows r = Some dr -> r_gone dr = true ->
  covered_sum (su_X u) (su_leaves u) (su_splits u) (KRow r) (tm_paths s) x v -> (v == 1)%Q.
Proof.
  intros u ops cuts s rws kinds cv x rows r dr v V Hnone Hfresh A F P M Hrows Hdr Hg Hv.
  destruct (C40_reachable u ops cuts s V Hnone Hfresh A) as (rows' & Hrows' & Hlen & Hrec). assert (rows' = rows) by congruence. subst rows'.
  destruct (nth_error_some_lt (su_X u) r) as [xr Ex]; [rewrite <- Hlen; apply nth_error_Some; congruence|].
  destruct (Hrec r xr dr Ex Hdr) as (_ & Hin & Hgone). eapply (C39_fractional u ops cuts s rws kinds cv x r xr (r_leaves dr) v); eauto.
  - apply Hgone. exact Hg.
  - intros l. apply Hin.
Qed.
Print Assumptions C39_removed.

(** C47, for any duals an LP solver may report: if the signs of [pi] and the reduced costs are right up to [tau] and no path
    over candidate splits has a reduced cost above [eps], no decision tree over the candidate splits classifies more rows
    correctly than the dual objective value plus eps * 2^depth (one path per leaf) plus tau * (2^depth - 1) (one split per
    node). *)
Theorem C47_any_duals : forall u ops cuts s rws kinds cv pi tau w eps, valid_setup u -> after u ops cuts s -> formulated u rws cuts kinds cv s ->
  near_dual (tm_lp s) pi tau ->
  (forall p v, tree_path (su_depth u) (su_splits u) p -> uses_candidates (su_nodes u) p -> counts_rows u w p ->
               path_price u kinds pi p v -> (v <= eps)%Q) ->
  forall tree label v, tree_over (su_depth u) (su_nodes u) tree ->
    correct_weight u w (fun xr => label (tree_leaf (su_depth u) (su_splits u) tree xr)) v ->
    (v <= dual_value (tm_lp s) pi + inject_Z (Z.of_nat (2 ^ su_depth u)) * eps + inject_Z (Z.of_nat (2 ^ su_depth u - 1)) * tau)%Q.
Proof.
  intros u ops cuts s rws kinds cv pi tau w eps V A F K Hprice tree label v Ht Hv. pose proof V as (wf & _). eapply tree_bound; eauto.
Qed.
Print Assumptions C47_any_duals.

(** C47: if [x], [pi] are an optimal solution and duals of the current relaxed master problem and no path over candidate
    splits has a reduced cost above [eps], no decision tree over the candidate splits classifies more than
    objective + eps * 2^depth rows correctly. *)
Theorem C47_upper_bound : forall u ops cuts s rws kinds cv x pi w eps, valid_setup u -> after u ops cuts s -> formulated u rws cuts kinds cv s ->
  lp_kkt (tm_lp s) x pi ->
  (forall p v, tree_path (su_depth u) (su_splits u) p -> uses_candidates (su_nodes u) p -> counts_rows u w p ->
               path_price u kinds pi p v -> (v <= eps)%Q) ->
  forall tree label v, tree_over (su_depth u) (su_nodes u) tree ->
    correct_weight u w (fun xr => label (tree_leaf (su_depth u) (su_splits u) tree xr)) v ->
    (v <= objective_value (tm_lp s) x + inject_Z (Z.of_nat (2 ^ su_depth u)) * eps)%Q.
Proof.
  intros u ops cuts s rws kinds cv x pi w eps V A F K Hprice tree label v Ht Hv.
  pose proof (C47_any_duals _ _ _ _ _ _ _ _ _ _ _ V A F (kkt_near _ _ _ K) Hprice _ _ _ Ht Hv) as H. rewrite (kkt_dual_value _ _ _ K). lra.
Qed.
Print Assumptions C47_upper_bound.

(** C48, positive part: if the targets of the selected paths are class numbers, predict returns one of the classes for every
    sample that has the features. *)
Theorem C48_total_for_class_targets : forall d L (classes : list L) splits sel Xs, classes <> [] -> Forall (plain_path d splits) sel ->
  Forall (fun p => 0 <= p_target p < Z.of_nat (length classes))%Z sel -> Forall (fits splits) Xs ->
  exists labels, predict classes (complete_leaves d) splits sel Xs = Ok labels /\ length labels = length Xs /\ Forall (fun l => In l classes) labels.
Proof.
  intros d L classes splits sel Xs Hne Hp Ht Hf. unfold predict.
  assert (Hcode : forall xr, fits splits xr -> exists c, predict_code xr (complete_leaves d) splits sel = Ok c /\ (0 <= c < Z.of_nat (length classes))%Z).
  { intros xr Hx. clear Hf. induction sel as [|p ps IH].
    - exists 0%Z. split; auto. destruct classes; [congruence|simpl; lia].
    - inversion Hp as [|? ? Hp1 Hp2]; inversion Ht as [|? ? Ht1 Ht2]; subst. cbn [predict_code]. unfold getitem. rewrite complete_leaves_nth by apply Hp1. cbn [bind].
      destruct Hp1 as (_ & L1 & L2 & Hk). rewrite row_satisfies_path_ok by (auto; congruence). cbn [bind].
      destruct (followsb _ _ p); eauto. }
  assert (Hdec : forall c, (0 <= c < Z.of_nat (length classes))%Z -> exists l, decode classes c = Ok l /\ In l classes).
  { intros c Hc. unfold decode. destruct (Z.ltb_spec c 0); [lia|]. destruct (nth_error_some_lt classes (Z.to_nat c)) as [l Hl]; [lia|].
    rewrite Hl. exists l. split; auto. eapply nth_error_In; eauto. }
  assert (G : exists codes, map_res (fun x => predict_code x (complete_leaves d) splits sel) Xs = Ok codes /\ length codes = length Xs /\
              Forall (fun c => 0 <= c < Z.of_nat (length classes))%Z codes).
  { induction Hf as [|xr Xs Hx _ IH]; [exists []; auto|]. destruct IH as (codes & E & El & Hc). destruct (Hcode xr Hx) as (c & Ec & Hb).
    exists (c :: codes). cbn [map_res]. rewrite Ec. cbn [bind]. rewrite E. cbn [bind length]. auto. }
  destruct G as (codes & E & El & Hc). rewrite E. cbn [bind]. clear E. rewrite <- El. clear El.
  induction Hc as [|c codes Hb _ IH]; [exists []; auto|]. destruct IH as (ls & E & El & Hin). destruct (Hdec c Hb) as (l & E1 & H1).
  exists (l :: ls). cbn [map_res]. rewrite E1. cbn [bind]. rewrite E. cbn [bind length]. auto.
Qed.
Print Assumptions C48_total_for_class_targets.

(** * Concrete cases *)

Definition proper_pathb (d n_splits : nat) (nodes : list node) (p : path) : bool :=
  let ns := l_left (create_leaf (p_leaf p) d) ++ l_right (create_leaf (p_leaf p) d) in
  (p_leaf p <? 2 ^ d) && (length (p_splits p) =? d) && forallb (fun k => k <? n_splits) (p_splits p) &&
  (length (p_nodes p) =? d) && forallb (fun n => memb n (p_nodes p)) ns &&
  forallb (fun nk => match nth_error nodes (fst nk) with Some nd => memb (snd nk) (n_cands nd) | None => false end) (choices p).
Lemma proper_pathb_ok u paths : forallb (proper_pathb (su_depth u) (length (su_splits u)) (su_nodes u)) paths = true -> proper_paths u paths.
Proof.
  intros H. rewrite forallb_forall in H. apply Forall_forall. intros p Hp. specialize (H p Hp). unfold proper_pathb in H.
  repeat (apply andb_true_iff in H; destruct H as [H ?]). rewrite forallb_forall in H0, H1, H3.
  apply Nat.ltb_lt in H. apply Nat.eqb_eq in H2, H4. split.
  - split; [exact H|]. split; [|split; [exact H4|apply Forall_forall; intros k Hk; apply Nat.ltb_lt; auto]].
    apply Permutation_sym. apply NoDup_Permutation_bis.
    + apply (create_leaf_nodes (p_leaf p) (su_depth u) H).
    + rewrite create_leaf_length by auto. lia.
    + intros n Hn. apply memb_In. apply H1. auto.
  - intros n k Hc. specialize (H0 (n, k) Hc). cbn [fst snd] in H0. destruct (nth_error (su_nodes u) n) as [nd|]; [|discriminate].
    exists nd. split; auto. apply memb_In. auto.
Qed.
Lemma countsb_ok u w paths :
  forallb (fun p => Qeq_bool (p_cost p) (qsum (fun r => if counted u p r then w r else 0%Q) (seq 0 (length (su_X u))))) paths = true ->
  Forall (counts_rows u w) paths.
Proof.
  intros H. rewrite forallb_forall in H. apply Forall_forall. intros p Hp. apply counts_sum. apply Qeq_bool_iff. apply H. auto.
Qed.

(** The paths of the tree (0, 1, 2) of depth 2: an integer solution with objective 3; the tree classifies three of the four
    rows correctly and sends the unseen sample (5, 5) to leaf 3 with class 0. *)
Definition ex_sol (j : nat) : Q := if memb j [0; 1; 2; 3; 4; 6; 9] then 1%Q else 0%Q.
Example C37_case : exists s, after (ex_setup false) [] [] s /\ proper_paths (ex_setup false) (tm_paths s) /\ ip_feasible (tm_lp s) ex_sol /\
  Forall (counts_rows (ex_setup false) (fun _ => 1%Q)) (tm_paths s) /\ (objective_value (tm_lp s) ex_sol == 3)%Q /\
  predict [10; 11] (su_leaves (ex_setup false)) ex_splits (tm_paths s) [[0; 0]; [0; 1]; [1; 0]; [1; 1]; [5; 5]]%Q = Ok [10; 11; 11; 11; 10].
Proof.
  assert (V : match run_setup (ex_setup false) [] with
              | Ok (cuts, s) => Some (cuts, forallb (proper_pathb 2 3 ex_nodes) (tm_paths s), ip_feasibleb (tm_lp s) ex_sol,
                    forallb (fun p => Qeq_bool (p_cost p) (qsum (fun r => if counted (ex_setup false) p r then 1%Q else 0%Q) (seq 0 4))) (tm_paths s),
                    Qeq_bool (objective_value (tm_lp s) ex_sol) 3,
                    predict [10; 11] (complete_leaves 2) ex_splits (tm_paths s) [[0; 0]; [0; 1]; [1; 0]; [1; 1]; [5; 5]]%Q)
              | Err _ => None end = Some ([], true, true, true, true, Ok [10; 11; 11; 11; 10])) by (vm_compute; reflexivity).
  destruct (run_setup (ex_setup false) []) as [[cuts s]|] eqn:E; [|discriminate V]. injection V as -> H1 H2 H3 H4 H5.
  exists s. split; [apply run_setup_after; [constructor|exact E]|]. split; [apply proper_pathb_ok; exact H1|]. split; [apply ip_feasibleb_ok; exact H2|].
  split; [apply (countsb_ok (ex_setup false)); exact H3|]. split; [apply Qeq_bool_iff; exact H4|exact H5].
Qed.
(** The same solution: the tree it stands for classifies rows of total weight 3 correctly. *)
Example C38_case : exists s code, after (ex_setup false) [] [] s /\ ip_feasible (tm_lp s) ex_sol /\
  (exists s' sel, solve_ip (Some ex_sol) s = Ok (true, s') /\ tm_selected s' = Some sel /\
     forall xr, fits ex_splits xr -> predict_code xr (complete_leaves 2) (tm_splits s') sel = Ok (code xr)) /\
  correct_weight (ex_setup false) (fun _ => 1%Q) code 3%Q.
Proof.
  destruct C37_case as (s & A & P & F & C & O & _). destruct (C38_accuracy _ _ _ _ _ _ (ex_valid false) A P C F) as (s' & sel & code & E1 & E2 & E3 & rs & H1 & H2 & H3).
  exists s, code. split; [exact A|]. split; [exact F|]. split; [exists s', sel; auto|]. exists rs. split; [exact H1|]. split; [rewrite <- O; exact H2|exact H3].
Qed.

(** Two trees with weight 1/2 each: a fractional solution; row 2 reaches only leaves 0 and 2. *)
Definition ex_other (l : nat) (t : Z) : path := let p := ex_path l t 0 in mkPath l (p_nodes p) (map (fun n => nth n [1; 2; 1] 0) (p_nodes p)) 0 0 t false.
Definition ex_cols : list mop := [Column (ex_other 0 0); Column (ex_other 1 0); Column (ex_other 2 0); Column (ex_other 3 1)].
Definition ex_half (j : nat) : Q := 1 # 2.
Example C39_case : exists s dr rows, after (ex_setup false) ex_cols [] s /\ proper_paths (ex_setup false) (tm_paths s) /\ lp_feasible (tm_lp s) ex_half /\
  length (tm_paths s) = 8 /\ fresh_nodes (ex_setup false) /\ tm_rows s = Some rows /\ nth_error rows 2 = Some dr /\ r_leaves dr = [0; 2] /\ r_gone dr = true.
Proof.
  assert (V : match run_setup (ex_setup false) ex_cols with
              | Ok (cuts, s) => match tm_rows s with
                  | Some rows => match nth_error rows 2 with
                      | Some dr => Some (cuts, forallb (proper_pathb 2 3 ex_nodes) (tm_paths s), feasibleb (tm_lp s) ex_half, length (tm_paths s), r_leaves dr, r_gone dr)
                      | None => None end
                  | None => None end
              | Err _ => None end = Some ([], true, true, 8, [0; 2], true)) by (vm_compute; reflexivity).
  destruct (run_setup (ex_setup false) ex_cols) as [[cuts s]|] eqn:E; [|discriminate V].
  destruct (tm_rows s) as [rows|] eqn:Er; [|discriminate V]. destruct (nth_error rows 2) as [dr|] eqn:Ed; [|discriminate V]. injection V as -> H1 H2 H3 H4 H5.
  exists s, dr, rows. split.
  { apply run_setup_after; [|exact E]. repeat constructor. }
  split; [apply proper_pathb_ok; exact H1|]. split; [apply feasibleb_ok; exact H2|]. split; [exact H3|]. split; [repeat constructor|]. split; [exact Er|].
  split; [exact Ed|]. split; [exact H4|exact H5].
Qed.
(** Its row 2 = (1, 0) reaches leaves 0 and 2 only, and no longer takes part. *)
Example C40_case : exists s rows, after (ex_setup false) ex_cols [] s /\ su_rows (ex_setup false) = None /\ fresh_nodes (ex_setup false) /\ tm_rows s = Some rows /\ length rows = 4 /\
  forall l, (l = 0 \/ l = 2) <-> reachable 2 ex_nodes (goes_left ex_splits [1; 0]%Q) l.
Proof.
  destruct C39_case as (s & dr & rows & A & _ & _ & _ & Fr & Er & Ed & El & _). destruct (C40_reachable _ _ _ _ (ex_valid false) eq_refl Fr A) as (rows' & Er' & Hl & H).
  rewrite Er in Er'. injection Er' as <-. exists s, rows. split; [exact A|]. split; [reflexivity|]. split; [exact Fr|]. split; [exact Er|]. split; [exact Hl|].
  intros l. destruct (H 2 [1; 0]%Q dr eq_refl Ed) as (_ & Hr & _). rewrite El in Hr. cbn [In] in Hr. specialize (Hr l). split; intros G; [apply Hr; intuition|apply Hr in G; intuition].
Qed.

(** A tree of depth 1 for three rows with classes 0, 1, 0: no tree classifies more than two rows correctly. *)
Definition ex1_splits : list split := [mkSplit 0 0 (1 # 2) false [0] [1; 2] [] []; mkSplit 1 0 (3 # 2) false [0; 1] [2] [] []].
Definition ex1_nodes : list node := [mkNode 0 [0; 1] None 0 0 false].
Definition ex1_setup : setup :=
  mkSetup 1 [[0]; [1]; [2]]%Q [0; 1; 0] ex1_nodes ex1_splits [mkPath 0 [0] [0] 1 0 0 true; mkPath 1 [0] [0] 1 0 1 true] false true 3 None.
Definition ex1_x (j : nat) : Q := if memb j [0; 1; 2] then 1%Q else 0%Q.
Definition ex1_pi (i : nat) : Q := if i <? 2 then 1%Q else 0%Q.
Lemma ex1_valid : valid_setup ex1_setup.
Proof. apply valid_setup_ok; [vm_compute|]; reflexivity. Qed.
Lemma ex1_cost (p : path) : tree_path 1 ex1_splits p -> uses_candidates ex1_nodes p -> counts_rows ex1_setup (fun _ => 1%Q) p -> (p_cost p <= 1)%Q.
Proof.
  intros (Hl & Hperm & Hlen & Hk) _ Hc. apply counts_sum in Hc. rewrite Hc. clear Hc.
  destruct p as [l ns ks c id t ini]. cbn [p_leaf p_nodes p_splits] in *.
  assert (Hns : ns = [0]). { assert (E : l = 0 \/ l = 1) by (simpl in Hl; lia). destruct E; subst l; apply Permutation_sym, Permutation_length_1_inv in Hperm; exact Hperm. }
  destruct ks as [|k [|k' ks]]; simpl in Hlen; try lia. inversion Hk as [|? ? Hk1 _]; subst. simpl in Hk1, Hl.
  unfold counted, hit. change (length (su_X ex1_setup)) with 3. cbn [seq p_target]. rewrite !qsum_cons. change (qsum _ []) with 0%Q.
  destruct l as [|[|l]]; [| |lia]; (destruct k as [|[|k]]; [| |lia]);
    repeat match goal with |- context [covb ?X ?L ?S ?K ?P] => let b := eval vm_compute in (covb X L S K P) in change (covb X L S K P) with b end;
    cbn [andb su_y ex1_setup nth_error];
    destruct (Z.eqb_spec t (Z.of_nat 0)); destruct (Z.eqb_spec t (Z.of_nat 1)); subst; try discriminate; lra.
Qed.
Example C47_case : exists s rws kinds cv, after ex1_setup [] [] s /\ formulated ex1_setup rws [] kinds cv s /\ lp_kkt (tm_lp s) ex1_x ex1_pi /\
  (objective_value (tm_lp s) ex1_x == 2)%Q /\
  forall p v, tree_path 1 ex1_splits p -> uses_candidates ex1_nodes p -> counts_rows ex1_setup (fun _ => 1%Q) p ->
              path_price ex1_setup kinds ex1_pi p v -> (v <= 0)%Q.
Proof.
  assert (V : match run_setup ex1_setup [] with Ok (cuts, s) => Some (cuts, map (fun k => (c_lb k, c_ub k)) (lp_cons (tm_lp s)), kktb (tm_lp s) ex1_x ex1_pi,
                Qeq_bool (objective_value (tm_lp s) ex1_x) 2) | Err _ => None end =
    Some ([], [(Some 1, Some 1); (Some 1, Some 1); (Some 0, Some 0); (Some 0, Some 0); (Some 0, Some 0); (Some 0, Some 0)]%Q, true, true)) by (vm_compute; reflexivity).
  destruct (run_setup ex1_setup []) as [[cuts s]|] eqn:E; [|discriminate V]. injection V as -> Hb Hk Ho.
  assert (A : after ex1_setup [] [] s) by (apply run_setup_after; [constructor|exact E]).
  destruct (C36_formulation _ _ _ _ ex1_valid A) as (rws & kinds & cv & rows & F & _). exists s, rws, kinds, cv.
  split; auto. split; auto. split; [apply kktb_ok; auto|]. split; [apply Qeq_bool_iff; auto|].
  intros p v Hp Hu Hc (cs & Hn & Hcs & Hv). rewrite Hv. pose proof (ex1_cost p Hp Hu Hc) as H1.
  assert (H2 : (1 <= qsum ex1_pi cs)%Q); [|lra].
  assert (Hleaf : In (KLeaf (p_leaf p)) kinds) by (apply (fm_leaves _ _ _ _ _ _ _ _ _ _ F); apply Hp).
  apply In_nth_error in Hleaf. destruct Hleaf as [i Hi].
  assert (Hi2 : i < 2).
  { destruct (Forall2_nth_error _ _ _ _ _ (fm_cons _ _ _ _ _ _ _ _ _ _ F) Hi) as (q & Hq & Hbd & _).
    assert (E1 : nth_error (map (fun k => (c_lb k, c_ub k)) (lp_cons (tm_lp s))) i = Some (Some 1, Some 1)%Q) by (rewrite nth_error_map, Hq; cbn [option_map]; rewrite Hbd; reflexivity).
    rewrite Hb in E1. do 6 (destruct i as [|i]; [try lia; discriminate E1|]). destruct i; discriminate E1. }
  assert (Hin : In i cs) by (apply Hcs; exists (KLeaf (p_leaf p)); split; auto; reflexivity).
  apply in_split in Hin. destruct Hin as (a & b & ->). rewrite qsum_app, qsum_cons.
  assert (Hpos : forall l, (0 <= qsum ex1_pi l)%Q) by (intros l; apply qsum_nonneg; intros j _; unfold ex1_pi; destruct (j <? 2); lra).
  pose proof (Hpos a). pose proof (Hpos b). unfold ex1_pi at 2. destruct (Nat.ltb_spec i 2); [lra|lia].
Qed.
(** ... so no tree of depth 1 classifies more than two of the rows correctly. *)
Example C47_case_bound : forall tree label v, tree_over 1 ex1_nodes tree ->
  correct_weight ex1_setup (fun _ => 1%Q) (fun xr => label (tree_leaf 1 ex1_splits tree xr)) v -> (v <= 2)%Q.
Proof.
  intros tree label v Ht Hv. destruct C47_case as (s & rws & kinds & cv & A & F & K & Ho & Hp).
  pose proof (C47_upper_bound _ _ _ _ _ _ _ _ _ _ 0%Q ex1_valid A F K Hp tree label v Ht Hv) as H. rewrite Ho in H. lra.
Qed.

(** Duals that are only right up to 1/1000: the first split has the reduced cost 1/1000 and the dual objective is 2001/1000. *)
Definition ex1_near (i : nat) : Q := match i with 0 => 1001 # 1000 | 1 => 1 | 2 => 1 # 1000 | _ => 0 end.
Lemma ex1_near_nonneg i : (0 <= ex1_near i)%Q.
Proof. destruct i as [|[|[|i]]]; cbn; lra. Qed.
Example C47_any_duals_case : exists s rws kinds cv, after ex1_setup [] [] s /\ formulated ex1_setup rws [] kinds cv s /\
  near_dual (tm_lp s) ex1_near (1 # 1000) /\ ~ near_dual (tm_lp s) ex1_near (1 # 2000) /\ (dual_value (tm_lp s) ex1_near == 2001 # 1000)%Q /\
  forall p v, tree_path 1 ex1_splits p -> uses_candidates ex1_nodes p -> counts_rows ex1_setup (fun _ => 1%Q) p ->
              path_price ex1_setup kinds ex1_near p v -> (v <= 0)%Q.
Proof.
  assert (V : match run_setup ex1_setup [] with Ok (cuts, s) => Some (cuts, map (fun k => (c_lb k, c_ub k)) (lp_cons (tm_lp s)), near_dualb (tm_lp s) ex1_near (1 # 1000),
                Qeq_bool (dual_value (tm_lp s) ex1_near) (2001 # 1000), (lp_max (tm_lp s), nth_error (lp_vars (tm_lp s)) 2, Qeq_bool (reduced_cost (tm_lp s) ex1_near 2) (1 # 1000))) | Err _ => None end =
    Some ([], [(Some 1, Some 1); (Some 1, Some 1); (Some 0, Some 0); (Some 0, Some 0); (Some 0, Some 0); (Some 0, Some 0)]%Q, true, true, (true, Some (mkVar (Some 0%Q) None true), true))) by (vm_compute; reflexivity).
  destruct (run_setup ex1_setup []) as [[cuts s]|] eqn:E; [|discriminate V]. injection V as -> Hb Hk Ho Hm Hv2 Hr.
  assert (A : after ex1_setup [] [] s) by (apply run_setup_after; [constructor|exact E]).
  destruct (C36_formulation _ _ _ _ ex1_valid A) as (rws & kinds & cv & rows & F & _). exists s, rws, kinds, cv.
  split; auto. split; auto. split; [apply near_dualb_ok; auto|]. split.
  { intros [NV _]. specialize (NV 2 _ Hv2). apply Qeq_bool_iff in Hr. rewrite Hm in NV. destruct NV as [_ N2]. specialize (N2 eq_refl). rewrite Hr in N2. lra. }
  split; [apply Qeq_bool_iff; auto|].
  intros p v Hp Hu Hc (cs & Hn & Hcs & Hv). rewrite Hv. pose proof (ex1_cost p Hp Hu Hc) as H1.
  assert (H2 : (1 <= qsum ex1_near cs)%Q); [|lra].
  assert (Hleaf : In (KLeaf (p_leaf p)) kinds) by (apply (fm_leaves _ _ _ _ _ _ _ _ _ _ F); apply Hp).
  apply In_nth_error in Hleaf. destruct Hleaf as [i Hi].
  assert (Hi2 : i < 2).
  { destruct (Forall2_nth_error _ _ _ _ _ (fm_cons _ _ _ _ _ _ _ _ _ _ F) Hi) as (q & Hq & Hbd & _).
    assert (E1 : nth_error (map (fun k => (c_lb k, c_ub k)) (lp_cons (tm_lp s))) i = Some (Some 1, Some 1)%Q) by (rewrite nth_error_map, Hq; cbn [option_map]; rewrite Hbd; reflexivity).
    rewrite Hb in E1. do 6 (destruct i as [|i]; [try lia; discriminate E1|]). destruct i; discriminate E1. }
  assert (Hin : In i cs) by (apply Hcs; exists (KLeaf (p_leaf p)); split; auto; reflexivity).
  apply in_split in Hin. destruct Hin as (a & b & ->). rewrite qsum_app, qsum_cons.
  assert (Hpos : forall l, (0 <= qsum ex1_near l)%Q) by (intros l; apply qsum_nonneg; intros j _; apply ex1_near_nonneg).
  pose proof (Hpos a). pose proof (Hpos b). assert (1 <= ex1_near i)%Q by (destruct i as [|[|i]]; [cbn; lra|cbn; lra|lia]). lra.
Qed.
Example C47_any_duals_bound : forall tree label v, tree_over 1 ex1_nodes tree ->
  correct_weight ex1_setup (fun _ => 1%Q) (fun xr => label (tree_leaf 1 ex1_splits tree xr)) v -> (v <= 2002 # 1000)%Q.
Proof.
  intros tree label v Ht Hv. destruct C47_any_duals_case as (s & rws & kinds & cv & A & F & K & _ & Ho & Hp).
  pose proof (C47_any_duals _ _ _ _ _ _ _ _ _ _ 0%Q ex1_valid A F K Hp tree label v Ht Hv) as H. rewrite Ho in H.
  change (inject_Z (Z.of_nat (2 ^ su_depth ex1_setup - 1))) with 1%Q in H. change (inject_Z (Z.of_nat (2 ^ su_depth ex1_setup))) with 2%Q in H. lra.
Qed.

(** * C58: a path may use a split that is not a candidate of its node *)

(** The arguments pass the constructor's checks; the integer program has a solution whose paths agree with no decision tree,
    and a training row that follows none of them. *)
Definition bad_splits : list split :=
  [mkSplit 0 0 (1 # 2) false [0] [1; 2] [] []; mkSplit 1 0 (3 # 2) false [0; 1] [2] [] []; mkSplit 2 0 (5 # 2) false [0; 1; 2] [] [] []].
Definition bad_setup : setup :=
  mkSetup 1 [[0]; [1]; [2]]%Q [0; 1; 0] [mkNode 0 [2] None 0 0 false] bad_splits [mkPath 0 [0] [0] 1 0 0 true; mkPath 1 [0] [1] 1 0 0 true] false true 3 None.
Theorem C58_refuted : exists u s x, valid_setup u /\
  check_arguments (su_paths u) (su_leaves u) (su_nodes u) (su_splits u) (su_depth u) [0; 1]%Z = Ok tt /\
  after u [] [] s /\ ip_optimal (tm_lp s) x /\
  let sel := filter (fun p => Qltb 0 (x (p_id p))) (tm_paths s) in
  Forall (tree_path (su_depth u) (su_splits u)) sel /\ (forall tree, ~ Forall (agrees tree) sel) /\
  exists r xr, nth_error (su_X u) r = Some xr /\ forall p, In p sel -> ~ covers (su_X u) (su_leaves u) (su_splits u) (KRow r) p.
Proof.
  assert (V : match run_setup bad_setup [] with Ok (cuts, s) => Some (cuts, tm_paths s, kktb (tm_lp s) (fun j => if j <? 2 then 1 else 0)%Q ex1_pi,
                ip_feasibleb (tm_lp s) (fun j => if j <? 2 then 1 else 0)%Q) | Err _ => None end =
    Some ([], [mkPath 0 [0] [0] 1 0 0 true; mkPath 1 [0] [1] 1 1 0 true], true, true)) by (vm_compute; reflexivity).
  destruct (run_setup bad_setup []) as [[cuts s]|] eqn:E; [|discriminate V]. injection V as -> Hp Hk Hi.
  exists bad_setup, s, (fun j => if j <? 2 then 1 else 0)%Q. split; [apply valid_setup_ok; [vm_compute|]; reflexivity|]. split; [reflexivity|].
  split; [apply run_setup_after; [constructor|exact E]|].
  split; [eapply kkt_ip_optimal; [apply kktb_ok; exact Hk|apply ip_feasibleb_ok; exact Hi]|].
  cbv zeta. rewrite Hp. cbn [filter p_id Nat.ltb Nat.leb]. change (Qltb 0 1) with true. cbn [andb].
  split; [|split].
  - repeat constructor; cbn; lia.
  - intros tree Ha. inversion Ha as [|? ? H1 H2]; subst. inversion H2 as [|? ? H3 _]; subst.
    specialize (H1 0 0 (or_introl eq_refl)). specialize (H3 0 1 (or_introl eq_refl)). congruence.
  - exists 1, [1]%Q. split; [reflexivity|]. intros p Hin Hc. apply covb_iff in Hc.
    destruct Hin as [<-|[<-|[]]]; vm_compute in Hc; discriminate.
Qed.
Print Assumptions C58_refuted.

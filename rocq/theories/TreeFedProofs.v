(** Histories of a subproblem: its model is always the one for the duals it was last given. *)
From Verif Require Import Base Lp LpProofs SolveModel TreeModel SpecTree SpecTreeRun SpecTreeLp SpecTreePrice SpecTreeMip TreePricingModel TreeGeoProofs
  TreePathProofs TreeLpBuild TreeBuildProofs TreeInvProofs TreeOpProofs TreeMasterProofs TreeSolProofs TreePriceProofs TreeHeurProofs TreeSymProofs
  TreeSubmipProofs TreeDecodeProofs TreeMipProofs TreeColsProofs PropTreePrice.
Open Scope nat_scope.

Lemma run_ops_app a b : forall s c1 s1 c2 s2, run_ops a s = Ok (c1, s1) -> run_ops b s1 = Ok (c2, s2) -> run_ops (a ++ b) s = Ok (c1 ++ c2, s2).
Proof.
  induction a as [|o a IH]; intros s c1 s1 c2 s2 E1 E2; cbn [run_ops app] in *.
  - injection E1 as <- <-. exact E2.
  - destruct (do_op o s) as [[c s']|] eqn:Eo; [|discriminate]. cbn [bind] in *. destruct (run_ops a s') as [[c' s'']|] eqn:Ea; [|discriminate].
    cbn [bind] in E1. injection E1 as <- <-. rewrite (IH _ _ _ _ _ Ea E2). cbn [bind]. rewrite app_assoc. reflexivity.
Qed.
Lemma solved_after u ops cuts sv dl s x pi : solved u ops cuts sv dl s x pi -> after u (ops ++ [Solve sv]) cuts s.
Proof.
  intros (s0 & old & (Hl & sg & Eg & Er) & Hsv & E & -> & _). split; [apply Forall_app; split; [auto|repeat constructor; exact Hsv]|].
  exists sg. split; auto. eapply run_ops_app; eauto. cbn [run_ops do_op]. rewrite E. cbn [bind]. rewrite app_nil_r. reflexivity.
Qed.

Section Solved.
Variables (u : setup).
Hypotheses (V : valid_setup u) (D : valid_data u) (HR : rows_agree u).
Variables (ops : list mop) (cuts : list (list bool)) (sv : tsolvers) (dl : tduals) (s : tmaster) (x pi : nat -> Q).
Hypothesis S : solved u ops cuts sv dl s x pi.

Lemma solved_duals l : l < 2 ^ su_depth u -> good_duals u l (length cuts) dl.
Proof.
  intros Hl. destruct (solved_inv _ _ _ _ _ _ _ _ V S) as (kinds & H & R). constructor.
  - rewrite (rp_leaves _ _ _ _ _ _ _ R). auto.
  - apply (rp_rows _ _ _ _ _ _ _ R).
  - rewrite (rp_cuts _ _ _ _ _ _ _ R), map_length. apply (ti_cut_len _ _ _ _ _ _ _ H).
  - intros n k Hn Hk. assert (Hin : In (KChoice l n k) kinds).
    { apply (ti_ns_in _ _ _ _ _ _ _ H). apply ns_triples_In. unfold cands in Hk. destruct (nth_error (su_nodes u) n) as [nd|] eqn:E; [|destruct Hk].
      exists (create_leaf l (su_depth u)), n, nd. pose proof V as (wf & _). destruct (wt_nodes _ _ _ _ wf) as [_ Hi].
      split; [apply complete_leaves_In; eauto|]. split; [apply create_leaf_id; auto|]. repeat split; eauto. }
    apply In_nth_error in Hin. destruct Hin as [i Hi]. exists (pi i). apply (rp_choice _ _ _ _ _ _ _ R). eauto.
Qed.
Lemma solved_nodes : Forall2 same_node (tm_nodes s) (su_nodes u) /\ Forall2 same_core (tm_splits s) (su_splits u).
Proof. destruct (solved_inv _ _ _ _ _ _ _ _ V S) as (kinds & H & R). split; [apply (ti_nodes _ _ _ _ _ _ _ H)|apply (ti_splits _ _ _ _ _ _ _ H)]. Qed.
Lemma solved_cut_lengths : Forall (fun z => length z = length (su_splits u)) cuts.
Proof. destruct (solved_inv _ _ _ _ _ _ _ _ V S) as (kinds & H & R). apply (ti_zs _ _ _ _ _ _ _ H). Qed.
Lemma solved_zero i : i < length (su_X u) -> wt u i = None -> (nth i (d_row dl) 0 == 0)%Q.
Proof.
  intros Hi Hw. destruct (solved_inv _ _ _ _ _ _ _ _ V S) as (kinds & H & R).
  assert (Hn : ~ In (KRow i) kinds).
  { intros Hin. destruct (after_inv u _ _ _ V (solved_after _ _ _ _ _ _ _ _ S)) as (kinds' & H' & _ & _ & _ & _ & _ & rows & Er & _ & Hg & _ & Hs).
    apply (ti_added _ _ _ _ _ _ _ H i Hi) in Hin. apply (ti_added _ _ _ _ _ _ _ H' i Hi) in Hin. apply Hg in Hin. destruct Hin as (dr & Ed & Eg).
    unfold wt, wt_of in Hw. destruct (su_rows u) as [rows0|] eqn:E0; [|discriminate].
    destruct (Forall2_nth_l _ _ _ _ _ Hs Ed) as (dr0 & Ed0 & Hsame). rewrite Ed0 in Hw. destruct (r_gone_sp dr0) eqn:Esp; [|discriminate].
    pose proof (HR rows0 i dr0 E0 Ed0 Esp) as Hg0. destruct Hsame as (_ & _ & _ & _ & Hgg & _). congruence. }
  pose proof (rp_row0 _ _ _ _ _ _ _ R i Hi Hn) as E. rewrite (nth_error_nth _ _ _ E). reflexivity.
Qed.
End Solved.

Lemma is_old_weight c : is_old c = negb (counts_weight c).
Proof. destruct c; reflexivity. Qed.

Section Fed.
Variables (u : setup) (c : pclass) (l nt : nat) (targets : list Z).
Hypotheses (V : valid_setup u) (D : valid_data u) (Hl : l < 2 ^ su_depth u) (HC : classes_ok u c nt targets).
Let lf := create_leaf l (su_depth u).

Lemma hc_nt : is_old c = false -> Forall (fun t => t < nt) (su_y u).
Proof. intros Ho. rewrite is_old_weight in Ho. apply HC. destruct (counts_weight c); auto. Qed.
Lemma hc_tg : is_old c = false -> Permutation targets (map Z.of_nat (seq 0 nt)).
Proof. intros Ho. rewrite is_old_weight in Ho. apply HC. destruct (counts_weight c); auto. Qed.

Lemma refresh_solved ops cuts sv dl s x pi pr : solved u ops cuts sv dl s x pi -> alive u c l nt cuts pr ->
  exists pr' names, refresh c lf (tm_nodes s) (tm_splits s) targets (su_depth u) (su_rows u) (su_X u) (su_y u) dl pr = Ok pr' /\
    built u c l nt cuts (length cuts) (cf u c l dl) (- nth l (d_leaf dl) 0)%Q names pr'.
Proof.
  intros S A. destruct (solved_nodes u V _ _ _ _ _ _ _ S) as [Hn Hs].
  apply (refresh_ok u c l nt V D Hl hc_nt _ _ Hn Hs targets dl (length cuts)); auto; [apply HC|eapply solved_duals; eauto].
Qed.
Lemma update_solved old ops sv dl s x pi pr : solved u ops (old ++ d_new_cuts dl) sv dl s x pi -> alive u c l nt old pr ->
  exists pr', update_subproblem c lf (tm_nodes s) (tm_splits s) targets (su_depth u) (su_rows u) (su_X u) (su_y u) dl pr = Ok pr' /\
    alive u c l nt (old ++ d_new_cuts dl) pr' /\
    (is_sat c = false -> exists names, built u c l nt (old ++ d_new_cuts dl) (length (old ++ d_new_cuts dl)) (cf u c l dl) (- nth l (d_leaf dl) 0)%Q names pr').
Proof.
  intros S A. destruct (solved_nodes u V _ _ _ _ _ _ _ S) as [Hn Hs].
  apply (update_subproblem_ok u c l nt V D Hl hc_nt _ _ Hn Hs targets dl (length (old ++ d_new_cuts dl))); auto; [apply HC|eapply solved_duals; eauto|].
  pose proof (solved_cut_lengths u V _ _ _ _ _ _ _ S) as HF. apply Forall_app in HF. apply HF.
Qed.
Lemma fed_alive cuts pr : fed u c l targets cuts pr -> alive u c l nt cuts pr.
Proof.
  induction 1 as [|old pr ops sv dl s x pi pr' _ IH S E|cuts pr ops sv dl s x pi rs solver sub ps sub' pr' _ IH S E].
  - left. auto.
  - destruct (update_solved _ _ _ _ _ _ _ _ S IH) as (pr2 & E2 & A & _). unfold lf in E2. rewrite E in E2. injection E2 as <-. auto.
  - destruct (refresh_solved _ _ _ _ _ _ _ _ S IH) as (pr2 & names & E2 & B). unfold sat_generate in E. unfold lf in E2. rewrite E2 in E. cbn [bind] in E.
    destruct (getitem (d_leaf dl) _); [|discriminate]. cbn [bind] in E. destruct (solve_model _ _ _ _) as [sub1 [st|]]; [|discriminate]. cbn [bind] in E.
    destruct (for_each _ _ _); [|discriminate]. cbn [bind] in E. injection E as _ _ <-. right. exists dl, (length cuts), (- nth l (d_leaf dl) 0)%Q, names. auto.
Qed.

(** * Values of classes *)

Definition cval (pick : nat -> nat) (t : nat) : Q := match c with COld _ => csum u l pick t | _ => wsum u l pick t end.
Lemma active_wt i : i < length (su_X u) -> (active u i <-> wt u i <> None).
Proof.
  clear - V. intros Hi. pose proof V as (_ & _ & Hr). unfold active, wt, wt_of. destruct (su_rows u) as [rows|]; [|split; [discriminate|auto]].
  destruct Hr as [Hr _]. destruct (nth_error rows i) as [dr|] eqn:E.
  - split.
    + intros (dr' & E' & H). injection E' as <-. rewrite H. discriminate.
    + intros H. exists dr. split; auto. destruct (r_gone_sp dr); [congruence|auto].
  - apply nth_error_None in E. lia.
Qed.
Lemma count_of pick p t : pick_path u l pick p -> exists v, class_count u p t v /\ (inject_Z (Z.of_nat v) == csum u l pick t)%Q.
Proof.
  clear - V D Hl. intros P. set (b := fun i => match wt u i with Some _ => walks u l pick (row_left u i) && (label u i =? t) | None => false end).
  exists (length (filter b (seq 0 (length (su_X u))))). split.
  - exists (filter b (seq 0 (length (su_X u)))). split; [apply NoDup_filter, seq_NoDup|]. split; auto. intros r. rewrite filter_In, in_seq, (pick_row u l Hl pick p r P).
    unfold b. split.
    + intros [Hr Hb]. destruct (wt u r) eqn:Ew; [|discriminate]. apply Bool.andb_true_iff in Hb. destruct Hb as [Hb1 Hb2]. apply Nat.eqb_eq in Hb2.
      split; [|split; [apply active_wt; [lia|congruence]|split; [lia|auto]]]. rewrite <- Hb2. unfold label. apply nth_error_nth'. destruct D as [-> _]. lia.
    + intros (Ht & Ha & Hr & Hwk). split; [lia|]. apply active_wt in Ha; auto. destruct (wt u r); [|congruence]. rewrite Hwk. cbn [andb]. apply Nat.eqb_eq.
      unfold label. rewrite (nth_error_nth _ _ _ Ht). reflexivity.
  - unfold csum. transitivity (qsum (fun _ => 1%Q) (filter b (seq 0 (length (su_X u))))); [rewrite qsum_const; lra|]. rewrite qsum_filter. apply qsum_ext.
    intros i _. unfold b. destruct (wt u i); [|reflexivity]. destruct (walks u l pick (row_left u i) && (label u i =? t)); reflexivity.
Qed.
Lemma class_count_unique p t v v' : class_count u p t v -> class_count u p t v' -> v = v'.
Proof.
  intros (rs & N & -> & I) (rs' & N' & -> & I'). apply Permutation_length, NoDup_Permutation; auto. intros r. rewrite I, I'. reflexivity.
Qed.
Lemma cval_exists pick p t : pick_path u l pick p -> exists v, class_value u c p t v /\ (inject_Z (Z.of_nat v) == cval pick t)%Q.
Proof.
  clear - V D Hl. intros P. unfold class_value, cval. destruct (count_of pick p t P) as (v & H1 & H2). destruct (wsum_exists u l V D Hl pick p t P) as (v' & H3 & H4). destruct c; eauto.
Qed.
Lemma cval_value pick p t v : pick_path u l pick p -> class_value u c p t v -> (inject_Z (Z.of_nat v) == cval pick t)%Q.
Proof.
  intros P Hv. destruct (cval_exists pick p t P) as (v' & H1 & H2). rewrite <- H2. assert (v = v'); [|subst; reflexivity]. unfold class_value in *.
  destruct c; [eapply class_weight_unique|eapply class_weight_unique|eapply class_count_unique]; eauto.
Qed.

(** * One refreshed model *)
Section Model.
Variables (dl : tduals) (cuts : list (list bool)) (names : list vkind) (pr : pricing).
Hypothesis H0 : forall i, i < length (su_X u) -> wt u i = None -> (nth i (d_row dl) 0 == 0)%Q.
Hypothesis B : built u c l nt cuts (length cuts) (cf u c l dl) (- nth l (d_leaf dl) 0)%Q names pr.

Lemma shape_marks x pick p : shape u l (vals names x) pick cuts -> pick_path u l pick p -> marks u cuts pr x p.
Proof.
  intros S P. assert (Hv : forall b q, (q == ind b)%Q -> (q == 0 \/ q == 1)%Q /\ ((q == 1)%Q <-> b = true)).
  { intros [|] q E; cbn [ind] in E; (split; [auto|]); split; intros H; auto; try discriminate. rewrite E in H. discriminate. }
  split.
  - intros r Hr Ha. apply active_wt in Ha; auto. exists (at_ names (VY r)). split.
    + rewrite (bu_y _ _ _ _ _ _ _ _ _ _ B), nth_error_map, seq_nth_error by auto. cbn [option_map Nat.add]. destruct (wt u r); [reflexivity|congruence].
    + destruct (Hv _ _ (sh_y _ _ _ _ _ S r Hr Ha)) as [E1 E2]. unfold vals in *. split; auto. rewrite E2, (pick_row u l Hl pick p r P). intuition.
  - intros j z Ez. assert (Hj : j < length cuts) by (apply nth_error_Some; congruence). exists (at_ names (VC j)). split.
    + rewrite (bu_yc _ _ _ _ _ _ _ _ _ _ B), nth_error_map, seq_nth_error by auto. reflexivity.
    + destruct (Hv _ _ (sh_c _ _ _ _ _ S j z Ez)) as [E1 E2]. unfold vals in *. split; auto. rewrite E2, (pick_cut u l Hl pick p z P). reflexivity.
Qed.
Lemma decoded_path_to val pick p : decoded u c l nt cuts val pick p -> path_to u l p.
Proof.
  intros H. pose proof (de_path _ _ _ _ _ _ _ _ H) as P. destruct (pick_tree u l V Hl pick p (de_pick _ _ _ _ _ _ _ _ H) P) as [H1 H2].
  split; auto. split; auto. apply P.
Qed.
Lemma decoded_fair x pick p : ip_feasible (pr_lp pr) x -> decoded u c l nt cuts (vals names x) pick p -> fair_class u c nt p.
Proof.
  intros Hx H. pose proof (de_path _ _ _ _ _ _ _ _ H) as P. pose proof (de_target _ _ _ _ _ _ _ _ H) as Ht. unfold fair_class.
  assert (Hold : forall t, c = COld t -> (p_cost p == cval pick t)%Q).
  { intros t Ec. rewrite (de_cost _ _ _ _ _ _ _ _ H), (cost_old u c l nt Hl hc_nt cuts _ pick t Ec (de_shape _ _ _ _ _ _ _ _ H)). unfold cval. rewrite Ec. reflexivity. }
  assert (Hex : forall t, exists v, class_value u c p t v /\ (inject_Z (Z.of_nat v) == cval pick t)%Q) by (intros t; apply cval_exists; auto).
  assert (Hn : is_old c = false -> exists n, (p_cost p == inject_Z (Z.of_nat n))%Q).
  { intros Ho. apply (vals_point u c l nt dl cuts names pr B) in Hx. destruct (cost_whole u c l nt Hl hc_nt cuts (vals names x) Ho Hx) as [n Hn]. exists n.
    rewrite (de_cost _ _ _ _ _ _ _ _ H). exact Hn. }
  assert (Hle : forall t v n, (inject_Z (Z.of_nat v) == cval pick t)%Q -> (p_cost p == inject_Z (Z.of_nat n))%Q -> (p_cost p <= cval pick t)%Q -> n <= v).
  { intros t v n E1 E2 Hc. rewrite E2, <- E1, <- Zle_Qle in Hc. lia. }
  clear - Ht Hold Hex Hn Hle. unfold cval in *. destruct c as [| |t0].
  - destruct Ht as [(_ & H2 & H3)|(t & H1 & H2 & H3 & H4)]; [right; auto|]. left. destruct (Hex t) as (v & Hv & Ev). destruct (Hn eq_refl) as [n En]. exists t, v, n. cbn [own_class]. repeat split; eauto.
  - destruct Ht as [(H1 & _)|(t & H1 & H2 & H3 & H4)]; [discriminate|]. left. destruct (Hex t) as (v & Hv & Ev). destruct (Hn eq_refl) as [n En]. exists t, v, n. cbn [own_class]. repeat split; eauto.
  - left. destruct (Hex t0) as (v & Hv & Ev). exists t0, v, v. cbn [own_class]. repeat split; eauto. rewrite (Hold t0 eq_refl), Ev. reflexivity.
Qed.

(** Every path to the leaf with one of the classes is an integral point. *)
Lemma path_point p : path_to u l p -> exact_class u c nt p ->
  exists x pick, ip_feasible (pr_lp pr) x /\ pick_path u l pick p /\ picks u l pick /\ shape u l (vals names x) pick cuts /\ (cost_of u c (vals names x) == p_cost p)%Q.
Proof.
  intros (H1 & H2 & H3) (t & v & Ho & _ & Hv & Ec). destruct (path_pick u l p H1 H2 H3) as (pick & P & Hp).
  assert (Ht : is_old c = false -> t < nt) by (intros Hi; clear - Ho Hi; destruct c; try discriminate; exact Ho).
  destruct (encode_ok u c l nt V Hl hc_nt dl cuts names pr B pick t Hp Ht) as (x & Hx & S & _ & Hcost). exists x, pick.
  split; auto. split; auto. split; auto. split; auto. rewrite Hcost, Ec, (cval_value pick p t v P Hv). clear - Ho. unfold cval. destruct c; cbn [own_class] in Ho; subst; reflexivity.
Qed.
Lemma path_price_value x pick p v : pick_path u l pick p -> picks u l pick -> shape u l (vals names x) pick cuts -> (cost_of u c (vals names x) == p_cost p)%Q ->
  reported_price u cuts dl p v -> (qsum (fun kd => cf u c l dl kd * vals names x kd) names - nth l (d_leaf dl) 0 == v)%Q.
Proof.
  intros P Hp S Ec Hv. rewrite (vals_value u c l nt V Hl dl cuts H0 names pr B x pick Hp S), Ec.
  pose proof (pick_price u l Hl dl cuts pick p P) as Hv'. rewrite (reported_price_unique _ _ _ _ _ _ Hv Hv'). lra.
Qed.
Lemma objective_names x : is_sat c = false -> (objective_value (pr_lp pr) x == qsum (fun kd => cf u c l dl kd * vals names x kd) names - nth l (d_leaf dl) 0)%Q.
Proof.
  intros Es. rewrite (sym_objective _ _ _ (pr_orig pr) _ _ _ x (bu_sym _ _ _ _ _ _ _ _ _ _ B) (bu_obj _ _ _ _ _ _ _ _ _ _ B)).
  rewrite (bu_off _ _ _ _ _ _ _ _ _ _ B). apply Qplus_comp; [|reflexivity]. apply qsum_ext. intros kd _. unfold scl. rewrite Es. reflexivity.
Qed.
End Model.
End Fed.

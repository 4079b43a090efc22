(** Lemmas about ReuseModel.v. *)
From Verif Require Import Base Lp LpProofs FitModel SpecFit FitProofs FitEventProofs FitMainProofs FitHoareProofs SolveModel SolveObs TreeModel TreePricingModel TreeFitModel SpecTree SpecTreeRun SpecTreeLp
  SpecTreePrice SpecTreeMip SpecTreeFit SpecTreeTrain SpecTreeResult TreeGeoProofs TreePathProofs TreeLpBuild TreeBuildProofs TreeInvProofs TreeMasterProofs TreeFormProofs TreeSolProofs
  TreeLpProofs TreePriceProofs TreeHeurProofs TreeFedProofs TreeTrainProofs TreeTrainInvProofs TreeTrainCertProofs TreeResultProofs TreeOutcomeProofs TreeInitProofs TreeRunProofs TreeCutProofs CutCountProofs CutPaceProofs PropTreeLp PropTreePrice.
From Verif Require Import ReuseModel.
Open Scope nat_scope.

Lemma nth_seq n k : nth_error (seq 0 n) k = if k <? n then Some k else None.
Proof.
  destruct (Nat.ltb_spec k n) as [L|L]; [|apply nth_error_None; rewrite seq_length; exact L].
  rewrite (nth_error_nth' _ 0) by (rewrite seq_length; exact L). rewrite seq_nth by exact L. reflexivity.
Qed.
Lemma nth_combine {P Q} : forall (l : list P) (m : list Q) i a b, nth_error l i = Some a -> nth_error m i = Some b -> In (a, b) (combine l m).
Proof. induction l as [|x l IH]; intros [|z m] [|i] a b; cbn; try discriminate; [intros E F; injection E as ->; injection F as ->; auto|intros E F; right; eapply IH; eauto]. Qed.

(** * Without generated cuts *)
Definition cutless (s : tmaster) : Prop := tm_gen_cuts s = false /\ tm_cut_cons s = [].
Lemma beta_cutless s k s' : add_beta_cuts s = Ok (k, s') -> cutless s -> cutless s'.
Proof.
  unfold add_beta_cuts. destruct (assert _); [|discriminate]. cbn [bind]. destruct (tm_data_rows s); [|discriminate]. cbn [bind].
  destruct (beta_loop _ _ _ _ _) as [[num [[m rc] ad]]|] eqn:E; [|discriminate]. cbn [bind]. intros E'. injection E' as <- <-. intros H. exact H.
Qed.
Lemma rounds_cutless sv : forall n s new out s', cut_rounds sv n s new = Ok (out, s') -> cutless s -> cutless s'.
Proof.
  induction n as [|n IH]; intros s new out s' E G; cbn [cut_rounds] in E; [injection E as _ <-; exact G|].
  destruct (tm_answer s) as [[x pi]|]; [|injection E as _ <-; exact G].
  assert (B : forall nb s2, (if tm_beta_cuts (store_lp_solution x s) then add_beta_cuts (store_lp_solution x s) else Ok (0, store_lp_solution x s)) = Ok (nb, s2) -> cutless s2).
  { intros nb s2 E2. destruct (tm_beta_cuts _); [eapply beta_cutless; [exact E2|exact G]|injection E2 as <- <-; exact G]. }
  destruct (if tm_beta_cuts _ then _ else _) as [[nb s2]|] eqn:E2; [|discriminate]. cbn [bind] in E. pose proof (B _ _ eq_refl) as B1. clear B E2.
  rewrite (proj1 B1) in E. cbn [andb bind length] in E.
  destruct ((0 <? 0) || (0 <? nb))%bool; [|injection E as _ <-; exact B1]. eapply IH; [exact E|exact B1].
Qed.
Lemma solve_cutless sv s d s' : solve_rmp sv s = Ok (d, s') -> cutless s -> cutless s'.
Proof.
  unfold solve_rmp. destruct (assert _); [|discriminate]. cbn [bind]. intros E G.
  destruct (if _ =? 0 then _ else _) as [[nc s2]|] eqn:E2; [|discriminate]. cbn [bind] in E.
  assert (P : cutless s2). { destruct (_ =? 0); [eapply rounds_cutless; [exact E2|exact G]|injection E2 as _ <-; exact G]. }
  destruct (tm_answer s2) as [[x pi]|]; [|injection E as _ <-; exact P]. destruct (read_duals _ _ _); [|discriminate]. cbn [bind] in E. injection E as _ <-. exact P.
Qed.
Lemma add_cutless p s b s' : add_column p s = Ok (b, s') -> cutless s -> cutless s'.
Proof.
  unfold add_column. cbn [new_var]. intros E. destruct (column_leaf _ _ _ _ _); [|discriminate]. cbn [bind] in E.
  repeat match type of E with context [bind ?r _] => destruct r as [?|]; [cbn [bind] in E|discriminate E]; repeat match type of E with context [let '(_, _) := ?q in _] => destruct q end end.
  injection E as _ <-. intros H. exact H.
Qed.
Lemma fit_cutless sv A clk X y fuel s s' : tree_fit sv A clk X y fuel s = (s', Done tt) -> tm_gen_cuts (tw_master (f_world s)) = false ->
  tm_generated (tw_master (f_world s)) = false -> cutless (tw_master (f_world s')).
Proof.
  intros E G Gn.
  refine (fit_invariant (tree_env sv A clk X y) (fun w t => cutless (tw_master w)) _ _ _ _ _ _ _ _ fuel _ s s' E _).
  - intros w t d w' H I. cbn [c_solve_rmp tree_env] in H. unfold tree_solve_rmp in H. destruct (solve_rmp _ _) as [[d' s1]|] eqn:Es; [|discriminate]. cbn [bind] in H. injection H as _ <-.
    eapply solve_cutless; [exact Es|exact I].
  - intros w t b w' H I. cbn [c_improved tree_env] in H. injection H as _ <-. exact I.
  - intros w t I. exact I.
  - intros l i d w t w' H I. cbn [c_update tree_env] in H. unfold tree_update in H. destruct (l =? 0).
    + destruct (heur_update _ _ _) as [[h sp]|]; [|discriminate]. cbn [bind] in H. injection H as <-. exact I.
    + destruct (getitem _ i) as [[c lf]|]; [|discriminate]. cbn [bind] in H. destruct (getitem (tw_subs w) i) as [[sub pr]|]; [|discriminate]. cbn [bind] in H.
      destruct (update_subproblem _ _ _ _ _ _ _ _ _ _ _); [|discriminate]. cbn [bind] in H. injection H as <-. exact I.
  - intros l i e w t I. exact I.
  - intros l i d w t cols w' H I. cbn [c_generate tree_env] in H. unfold tree_generate in H. destruct (l =? 0).
    + destruct (heur_generate _ _ _ _ _ _ _ _ _ _) as [[ps h]|]; [|discriminate]. cbn [bind] in H. injection H as _ <-. exact I.
    + destruct (getitem _ i) as [[c lf]|]; [|discriminate]. cbn [bind] in H. destruct (getitem (tw_subs w) i) as [[sub pr]|]; [|discriminate]. cbn [bind] in H. destruct (is_sat c).
      * destruct (sat_generate _ _ _ _ _ _ _ _ _ _ _ _ _ _) as [[ps [sub1 pr1]]|]; [|discriminate]. cbn [bind] in H. injection H as _ <-. exact I.
      * destruct (mip_generate _ _ _ _ _ _ _ _ _) as [ps|]; [|discriminate]. cbn [bind] in H. injection H as _ <-. exact I.
  - intros l i c w t b w' H I. cbn [c_add tree_env] in H. unfold tree_add in H. destruct (add_column c (tw_master w)) as [[b' s1]|] eqn:Ea; [|discriminate]. cbn [bind] in H. injection H as <- <-.
    eapply add_cutless; [exact Ea|exact I].
  - intros w t b w' H I. cbn [c_solve_ip tree_env] in H. unfold tree_solve_ip in H. destruct (solve_ip _ _) as [[b' s1]|] eqn:Es; [|discriminate]. cbn [bind] in H. injection H as _ <-.
    unfold solve_ip in Es. destruct (assert _); [|discriminate]. cbn [bind] in Es. destruct (tv_ip _ _ _); [|discriminate]. injection Es as _ <-. exact I.
  - intros w H. cbn [c_generate_mp tree_env] in H. unfold tree_generate_mp in H. destruct (generate_mp _ _ _) as [m0|] eqn:E0; [|discriminate]. cbn [bind] in H. injection H as <-.
    cbn [tw_master]. unfold generate_mp in E0. rewrite Gn in E0. destruct (create_cut_gen_model _ _ _); [|discriminate]. cbn [bind] in E0. destruct (make_path_vars _ _). destruct (make_leaf_cons _ _ _) as [[? ?]|]; [|discriminate].
    cbn [bind] in E0. destruct (match tm_rows (tw_master (f_world s)) with None => _ | _ => _ end) as [[? rows]|]; [|discriminate]. cbn [bind] in E0.
    destruct (make_row_cons _ _ _ _ _ _ _) as [[[m4 rc] ad]|]; [|discriminate]. cbn [bind] in E0. destruct (for_ns _ _ _ _) as [[[? ?] ?]|]; [|discriminate]. cbn [bind] in E0. injection E0 as <-.
    split; [exact G|reflexivity].
Qed.

(** * The arguments after a training *)
Section After.
Variables (A : targs) (X : list sample) (y : list nat).
Local Notation u := (fit_setup A X y).
Local Notation d := (ta_depth A).
Hypothesis R : trainable A X y.
Variables (kinds : list ckind) (zs : list (list bool)) (s : tmaster).
Hypothesis H : uinv u kinds zs s.
Let N : Forall2 same_node (tm_nodes s) (ta_nodes A) := ti_nodes _ _ _ _ _ _ _ H.
Let S : Forall2 same_core (tm_splits s) (ta_splits A) := ti_splits _ _ _ _ _ _ _ H.

Lemma again_covers r p : covers X (complete_leaves d) (tm_splits s) (KRow r) p <-> covers X (complete_leaves d) (ta_splits A) (KRow r) p.
Proof.
  assert (F : forall lf x, follows lf (goes_left (tm_splits s) x) p <-> follows lf (goes_left (ta_splits A) x) p).
  { intros lf x. unfold follows. split; intros K n k Hk; specialize (K n k Hk); [rewrite <- (same_core_left _ _ x k S)|rewrite (same_core_left _ _ x k S)]; exact K. }
  cbn [covers]. split; intros (x & lf & A1 & A2 & A3); exists x, lf; (split; [exact A1|split; [exact A2|apply F; exact A3]]).
Qed.
Lemma again_tree_path p : tree_path d (tm_splits s) p <-> tree_path d (ta_splits A) p.
Proof. unfold tree_path. rewrite (Forall2_length' _ _ _ S). tauto. Qed.
Lemma again_uses p : uses_candidates (tm_nodes s) p <-> uses_candidates (ta_nodes A) p.
Proof.
  unfold uses_candidates. split; intros K n k Hk; destruct (K n k Hk) as (nd & E & Hin).
  - destruct (Forall2_nth_l _ _ _ _ _ N E) as (nd' & E' & _ & Ec). exists nd'. rewrite <- Ec. auto.
  - destruct (Forall2_nth_r _ _ _ _ _ N E) as (nd' & E' & _ & Ec). exists nd'. rewrite Ec. auto.
Qed.
Lemma again_tree_over tree : tree_over d (tm_nodes s) tree <-> tree_over d (ta_nodes A) tree.
Proof.
  unfold tree_over. split; intros K n nd Hn E.
  - destruct (Forall2_nth_r _ _ _ _ _ N E) as (nd' & E' & _ & Ec). rewrite <- Ec. eapply K; eauto.
  - destruct (Forall2_nth_l _ _ _ _ _ N E) as (nd' & E' & _ & Ec). rewrite Ec. eapply K; eauto.
Qed.
Lemma again_wf : zs = [] -> wf_tree d X (tm_nodes s) (tm_splits s).
Proof.
  intros Z. destruct (proj1 (tr_setup _ _ _ R)) as [W1 W2 W3 W4 W5 W6 W7 W8 W9]. cbn in *. constructor; auto.
  - destruct W3 as (L & I). split; [rewrite (Forall2_length' _ _ _ N); exact L|]. intros i n E. destruct (Forall2_nth_l _ _ _ _ _ N E) as (m & E' & Ei & _). rewrite Ei. apply I, E'.
  - intros n Hn. destruct (Forall2_In_l _ _ _ _ N Hn) as (m & Hm & _ & Ec). rewrite Ec, (Forall2_length' _ _ _ S). apply W4, Hm.
  - intros k sp E. destruct (Forall2_nth_l _ _ _ _ _ S E) as (t & E' & Ei & _). rewrite Ei. eapply W5, E'.
  - intros i j a b Ea Eb Hij Ef. destruct (Forall2_nth_l _ _ _ _ _ S Ea) as (a' & Ea' & _ & Fa & Ta & _). destruct (Forall2_nth_l _ _ _ _ _ S Eb) as (b' & Eb' & _ & Fb & Tb & _).
    rewrite Ta, Tb. eapply W6; eauto. congruence.
  - eapply Forall_impl; [|exact W7]. intros x Hx. eapply core_fits; eauto.
  - intros sp Hsp. destruct (Forall2_In_l _ _ _ _ S Hsp) as (t & Ht & _ & Ef & Et & El & Er). rewrite El, Er. unfold sample_left. rewrite Ef, Et. apply W8, Ht.
  - intros sp Hsp. apply In_nth_error in Hsp as (k & Ek). destruct (ti_sides _ _ _ _ _ _ _ H k sp Ek) as (L & Rr & _). subst zs.
    assert (Z : forall c z, nth_error (@nil (list bool)) c = Some z -> False) by (intros [|c] z E; discriminate).
    split; [destruct (s_lcuts sp) as [|c l]|destruct (s_rcuts sp) as [|c l]]; auto; exfalso.
    + destruct (proj1 (L c) (or_introl eq_refl)) as (z & E & _). eapply Z; eauto.
    + destruct (proj1 (Rr c) (or_introl eq_refl)) as (z & E & _). eapply Z; eauto.
Qed.
Lemma again_trainable : zs = [] -> proper_paths u (tm_paths s) -> (exists tree sel, incl sel (tm_paths s) /\ forms_tree u tree sel) -> trainable (again false A s) X y.
Proof.
  intros Z P (tree & sel & Hi & T1 & T2 & T3).
  assert (Er : ta_rows (again false A s) = ta_rows A) by (cbn; destruct (ta_rows A); reflexivity).
  constructor; cbn [again ta_leaves ta_depth ta_targets ta_paths ta_nodes ta_splits].
  - apply (ti_leaves _ _ _ _ _ _ _ H).
  - split; [|split].
    + apply (again_wf Z).
    + cbn [fit_setup su_depth su_splits su_paths again ta_paths ta_splits ta_depth]. apply Forall_map. eapply Forall_impl; [|exact (ti_plain _ _ _ _ _ _ _ H)].
      intros p (P1 & P2 & P3 & P4). split; [exact P1|]. split; [exact P2|]. split; [exact P3|]. cbn. rewrite (Forall2_length' _ _ _ S). exact P4.
    + pose proof (proj2 (proj2 (tr_setup _ _ _ R))) as U. cbn [fit_setup su_rows su_X] in *. rewrite Er. exact U.
  - destruct (tr_data _ _ _ R) as (D1 & D2). split; [exact D1|]. cbn in *. rewrite Forall_forall in *. intros sp Hsp. destruct (Forall2_In_l _ _ _ _ S Hsp) as (t & Ht & _ & _ & _ & -> & ->). apply D2, Ht.
  - pose proof (tr_rows _ _ _ R) as Q. unfold rows_agree in *. cbn [fit_setup su_rows] in *. rewrite Er. exact Q.
  - apply (tr_targets _ _ _ R).
  - apply (tr_labels _ _ _ R).
  - apply (tr_classes _ _ _ R).
  - unfold proper_paths in *. cbn [fit_setup su_depth su_splits su_nodes again ta_depth ta_splits ta_nodes] in *. eapply Forall_impl; [|exact P].
    intros p (P1 & P2). split; [apply again_tree_path; exact P1|apply again_uses; exact P2].
  - exists tree, sel. split; [exact Hi|]. split; [apply again_tree_over; exact T1|]. split; [exact T2|exact T3].
Qed.
Lemma again_init : Forall (fun p => In (p_target p) (ta_targets A)) (tm_paths s) -> proper_paths u (tm_paths s) -> forall shared, exists w, dtree_init (again shared A s) = Ok w.
Proof.
  intros T P shared. destruct (dtree_init_dec (again shared A s)) as [(E & _)|(_ & NC)]; [exact E|]. exfalso. apply NC. clear NC.
  destruct (proj1 (tr_setup _ _ _ R)) as [W1 W2 W3 W4 W5 W6 W7 W8 W9]. cbn in W3, W5.
  assert (Sl : map l_id (tm_leaves s) = seq 0 (2 ^ d)).
  { rewrite (ti_leaves _ _ _ _ _ _ _ H). unfold complete_leaves. rewrite map_map. rewrite (map_ext_in _ (fun l => l)); [apply map_id|]. intros l _. unfold create_leaf. destruct (create_leaf_loop _ _ _ _). reflexivity. }
  assert (Iq : forall ids n, ids = seq 0 n -> in_sequence ids).
  { intros ids n -> k Hk. rewrite seq_length in Hk. rewrite nth_seq. destruct (k <? n) eqn:Ek; [reflexivity|]. apply Nat.ltb_ge in Ek. lia. }
  assert (Nn : map n_id (tm_nodes s) = seq 0 (2 ^ d - 1)).
  { destruct W3 as (L & I). rewrite <- L. clear - N I. assert (G : forall k, nth_error (map n_id (tm_nodes s)) k = nth_error (seq 0 (length (ta_nodes A))) k).
    { intros k. rewrite nth_error_map, nth_seq. destruct (nth_error (tm_nodes s) k) as [n|] eqn:E; cbn [option_map].
      - destruct (Forall2_nth_l _ _ _ _ _ N E) as (m & E' & Ei & _). rewrite Ei, (I _ _ E'). assert (k < length (ta_nodes A)) by (apply nth_error_Some; congruence).
        destruct (Nat.ltb_spec k (length (ta_nodes A))); [reflexivity|lia].
      - apply nth_error_None in E. rewrite (Forall2_length' _ _ _ N) in E. destruct (Nat.ltb_spec k (length (ta_nodes A))); [lia|reflexivity]. }
    apply nth_error_ext. exact G. }
  assert (Ss : forall k, k < length (ta_splits A) -> In k (map s_id (tm_splits s))).
  { intros k Hk. destruct (nth_error (ta_splits A) k) as [t|] eqn:E; [|apply nth_error_None in E; lia]. destruct (Forall2_nth_r _ _ _ _ _ S E) as (sp & E' & Ei & _).
    apply in_map_iff. exists sp. split; [rewrite Ei; eapply W5, E|eapply nth_error_In; eauto]. }
  unfold constructible. cbn [again ta_nodes ta_leaves ta_paths]. split; [eapply Iq; exact Nn|]. split; [eapply Iq; exact Sl|].
  unfold proper_paths in P. rewrite Forall_forall in *. intros p Hp. destruct (P p Hp) as ((P1 & P2 & P3 & P4) & P5).
  pose proof (ti_plain _ _ _ _ _ _ _ H) as Pl. rewrite Forall_forall in Pl. destruct (Pl p Hp) as (_ & L1 & L2 & _).
  unfold made_of. cbn [again ta_leaves ta_nodes ta_splits ta_targets ta_depth]. rewrite Sl, Nn. cbn in P1. split; [apply in_seq; lia|].
  split. { intros n Hn. apply in_seq. split; [lia|]. cbn [plus]. assert (Hc : exists k, In (n, k) (choices p)).
    { unfold choices. apply In_nth_error in Hn as (i & Ei). assert (i < length (p_splits p)) by (rewrite L2, <- L1; apply nth_error_Some; congruence).
      destruct (nth_error (p_splits p) i) as [k|] eqn:Ek; [|apply nth_error_None in Ek; lia]. exists k. eapply nth_combine; eauto. }
    destruct Hc as (k & Hc). destruct (P5 n k Hc) as (nd & E & _). cbn in E. assert (n < length (ta_nodes A)) by (apply nth_error_Some; congruence). destruct W3 as (L & _). lia. }
  split. { intros q Hq. cbn in P4. rewrite Forall_forall in P4. apply Ss, P4, Hq. }
  split; [apply T, Hp|]. split; [exact L1|exact L2].
Qed.
Lemma again_modest w p : modest u w p -> modest (fit_setup (again false A s) X y) w p.
Proof.
  intros (rs & Nd & E & I). exists rs. split; [exact Nd|]. split; [exact E|]. intros r. rewrite I. cbn [fit_setup su_X su_y su_leaves su_splits su_depth again ta_splits ta_depth].
  unfold su_leaves. cbn [su_depth]. split; intros (c & C1 & C2 & C3); exists c; (split; [exact C1|split; [exact C2|apply again_covers; exact C3]]).
Qed.
Lemma again_rows : ta_rows (again false A s) = ta_rows A.
Proof. cbn. destruct (ta_rows A); reflexivity. Qed.
Lemma again_weight w : data_weight u w -> data_weight (fit_setup (again false A s) X y) w.
Proof. intros W r. specialize (W r). unfold active, row_weight in *. cbn [fit_setup su_rows] in *. rewrite again_rows. exact W. Qed.
End After.

(** * The state a training leaves behind *)
Section Left.
Variables (A : targs) (X : list sample) (y : list nat) (sv : fsolvers) (clk : nat -> Q).
Local Notation u := (fit_setup A X y).
Hypothesis R : trainable A X y.
Hypothesis Ho : honest u sv.
Let V : valid_setup u := tr_setup _ _ _ R.

Lemma left (Gp : path -> Prop) w0 fuel s' :
  (forall p id, Gp p -> Gp (with_id p id)) -> Forall Gp (map mark_initial (ta_paths A)) ->
  (forall cuts dl p, tree_path (ta_depth A) (ta_splits A) p -> offered u cuts dl p -> Gp p) ->
  (forall c lf l p, In (c, lf) (sub_specs A) -> path_to u l p -> fair_class u c (length (ta_targets A)) p -> Gp p) ->
  dtree_init A = Ok w0 -> tree_fit sv A clk X y fuel (new_estimator w0) = (s', Done tt) ->
  exists ops cuts s sel tree, after u ops cuts s /\ proper_paths u (tm_paths s) /\ Forall Gp (tm_paths s) /\
    tw_master (f_world s') = with_selected sel s /\ incl sel (tm_paths s) /\ forms_tree u tree sel.
Proof.
  intros G1 G2 G3 G4 Ew Ef.
  destruct (train_ok A X y sv clk R Ho Gp G1 G2 G3 G4 w0 (Nat.max fuel (iteration_bound u)) Ew (Nat.le_max_r _ _)) as (s2 & Es & _ & (ops & cuts & s & x & Ha & [HP HG] & Hx & Hi & Eip) & _).
  unfold tree_fit in *. rewrite (fit_mono _ fuel) in Es by (try apply Nat.le_max_l; rewrite Ef; discriminate). rewrite Ef in Es. injection Es as <-.
  destruct (after_inv u ops cuts s V Ha) as (kinds & H & _). pose proof (after_formulated u _ _ _ V H) as F.
  destruct (proper_forms u _ _ _ _ _ _ x F HP) as (tree & Ht & _).
  { eapply feasible_meets; [exact F|apply Hx]. } { eapply feasible_integral; eauto. }
  set (sel := filter (fun p => Qltb 0 (x (p_id p))) (tm_paths s)) in *.
  assert (E2 : solve_ip (Some x) s = Ok (true, with_selected sel s)) by (unfold solve_ip; rewrite (ti_gen _ _ _ _ _ _ _ H); reflexivity).
  rewrite E2 in Eip. injection Eip as Em.
  exists ops, cuts, s, sel, tree. split; [exact Ha|]. split; [exact HP|]. split; [exact HG|]. split; [symmetry; exact Em|]. split; [|exact Ht].
  intros p Hp. apply filter_In in Hp. apply Hp.
Qed.
Lemma left_modest w w0 fuel s' : data_weight u w -> (ta_old A = true -> forall r, active u r -> 1 <= row_weight u r) -> Forall (modest u w) (ta_paths A) ->
  dtree_init A = Ok w0 -> tree_fit sv A clk X y fuel (new_estimator w0) = (s', Done tt) ->
  Forall (modest u w) (tm_paths (tw_master (f_world s'))).
Proof.
  intros W H1 Hm Ew Ef. destruct (left (modest u w) w0 fuel s') as (ops & cuts & s & sel & tree & _ & _ & HG & -> & _); auto.
  - apply Forall_map. exact Hm.
  - intros cuts dl p _ O. eapply offered_modest; eauto.
  - intros c lf l p Hin _ Hf. eapply fair_modest; eauto. intros Hc. apply H1. destruct (spec_ok A X y R _ _ Hin) as (_ & l' & _ & _ & [[_ ->]|[Eo _]]); [discriminate|exact Eo].
Qed.
Lemma left_any w0 fuel s' : dtree_init A = Ok w0 -> tree_fit sv A clk X y fuel (new_estimator w0) = (s', Done tt) ->
  exists ops cuts s sel tree, after u ops cuts s /\ proper_paths u (tm_paths s) /\
    tw_master (f_world s') = with_selected sel s /\ incl sel (tm_paths s) /\ forms_tree u tree sel.
Proof.
  intros Ew Ef. destruct (left (fun _ => True) w0 fuel s') as (ops & cuts & s & sel & tree & Ha & HP & _ & Em & Hi & Ht); auto; [apply Forall_forall; auto|].
  exists ops, cuts, s, sel, tree. auto.
Qed.
Lemma left_trainable w0 fuel s' : dtree_init A = Ok w0 -> tree_fit sv A clk X y fuel (new_estimator w0) = (s', Done tt) ->
  tm_cut_cons (tw_master (f_world s')) = [] -> trainable (again false A (tw_master (f_world s'))) X y.
Proof.
  intros Ew Ef Ec. destruct (left_any w0 fuel s' Ew Ef) as (ops & cuts & s & sel & tree & Ha & HP & Em & Hi & Ht). rewrite Em in *. cbn [tm_cut_cons with_selected] in Ec.
  destruct (after_inv u ops cuts s V Ha) as (kinds & H & _). change (again false A (with_selected sel s)) with (again false A s).
  assert (Z : cuts = []) by (pose proof (ti_cut_len _ _ _ _ _ _ _ H) as L; rewrite Ec in L; destruct cuts; [reflexivity|discriminate]).
  eapply again_trainable; eauto.
Qed.
Lemma left_init w0 fuel s' : dtree_init A = Ok w0 -> tree_fit sv A clk X y fuel (new_estimator w0) = (s', Done tt) ->
  forall shared, (exists w, dtree_init (again shared A (tw_master (f_world s'))) = Ok w) <-> Forall (fun p => In (p_target p) (ta_targets A)) (tm_paths (tw_master (f_world s'))).
Proof.
  intros Ew Ef shared. destruct (left_any w0 fuel s' Ew Ef) as (ops & cuts & s & sel & tree & Ha & HP & Em & _). rewrite Em in *.
  change (again shared A (with_selected sel s)) with (again shared A s). change (tm_paths (with_selected sel s)) with (tm_paths s).
  destruct (after_inv u ops cuts s V Ha) as (kinds & H & _). split.
  - intros (w & E). destruct (dtree_init_dec (again shared A s)) as [(_ & C)|(E' & _)]; [|congruence]. destruct C as (_ & _ & C). eapply Forall_impl; [|exact C].
    intros p (_ & _ & _ & T & _). exact T.
  - intros T. eapply again_init; eauto.
Qed.
End Left.

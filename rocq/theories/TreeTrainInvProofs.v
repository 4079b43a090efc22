(** A whole training run of the decision tree estimator: the assertions for the rule of FitHoareProofs.v and their
    preservation. *)
From Coq Require Import Qround.
From Verif Require Import Base Lp FitModel SpecFit FitMainProofs FitHoareProofs SolveModel SolveObs TreeModel TreePricingModel TreeFitModel
  SpecTree SpecTreeRun SpecTreeLp SpecTreePrice SpecTreeMip SpecTreeFit SpecTreeTrain LpProofs TreeLpBuild TreePathProofs TreeBuildProofs TreeInvProofs TreeOpProofs TreeRunProofs
  TreeMasterProofs TreeFormProofs TreeSolProofs TreePriceProofs TreeHeurProofs TreeFedProofs TreeBudgetProofs TreeTrainProofs PropTreeLp PropTreeMaster PropTreePrice PropTreeMip.
Open Scope nat_scope.

Section Train.
Variables (A : targs) (X : list sample) (y : list nat) (sv : fsolvers) (clk : nat -> Q).
Local Notation u := (fit_setup A X y).
Local Notation d := (ta_depth A).
Local Notation targets := (ta_targets A).
Local Notation nt := (length (ta_targets A)).
Local Notation specs := (sub_specs A).
Local Notation E := (tree_env sv A clk X y).
Local Notation W := (total_weight u).
Hypothesis R : trainable A X y.
Hypothesis Ho : honest u sv.
Let V : valid_setup u := tr_setup _ _ _ R.
Let D : valid_data u := tr_data _ _ _ R.
Let HR : rows_agree u := tr_rows _ _ _ R.
(** A property of paths, kept by renumbering, that the initial paths and all priced paths have. *)
Variable Gp : path -> Prop.
Hypothesis Gp_id : forall p id, Gp p -> Gp (with_id p id).
Hypothesis Gp_init : Forall Gp (map mark_initial (ta_paths A)).
Hypothesis Gp_heur : forall cuts dl p, tree_path d (ta_splits A) p -> offered u cuts dl p -> Gp p.
Hypothesis Gp_price : forall c lf l p, In (c, lf) specs -> path_to u l p -> fair_class u c nt p -> Gp p.
Definition pp (l : list path) : Prop := proper_paths u l /\ Forall Gp l.

Lemma Forall2_weaken {B C} (P Q : B -> C -> Prop) l m : (forall a b, P a b -> Q a b) -> Forall2 P l m -> Forall2 Q l m.
Proof. intros H F. induction F; constructor; auto. Qed.

(** ** The subproblems *)
Lemma spec_ok c lf : In (c, lf) specs -> classes_ok u c nt targets /\ exists l, l < 2 ^ d /\ lf = create_leaf l d /\
  ((ta_old A = false /\ c = CSat) \/ (ta_old A = true /\ exists t, c = COld t /\ t < nt)).
Proof.
  intros H. unfold sub_specs in H. apply in_flat_map in H. destruct H as (lf' & Hlf & H). rewrite (tr_leaves _ _ _ R) in Hlf.
  apply in_map_iff in Hlf. destruct Hlf as (l & El & Hl). apply in_seq in Hl. destruct (ta_old A).
  - apply in_map_iff in H. destruct H as (t & Et & Ht). injection Et as <- <-. split; [split; [reflexivity|discriminate]|].
    exists l. split; [lia|]. split; auto. right. split; auto. eexists. split; [reflexivity|].
    apply (Permutation_in _ (tr_targets _ _ _ R)) in Ht. apply in_map_iff in Ht. destruct Ht as (t' & <- & Ht'). apply in_seq in Ht'. rewrite Nat2Z.id. lia.
  - destruct H as [H|[]]. injection H as <- <-. split; [split; [reflexivity|]|].
    + intros _. split; [apply (tr_targets _ _ _ R)|apply (tr_labels _ _ _ R)].
    + exists l. split; [lia|]. split; auto.
Qed.
Definition sub_fed (cuts : list (list bool)) (spec : pclass * leaf) (sp : subproblem * pricing) : Prop :=
  exists l, l < 2 ^ d /\ snd spec = create_leaf l d /\ fed u (fst spec) l targets cuts (snd sp) /\ tuned (fst sp).
Definition sub_updated (old : list (list bool)) (dl : tduals) (s : tmaster) (spec : pclass * leaf) (sp : subproblem * pricing) : Prop :=
  exists l pr0, l < 2 ^ d /\ snd spec = create_leaf l d /\ fed u (fst spec) l targets old pr0 /\
    update_subproblem (fst spec) (snd spec) (tm_nodes s) (tm_splits s) targets d (ta_rows A) X y dl pr0 = Ok (snd sp) /\ tuned (fst sp).
Definition sub_told (old : list (list bool)) (dl : tduals) (s : tmaster) (spec : pclass * leaf) (sp : subproblem * pricing) : Prop :=
  if is_sat (fst spec) then sub_fed (old ++ d_new_cuts dl) spec sp else sub_updated old dl s spec sp.
Lemma updated_fed ops old dl s x pi spec sp : solved u ops (old ++ d_new_cuts dl) (fs_tree sv) dl s x pi ->
  sub_updated old dl s spec sp -> sub_fed (old ++ d_new_cuts dl) spec sp.
Proof.
  intros S (l & pr0 & Hl & El & F & Eu & T). exists l. split; auto. split; auto. split; auto.
  eapply fed_update; [exact F|exact S|]. cbn [su_depth su_rows su_X su_y fit_setup]. rewrite <- El. exact Eu.
Qed.
Lemma told_fed ops old dl s x pi spec sp : solved u ops (old ++ d_new_cuts dl) (fs_tree sv) dl s x pi ->
  sub_told old dl s spec sp -> sub_fed (old ++ d_new_cuts dl) spec sp.
Proof. intros S H. unfold sub_told in H. destruct (is_sat _); auto. eapply updated_fed; eauto. Qed.

(** ** Attractive paths are new *)
Lemma solved_red ops cuts dl s x pi j : solved u ops cuts (fs_tree sv) dl s x pi -> j < num_vars (tm_lp s) -> (reduced_cost (tm_lp s) pi j <= teps)%Q.
Proof.
  intros S Hj. pose proof (solved_after _ _ _ _ _ _ _ _ S) as Ha. destruct S as (s0 & old & _ & _ & Es & _ & Ea).
  destruct (solve_asked _ _ _ _ Es) as [i Hi]. destruct (tr_tree _ _ _ R) as (tree & sel & H1 & H2).
  destruct (reachable_feasible u V tree (map mark_initial sel)) with (ops := ops ++ [Solve (fs_tree sv)]) (cuts := cuts) (s := s) as [x0 Hx0]; auto.
  - intros p Hp. cbn. apply in_map_iff in Hp. destruct Hp as (q & <- & Hq). apply in_map. auto.
  - cbn. unfold proper_paths. apply Forall_map. apply (tr_paths _ _ _ R).
  - destruct H2 as (T1 & T2 & T3). split; auto. split; [rewrite map_map; exact T2|apply Forall_map; exact T3].
  - destruct (ho_lp _ _ Ho i _ _ _ Ha) as (x' & pi' & E' & Hr); [exists x0; apply Hx0|]. rewrite Hi, Ea in E'. injection E' as <- <-. auto.
Qed.
Definition is_new (s : tmaster) (p : path) : Prop :=
  In (bucket d p) (all_buckets d (length (ta_splits A)) W) /\ ~ In (bucket d p) (map (bucket d) (tm_paths s)).
Lemma attractive_new ops cuts dl s x pi p v k : solved u ops cuts (fs_tree sv) dl s x pi -> proper_paths u (tm_paths s) ->
  tree_path d (ta_splits A) p -> uses_candidates (ta_nodes A) p -> reported_price u cuts dl p v -> (teps < v)%Q ->
  (p_cost p == inject_Z (Z.of_nat k))%Q -> k <= W -> is_new s p.
Proof.
  intros S HP Hp Hu Hv Hlt H0 HW. split; [apply (bucket_in _ _ _ k); auto|]. intros Hin. apply in_map_iff in Hin. destruct Hin as (q & Eb & Hq).
  destruct (solved_inv _ _ _ _ _ _ _ _ V S) as (kinds & H & Rp). pose proof (after_formulated u _ _ _ V H) as F.
  pose proof V as (wf & _). unfold proper_paths in HP. rewrite Forall_forall in HP. destruct (HP q Hq) as [Tq Uq]. cbn in Tq, Uq.
  assert (Ekey : ckey d q = ckey d p) by exact (f_equal fst Eb). assert (Efl : Qfloor (p_cost q) = Qfloor (p_cost p)) by exact (f_equal snd Eb).
  assert (Ek : p_leaf q = p_leaf p) by exact (f_equal fst Ekey). clear Eb.
  pose proof (reported_is_price u _ _ _ _ _ _ _ _ F Rp p v Hp Hu Hv) as Pp.
  pose proof (price_choices u kinds pi p q v (eq_sym Ek)) as Pq. destruct (price_total u kinds pi q) as (v' & Pv & Ev).
  assert (Hc : forall nk, In nk (choices p) <-> In nk (choices q)).
  { intros nk. split; [apply (key_choices d (ta_splits A))|apply (key_choices d (ta_splits A))]; auto. }
  specialize (Pq Hc Pp). pose proof (path_price_unique _ _ _ _ _ _ Pq Pv) as Evv.
  pose proof (reduced_path u _ _ _ _ _ _ F pi q Hq) as Er. rewrite <- Ev in Er.
  assert (Hj : p_id q < num_vars (tm_lp s)) by (eapply fm_path_vars; [exact F|auto]).
  pose proof (solved_red _ _ _ _ _ _ _ S Hj) as Hr.
  apply (floor_differ (p_cost p) (p_cost q) k); [exact H0| |congruence]. lra.
Qed.
Lemma offered_good ops cuts dl s x pi p : solved u ops cuts (fs_tree sv) dl s x pi -> proper_paths u (tm_paths s) -> offered u cuts dl p ->
  tree_path d (ta_splits A) p /\ uses_candidates (ta_nodes A) p /\ is_new s p.
Proof.
  intros S HP H. destruct H as [Hl Hn Hlen Hc _ Hb (v & Hv & Hlt)]. cbn in *.
  assert (Tp : tree_path d (ta_splits A) p).
  { split; auto. split; [rewrite Hn; reflexivity|]. assert (EL : length (p_splits p) = d) by (rewrite Hlen, Hn; apply create_leaf_length; auto). split; auto.
    apply Forall_forall. intros k Hk. destruct (In_nth_error _ _ Hk) as [i Hi]. assert (Hi' : i < length (p_nodes p)) by (rewrite <- Hlen; apply nth_error_Some; congruence).
    apply nth_error_Some in Hi'. destruct (nth_error (p_nodes p) i) as [n|] eqn:En; [|congruence].
    destruct (Hc n k) as (nd & End & Hk').
    - unfold choices. eapply nth_error_In with (n := i). clear - Hi En. revert i Hi En. generalize (p_splits p). induction (p_nodes p) as [|a l IH]; intros [|b m] [|i] H1 H2; try discriminate; cbn in *; [congruence|auto].
    - pose proof V as (wf & _). destruct (wt_cands _ _ _ _ wf nd (nth_error_In _ _ End)) as [_ Hcs]. rewrite Forall_forall in Hcs. apply Hcs. auto. }
  split; auto. split; auto. destruct Hb as [_ Hb]. assert (H0W : exists k, (p_cost p == inject_Z (Z.of_nat k))%Q /\ k <= W).
  { destruct Hb as [(t & v' & _ & Hw & Ec & _)|[_ Ec]]; [exists v'|exists 0; split; [exact Ec|lia]]. split; [exact Ec|].
    apply (class_weight_bound u p t v' D Hw). }
  destruct H0W as (k & Hk & HkW). eapply attractive_new; eauto.
Qed.
Lemma priced_good ops cuts dl s x pi c l p v : solved u ops cuts (fs_tree sv) dl s x pi -> proper_paths u (tm_paths s) ->
  path_to u l p -> fair_class u c nt p -> reported_price u cuts dl p v -> (teps < v)%Q ->
  tree_path d (ta_splits A) p /\ uses_candidates (ta_nodes A) p /\ is_new s p.
Proof.
  intros S HP (Tp & Up & _) Hf Hv Hlt. split; auto. split; auto. assert (H0W : exists k, (p_cost p == inject_Z (Z.of_nat k))%Q /\ k <= W).
  { destruct Hf as [(t & w & n & _ & _ & Hw & H1 & H2)|(_ & _ & Ec)]; [exists n|exists 0; split; [exact Ec|lia]]. split; auto.
    etransitivity; [exact H1|]. destruct c; cbn [class_value] in Hw; [eapply class_weight_bound|eapply class_weight_bound|eapply class_count_bound]; eauto. }
  destruct H0W as (k & Hk & HkW). eapply attractive_new; eauto.
Qed.

(** ** Assertions *)
Definition fr (s : tmaster) : nat := free d (length (ta_splits A)) W (tm_paths s).
Definition I0 (k : nat) (w : tworld) : Prop := exists ops cuts, after u ops cuts (tw_master w) /\ h_cuts (tw_heur w) = length cuts /\
  Forall2 (sub_fed cuts) specs (tw_subs w) /\ pp (tm_paths (tw_master w)) /\ fr (tw_master w) <= k.
Definition IU (k : nat) (dl : tduals) (upd : list (nat * nat)) (w : tworld) : Prop := exists ops old x pi,
  solved u ops (old ++ d_new_cuts dl) (fs_tree sv) dl (tw_master w) x pi /\ pp (tm_paths (tw_master w)) /\ fr (tw_master w) <= k /\
  (In (0, 0) upd -> h_cuts (tw_heur w) = length (old ++ d_new_cuts dl)) /\ (~ In (0, 0) upd -> h_cuts (tw_heur w) = length old) /\
  length (tw_subs w) = length specs /\
  forall i spec sp, nth_error specs i = Some spec -> nth_error (tw_subs w) i = Some sp ->
    (In (1, i) upd -> sub_told old dl (tw_master w) spec sp) /\ (~ In (1, i) upd -> sub_fed old spec sp).
Definition nothing (old : list (list bool)) (dl : tduals) (s : tmaster) (i : nat) : Prop := exists c lf l k,
  nth_error specs i = Some (c, lf) /\ l < 2 ^ d /\ lf = create_leaf l d /\
  if is_sat c then exists pr sub sub' pr', fed u c l targets (old ++ d_new_cuts dl) pr /\
    sat_generate c lf (tm_nodes s) (tm_splits s) targets d (ta_rows A) (fs_streams sv k) (fs_sat sv k) X y dl sub pr = Ok ([], (sub', pr'))
  else exists pr0 pr, fed u c l targets old pr0 /\
    update_subproblem c lf (tm_nodes s) (tm_splits s) targets d (ta_rows A) X y dl pr0 = Ok pr /\
    mip_generate c lf (tm_nodes s) targets (ta_rows A) (fs_mip sv k) (length X) y pr = Ok [].
Definition same_master (s s' : tmaster) : Prop :=
  tm_lp s' = tm_lp s /\ tm_nodes s' = tm_nodes s /\ tm_splits s' = tm_splits s /\ tm_paths s' = tm_paths s /\ tm_answer s' = tm_answer s /\ tm_cut_cons s' = tm_cut_cons s.
Definition I1 (k : nat) (dl : tduals) (done : list (nat * nat)) (w : tworld) : Prop := exists ops old s x pi,
  solved u ops (old ++ d_new_cuts dl) (fs_tree sv) dl s x pi /\ same_master s (tw_master w) /\
  (exists ops', after u ops' (old ++ d_new_cuts dl) (tw_master w)) /\ pp (tm_paths s) /\ fr s <= k /\
  h_cuts (tw_heur w) = length (old ++ d_new_cuts dl) /\ Forall2 (sub_told old dl s) specs (tw_subs w) /\
  forall i, In (1, i) done -> nothing old dl s i.
Definition good_path (p : path) : Prop := (tree_path d (ta_splits A) p /\ uses_candidates (ta_nodes A) p) /\ Gp p.
Definition I2 (k : nat) (dl : tduals) (done : list (nat * nat)) (li : nat * nat) (b : bool) (cols : list path) (w : tworld) : Prop :=
  Forall good_path cols /\
  if b then exists k', k = S k' /\ I0 k' w
  else I0 k w /\ Forall (is_new (tw_master w)) cols /\ (cols = [] -> I1 k dl (done ++ [li]) w).
Definition J (w : tworld) : Prop := exists ops cuts s x, after u ops cuts s /\ pp (tm_paths s) /\ ip_feasible (tm_lp s) x /\
  (exists i, tv_ip (fs_tree sv) i (tm_lp s) = Some x) /\ solve_ip (Some x) s = Ok (true, tw_master w).

(** ** Preservation *)
Lemma feasible_now ops cuts s : after u ops cuts s -> exists x, ip_feasible (tm_lp s) x.
Proof.
  destruct (tr_tree _ _ _ R) as (tree & sel & H1 & H2). apply (reachable_feasible u V tree (map mark_initial sel)).
  - intros p Hp. cbn. apply in_map_iff in Hp. destruct Hp as (q & <- & Hq). apply in_map. auto.
  - cbn. unfold proper_paths. apply Forall_map. apply (tr_paths _ _ _ R).
  - destruct H2 as (T1 & T2 & T3). split; auto. split; [rewrite map_map; exact T2|apply Forall_map; exact T3].
Qed.
Lemma Hsolve k w : I0 k w -> exists dl w', c_solve_rmp E w = Ok (dl, w') /\ IU k dl [] w'.
Proof.
  intros (ops & cuts & Ha & Hh & F & HP & Hk). destruct (after_inv u ops cuts _ V Ha) as (kinds & H & _). pose proof V as (wf & _).
  destruct (solve_rmp_ok _ _ _ _ wf (fs_tree sv) kinds cuts _ (ho_cuts _ _ Ho) H) as (k' & new & s' & dl & j & E' & H' & Fr & _ & En & _ & _ & _ & _ & _ & _).
  assert (Ep : tm_paths s' = tm_paths (tw_master w)) by apply Fr.
  assert (Ha' : after u (ops ++ [Solve (fs_tree sv)]) (cuts ++ d_new_cuts dl) s').
  { destruct Ha as (L & s0 & G0 & Rn). split; [apply Forall_app; split; auto; constructor; [apply (ho_cuts _ _ Ho)|constructor]|]. exists s0. split; auto.
    eapply run_ops_app; [exact Rn|]. cbn [run_ops do_op]. rewrite E'. cbn [bind]. rewrite app_nil_r. reflexivity. }
  destruct (solve_asked _ _ _ _ E') as [i Hi]. destruct (feasible_now _ _ _ Ha') as [x0 Hx0].
  destruct (ho_lp _ _ Ho i _ _ _ Ha') as (x & pi & Ea & _); [exists x0; apply Hx0|]. rewrite Hi in Ea.
  exists dl, (mkTw s' (tw_heur w) (tw_subs w) (tw_calls w)). split.
  { cbn [c_solve_rmp tree_env]. unfold tree_solve_rmp. rewrite E'. reflexivity. }
  exists ops, cuts, x, pi. cbn [tw_master tw_heur tw_subs tw_calls]. split.
  { exists (tw_master w), cuts. split; auto. split; [apply (ho_cuts _ _ Ho)|]. auto. }
  split; [rewrite Ep; auto|]. split; [unfold fr in *; rewrite Ep; auto|]. split; [intros []|]. split; auto. split; [symmetry; apply (Forall2_length' _ _ _ F)|].
  intros i0 spec sp Hs1 Hs2. split; [intros []|]. intros _. destruct (Forall2_nth_l _ _ _ _ _ F Hs1) as (sp' & Hs3 & G). congruence.
Qed.

Lemma subs_In l i : In (l, i) (all_subproblems (levels E)) <-> (l = 0 /\ i = 0) \/ (l = 1 /\ i < length specs).
Proof.
  cbn [levels tree_env]. unfold tree_levels, all_subproblems. cbn [subproblems_from]. rewrite app_nil_r, in_app_iff, !in_map_iff. split.
  - intros [(j & Ej & Hj)|(j & Ej & Hj)]; injection Ej as <- <-; apply in_seq in Hj; [left|right]; lia.
  - intros [[-> ->]|[-> H]]; [left; exists 0|right; exists i]; (split; [reflexivity|apply in_seq; lia]).
Qed.
Lemma exists_In l i : exists_sub E l i -> (l = 0 /\ i = 0) \/ (l = 1 /\ i < length specs).
Proof.
  intros (n & Hn & Hi). cbn [levels tree_env] in Hn. unfold tree_levels in Hn. destruct l as [|[|l]]; cbn [nth_error] in Hn.
  - injection Hn as <-. left. lia.
  - injection Hn as <-. right. lia.
  - destruct l; discriminate.
Qed.
Lemma same_splits s : with_splits s (tm_splits s) = s.
Proof. destruct s. reflexivity. Qed.
Lemma Hupd k l i dl upd w : exists_sub E l i -> IU k dl upd w -> ~ In (l, i) upd ->
  exists w', c_update E l i dl w = Ok w' /\ IU k dl (upd ++ [(l, i)]) w'.
Proof.
  intros Hex (ops & old & x & pi & S & HP & Hk & Hh1 & Hh2 & HL & Hs) Hn. cbn [c_update tree_env]. unfold tree_update.
  destruct (exists_In _ _ Hex) as [[-> ->]|[-> Hi]]; cbn [Nat.eqb].
  - destruct (solved_inv _ _ _ _ _ _ _ _ V S) as (kinds & H & _). rewrite (heur_update_ok u kinds old dl (tw_master w) (tw_heur w) V H (Hh2 Hn)). cbn [bind].
    rewrite same_splits. eexists. split; [reflexivity|]. exists ops, old, x, pi. cbn [tw_master tw_heur tw_subs h_cuts]. split; auto. split; auto. split; auto.
    split; auto. split; [intros Hc; contradiction Hc; apply in_or_app; right; left; reflexivity|]. split; auto.
    intros i spec sp H1 H2. destruct (Hs i spec sp H1 H2) as [Ha Hb]. rewrite in_app_iff. split; [intros [?|[?|[]]]; [auto|discriminate]|intros Hc; apply Hb; tauto].
  - destruct (nth_error specs i) as [[c lf]|] eqn:Ec; [|apply nth_error_None in Ec; lia].
    destruct (nth_error (tw_subs w) i) as [[sub pr]|] eqn:Ep; [|apply nth_error_None in Ep; lia].
    rewrite (proj2 (getitem_ok _ _ _) Ec), (proj2 (getitem_ok _ _ _) Ep). cbn [bind].
    destruct (proj2 (Hs i _ _ Ec Ep) Hn) as (l & Hl & El & F & T). cbn [fst snd] in El, F, T. subst lf.
    destruct (spec_ok _ _ (nth_error_In _ _ Ec)) as [HC _].
    destruct (C46_update_total u c l nt targets old pr ops (fs_tree sv) dl (tw_master w) x pi V D Hl HC F S) as [pr' Eu].
    cbn [su_depth su_rows su_X su_y fit_setup] in Eu. rewrite Eu. cbn [bind]. eexists. split; [reflexivity|].
    exists ops, old, x, pi. cbn [tw_master tw_heur tw_subs]. split; auto. split; auto. split; auto.
    split; [rewrite in_app_iff; intros [?|[?|[]]]; [auto|discriminate]|]. split; [rewrite in_app_iff; intros Hc; apply Hh2; tauto|].
    split; [rewrite length_set_nth; auto|]. intros j spec sp H1 H2. destruct (Nat.eq_dec j i) as [->|Hj].
    + rewrite nth_error_set_nth_same in H2 by lia. rewrite Ec in H1. injection H1 as <-. injection H2 as <-.
      split; [|intros Hc; contradiction Hc; apply in_or_app; right; left; reflexivity]. intros _.
      assert (U : sub_updated old dl (tw_master w) (c, create_leaf l d) (sub, pr')) by (exists l, pr; cbn [fst snd]; auto).
      unfold sub_told. destruct (is_sat _); auto. eapply updated_fed; eauto.
    + rewrite nth_error_set_nth_other in H2 by auto. destruct (Hs j spec sp H1 H2) as [Ha Hb]. rewrite in_app_iff. split.
      * intros [?|[Hc|[]]]; [auto|]. injection Hc as Hc. congruence.
      * intros Hc. apply Hb. tauto.
Qed.
Lemma HU1 k dl w : IU k dl (all_subproblems (levels E)) w -> I1 k dl [] w.
Proof.
  intros (ops & old & x & pi & S & HP & Hk & Hh1 & _ & HL & Hs). exists ops, old, (tw_master w), x, pi. split; auto.
  split; [repeat split|]. split; [eexists; eapply solved_after; exact S|]. split; auto. split; auto.
  split; [apply Hh1, subs_In; left; auto|]. split; [|intros i []].
  apply Forall2_intro_nth; [auto|]. intros i spec sp H1 H2. apply (proj1 (Hs i spec sp H1 H2)). apply subs_In. right. split; auto.
  apply nth_error_Some. congruence.
Qed.
Lemma H10 k dl done w : I1 k dl done w -> I0 k w.
Proof.
  intros (ops & old & s & x & pi & S & (_ & _ & _ & Ep & _) & (ops' & Ha) & HP & Hk & Hh & F & _). exists ops', (old ++ d_new_cuts dl).
  split; auto. split; auto. split; [eapply Forall2_weaken; [|exact F]; intros; eapply told_fed; eauto|]. unfold fr in *. rewrite Ep. auto.
Qed.
Lemma Forall2_set_nth {B C} (Rel : B -> C -> Prop) l m i a b : Forall2 Rel l m -> nth_error l i = Some a -> Rel a b -> Forall2 Rel l (set_nth m i b).
Proof.
  intros F Ha Hab. apply Forall2_intro_nth; [rewrite length_set_nth; apply (Forall2_length' _ _ _ F)|]. intros j a' b' H1 H2.
  destruct (Nat.eq_dec j i) as [->|Hj].
  - rewrite nth_error_set_nth_same in H2; [congruence|]. rewrite <- (Forall2_length' _ _ _ F). apply nth_error_Some. congruence.
  - rewrite nth_error_set_nth_other in H2 by auto. destruct (Forall2_nth_l _ _ _ _ _ F H1) as (b2 & H3 & G). congruence.
Qed.
Lemma sat_tuned c lf nodes splits rows rs solver dl sub pr ps sub' pr' : (forall st m, ~ zero_gap_failure (fst (solver st m))) -> tuned sub ->
  sat_generate c lf nodes splits targets d rows rs solver X y dl sub pr = Ok (ps, (sub', pr')) -> tuned sub'.
Proof.
  intros Hg T Eg. unfold sat_generate in Eg. destruct (refresh _ _ _ _ _ _ _ _ _ _ _) as [pr1|]; [|discriminate]. cbn [bind] in Eg.
  destruct (getitem _ _) as [ld|]; [|discriminate]. cbn [bind] in Eg.
  destruct (tuned_solve rs (fun st => fst (solver st (pr_lp pr1))) sub T) as (s1 & st & Em & T1); [auto|]. rewrite Em in Eg. cbn [bind] in Eg.
  destruct (for_each _ _ _) as [paths|]; [|discriminate]. cbn [bind] in Eg. injection Eg as _ <- _. exact T1.
Qed.
Lemma Hgen k l i dl done w : exists_sub E l i -> I1 k dl done w ->
  exists cols w', c_generate E l i dl w = Ok (cols, w') /\ I2 k dl done (l, i) false cols w'.
Proof.
  intros Hex H1. pose proof (H10 _ _ _ _ H1) as H0. destruct H0 as (ops0 & cuts0 & Ha0 & Hh0 & F0 & HP0 & Hk0).
  destruct H1 as (ops & old & s & x & pi & S & (Elp & En & Es & Ep & Ean & Ec) & (ops' & Ha) & HP & Hk & Hh & F & Hnone).
  assert (Fin : forall w' (cols : list path), tw_master w' = tw_master w -> h_cuts (tw_heur w') = length (old ++ d_new_cuts dl) ->
    Forall2 (sub_told old dl s) specs (tw_subs w') -> Forall (fun p => good_path p /\ is_new s p) cols ->
    (cols = [] -> l = 1 -> nothing old dl s i) -> I2 k dl done (l, i) false cols w').
  { intros w' cols Em Hh' F' G Hno. split; [eapply Forall_impl; [|exact G]; intros p [? ?]; auto|]. split.
    - exists ops', (old ++ d_new_cuts dl). rewrite Em. split; auto. split; auto.
      split; [eapply Forall2_weaken; [|exact F']; intros; eapply told_fed; eauto|]. auto.
    - rewrite Em. split; [eapply Forall_impl; [|exact G]; intros p [_ [Hp1 Hp2]]; split; [auto|rewrite Ep; auto]|].
      intros Hnil. exists ops, old, s, x, pi. rewrite Em. split; auto. split; [repeat split; auto|]. split; [exists ops'; auto|]. split; auto. split; auto. split; auto. split; auto.
      intros j Hj. apply in_app_or in Hj. destruct Hj as [Hj|[Hj|[]]]; auto. injection Hj as Hj1 Hj2. subst j. apply Hno; auto. }
  cbn [c_generate tree_env]. unfold tree_generate. destruct (exists_In _ _ Hex) as [[-> ->]|[-> Hi]]; cbn [Nat.eqb]; rewrite ?En, ?Es.
  - destruct (solved_inv _ _ _ _ _ _ _ _ V S) as (kinds & H & Rp).
    destruct (generate_ok u kinds _ s _ pi dl V D H Rp (fs_rand sv (tw_calls w)) (fs_order sv (tw_calls w)) (ho_order _ _ Ho _) (tw_heur w)) as (ps & h' & Eg & _ & G & _ & Eh & _).
    cbn [su_X su_y su_rows fit_setup] in Eg. unfold su_leaves in Eg. cbn [su_depth fit_setup] in Eg. rewrite <- (tr_leaves _ _ _ R) in Eg. rewrite Eg. cbn [bind].
    eexists _, _. split; [reflexivity|]. apply Fin; cbn [tw_master tw_heur tw_subs]; auto; [congruence| |discriminate].
    eapply Forall_impl; [|exact G]. intros p Hp. destruct (offered_good _ _ _ _ _ _ _ S (proj1 HP) Hp) as (A1 & A2 & A3). split; [split; [split|]|]; eauto.
  - destruct (nth_error specs i) as [[c lf]|] eqn:Esp; [|apply nth_error_None in Esp; lia].
    destruct (Forall2_nth_l _ _ _ _ _ F Esp) as ([sub pr] & Epr & Ht). rewrite (proj2 (getitem_ok _ _ _) Esp), (proj2 (getitem_ok _ _ _) Epr). cbn [bind].
    destruct (spec_ok _ _ (nth_error_In _ _ Esp)) as [HC _]. unfold sub_told in Ht. cbn [fst] in Ht. destruct (is_sat c) eqn:Eis.
    + destruct c; try discriminate. destruct Ht as (l & Hl & El & Fd & T). cbn [fst snd] in El, Fd, T. subst lf.
      assert (Hsol : forall st m, Forall (ip_feasible m) (snd (fs_sat sv (tw_calls w) st m))) by (intros; apply (ho_sat _ _ Ho)).
      assert (Hgap : forall st m, ~ zero_gap_failure (fst (fs_sat sv (tw_calls w) st m))) by (intros; apply (ho_sat _ _ Ho)).
      pose proof (C46_callback u l nt targets _ pr ops (fs_tree sv) dl s x pi (fs_streams sv (tw_calls w)) (fs_sat sv (tw_calls w)) sub V D HR Hl HC Fd S Hsol) as Cb.
      cbn [su_depth su_rows su_X su_y fit_setup] in Cb.
      destruct (sat_generate _ _ _ _ _ _ _ _ _ _ _ _ _ _) as [[ps [sub' pr']]|e] eqn:Eg.
      * destruct Cb as [Fd' G]. cbn [bind]. eexists _, _. split; [reflexivity|]. pose proof (sat_tuned _ _ _ _ _ _ _ _ _ _ _ _ _ Hgap T Eg) as T'.
        apply Fin; cbn [tw_master tw_heur tw_subs]; auto.
        -- eapply Forall2_set_nth; [exact F|exact Esp|]. unfold sub_told. cbn [fst is_sat]. exists l. auto.
        -- eapply Forall_impl; [|exact G]. intros p (P1 & P2 & v & P3 & P4). destruct (priced_good _ _ _ _ _ _ _ _ _ _ S (proj1 HP) P1 P2 P3 P4) as (A1 & A2 & A3). split; [split; [split|]|]; auto.
           eapply Gp_price; [exact (nth_error_In _ _ Esp)|exact P1|exact P2].
        -- intros -> _. exists CSat, (create_leaf l d), l, (tw_calls w). split; auto. split; auto. split; auto. cbn [is_sat]. exists pr, sub, sub', pr'. auto.
      * exfalso. destruct Cb as [m Hm]. destruct (tuned_solve (fs_streams sv (tw_calls w)) (fun st => fst (fs_sat sv (tw_calls w) st m)) sub T) as (s1 & st & Em & _); [auto|].
        rewrite Em in Hm. discriminate.
    + destruct Ht as (l & pr0 & Hl & El & Fd & Eu & T). cbn [fst snd] in El, Fd, Eu, T. subst lf.
      assert (Hno : forall ps, ps = [] -> mip_generate c (create_leaf l d) (tm_nodes s) targets (ta_rows A) (fs_mip sv (tw_calls w)) (length X) y pr = Ok ps -> 1 = 1 -> nothing old dl s i).
      { intros ps -> Em _. exists c, (create_leaf l d), l, (tw_calls w). split; auto. split; auto. split; auto. rewrite Eis. exists pr0, pr. auto. }
      destruct (fs_mip sv (tw_calls w) (pr_lp pr)) as [x'|] eqn:Ex.
      * destruct (C46_returned u c l nt targets old pr0 ops (fs_tree sv) dl s x pi pr (fs_mip sv (tw_calls w)) x' V D HR Hl HC Eis Fd S Eu Ex (ho_mip _ _ Ho _ _ _ Ex)) as (ps & Em & Cs).
        cbn [su_depth su_rows su_X su_y fit_setup] in Em. rewrite Em. cbn [bind]. eexists _, _. split; [reflexivity|].
        apply Fin; cbn [tw_master tw_heur tw_subs]; auto; [|intros Hnil; apply (Hno ps); auto].
        destruct Cs as [[_ ->]|(Hlt & p & -> & P1 & P2 & _ & P3)]; [constructor|]. constructor; [|constructor].
        destruct (priced_good _ _ _ _ _ _ _ _ _ _ S (proj1 HP) P1 P2 P3 Hlt) as (A1 & A2 & A3). split; [split; [split|]|]; auto.
        eapply Gp_price; [exact (nth_error_In _ _ Esp)|exact P1|exact P2].
      * assert (Em : mip_generate c (create_leaf l d) (tm_nodes s) targets (ta_rows A) (fs_mip sv (tw_calls w)) (length X) y pr = Ok []) by (unfold mip_generate; rewrite Ex; reflexivity).
        rewrite Em. cbn [bind]. eexists _, _. split; [reflexivity|]. apply Fin; cbn [tw_master tw_heur tw_subs]; auto. intros _. apply (Hno []); auto.
Qed.
Lemma add_ok c w ops cuts : good_path c -> after u ops cuts (tw_master w) -> pp (tm_paths (tw_master w)) ->
  exists w', tree_add c w = Ok (true, w') /\ after u (ops ++ [Column c]) cuts (tw_master w') /\ pp (tm_paths (tw_master w')) /\
    tw_heur w' = tw_heur w /\ tw_subs w' = tw_subs w /\ exists id, tm_paths (tw_master w') = tm_paths (tw_master w) ++ [with_id c id].
Proof.
  intros [[Tp Up] Gc] Ha HP. destruct (after_inv u ops cuts _ V Ha) as (kinds & H & _). pose proof V as (wf & _).
  pose proof (tree_plain u c Tp) as Pl. destruct (add_column_ok _ _ _ _ wf kinds cuts _ c H Pl) as (s' & Ea & _ & Ep & _).
  exists (mkTw s' (tw_heur w) (tw_subs w) (tw_calls w)). unfold tree_add. rewrite Ea. split; [reflexivity|]. cbn [tw_master tw_heur tw_subs]. split; [|split; [|split; [|split]]]; auto.
  - destruct Ha as (L & s0 & G0 & Rn). split; [apply Forall_app; split; [exact L|constructor; [exact Pl|constructor]]|]. exists s0. split; auto.
    rewrite <- (app_nil_r cuts). eapply run_ops_app; [exact Rn|]. cbn [run_ops do_op]. rewrite Ea. reflexivity.
  - rewrite Ep. destruct HP as [HP HG]. split; [|apply Forall_app; split; [exact HG|constructor; [apply Gp_id; exact Gc|constructor]]].
    unfold proper_paths in *. apply Forall_app. split; [exact HP|]. constructor; [|constructor]. split; [exact Tp|exact Up].
  - eauto.
Qed.
Lemma Hadd k dl done li b c cols w : I2 k dl done li b (c :: cols) w ->
  exists b' w', c_add E c w = Ok (b', w') /\ I2 k dl done li (b || b') cols w'.
Proof.
  intros [G H]. inversion G as [|? ? Gc Gs]; subst. cbn [c_add tree_env].
  assert (Hc : exists k' ops cuts, after u ops cuts (tw_master w) /\ h_cuts (tw_heur w) = length cuts /\
    Forall2 (sub_fed cuts) specs (tw_subs w) /\ pp (tm_paths (tw_master w)) /\ k = S k' /\
    forall id, free d (length (ta_splits A)) W (tm_paths (tw_master w) ++ [with_id c id]) <= k').
  { destruct b.
    - destruct H as (k' & -> & ops & cuts & Ha & Hh & F & HP & Hk). exists k', ops, cuts. repeat (split; auto). intros id.
      etransitivity; [apply free_more|exact Hk].
    - destruct H as ((ops & cuts & Ha & Hh & F & HP & Hk) & N & _). inversion N as [|? ? [N1 N2] _]; subst. unfold fr in Hk.
      assert (Hlt : forall id, free d (length (ta_splits A)) W (tm_paths (tw_master w) ++ [with_id c id]) < k)
        by (intros id; eapply Nat.lt_le_trans; [apply free_new; [exact N1|exact N2]|exact Hk]).
      destruct k as [|k']; [specialize (Hlt 0); lia|]. exists k', ops, cuts. repeat (split; auto). intros id. specialize (Hlt id). lia. }
  destruct Hc as (k' & ops & cuts & Ha & Hh & F & HP & -> & Hfree). destruct (add_ok c w ops cuts Gc Ha HP) as (w' & Ea & Ha' & HP' & Eh & Esu & id & Ep).
  exists true, w'. split; [exact Ea|]. rewrite orb_true_r. split; auto. exists k'. split; auto. exists (ops ++ [Column c]), cuts.
  rewrite Eh, Esu. repeat (split; auto). unfold fr. rewrite Ep. apply Hfree.
Qed.
Lemma H2t k dl done li w : I2 k dl done li true [] w -> exists k', k = S k' /\ I0 k' w.
Proof. intros [_ H]. exact H. Qed.
Lemma H2f k dl done li w : I2 k dl done li false [] w -> I1 k dl (done ++ [li]) w.
Proof. intros (_ & _ & _ & H). auto. Qed.
Lemma Hip k w : I0 k w -> exists w', c_solve_ip E w = Ok (true, w') /\ I0 k w' /\ J w' /\ forall dl done, I1 k dl done w -> I1 k dl done w'.
Proof.
  intros (ops & cuts & Ha & Hh & F & HP & Hk). cbn [c_solve_ip tree_env]. unfold tree_solve_ip.
  destruct (feasible_now _ _ _ Ha) as [x0 Hx0]. destruct (ho_ip _ _ Ho (tm_calls (tw_master w)) _ _ _ Ha) as (x & Ex & Hx); [eauto|]. rewrite Ex.
  destruct (C37_trees u ops cuts _ x V Ha (proj1 HP) Hx) as (s' & sel & tree & Es & _). rewrite Es. cbn [bind]. eexists. split; [reflexivity|].
  assert (Sel : forall ops1 cuts1, after u ops1 cuts1 (tw_master w) -> after u (ops1 ++ [Select (Some x)]) cuts1 s').
  { intros ops1 cuts1 (L & s0 & G0 & Rn). split; [apply Forall_app; split; [exact L|constructor; [exact I|constructor]]|]. exists s0. split; auto.
    rewrite <- (app_nil_r cuts1). eapply run_ops_app; [exact Rn|]. cbn [run_ops do_op]. rewrite Es. reflexivity. }
  assert (Sm : same_master (tw_master w) s').
  { unfold solve_ip in Es. destruct (assert _); [|discriminate]. cbn [bind] in Es. injection Es as <-. repeat split. }
  split; [|split].
  - exists (ops ++ [Select (Some x)]), cuts. cbn [tw_master tw_heur tw_subs]. destruct Sm as (_ & _ & _ & Ep & _). unfold fr in *. rewrite Ep. auto.
  - exists ops, cuts, (tw_master w), x. cbn [tw_master]. eauto 10.
  - intros dl done (ops1 & old & s & x1 & pi & S1 & M1 & (ops' & Ha1) & R1). exists ops1, old, s, x1, pi. cbn [tw_master tw_heur tw_subs]. split; auto.
    split; [|split; [|exact R1]].
    + destruct Sm as (B1 & B2 & B3 & B4 & B5 & B6), M1 as (C1 & C2 & C3 & C4 & C5 & C6). repeat split; congruence.
    + exists (ops' ++ [Select (Some x)]). auto.
Qed.

(** ** The run *)
Lemma init_world w : dtree_init A = Ok w -> exists w', c_generate_mp E w = Ok w' /\ I0 (length (all_buckets d (length (ta_splits A)) W)) w'.
Proof.
  unfold dtree_init. destruct (check_arguments _ _ _ _ _ _); [|discriminate]. cbn [bind]. destruct (construct _ _); [|discriminate]. cbn [bind].
  intros Ew. injection Ew as <-. cbn [c_generate_mp tree_env]. unfold tree_generate_mp. cbn [tw_master tw_heur tw_subs tw_calls].
  destruct (proj1 (C36_total u V)) as [s Ha]. pose proof Ha as (_ & s0 & G0 & Rn). cbn [run_ops] in Rn. injection Rn as ->.
  cbn [su_X su_y su_paths su_nodes su_splits su_beta su_gen su_rounds su_rows fit_setup] in G0. unfold su_leaves in G0. cbn [su_depth fit_setup] in G0.
  rewrite <- (tr_leaves _ _ _ R) in G0. rewrite G0. cbn [bind]. eexists. split; [reflexivity|]. exists [], []. cbn [tw_master tw_heur tw_subs].
  split; auto. split; auto. split; [|split].
  - clear - R Ho. assert (H : forall sp, In sp specs -> sub_fed [] sp (sub_init, pricing_init)).
    { intros [c lf] Hin. destruct (spec_ok _ _ Hin) as (_ & l & Hl & El & _). exists l. split; auto. split; auto. cbn [fst snd]. split; [constructor|apply tuned_init]. }
    induction specs as [|sp l IH]; constructor; [apply H; left; auto|apply IH; intros; apply H; right; auto].
  - destruct (after_inv u [] [] s V Ha) as (_ & _ & _ & _ & _ & _ & Fp & _). cbn [columns flat_map] in Fp. rewrite app_nil_r in Fp. cbn [su_paths fit_setup] in Fp.
    split; [|apply Forall_forall; intros q Hq; destruct (Forall2_In_r _ _ _ _ Fp Hq) as (p & Hp & Eq); rewrite Eq; apply Gp_id; rewrite Forall_forall in Gp_init; auto].
    unfold proper_paths. apply Forall_forall. intros q Hq. destruct (Forall2_In_r _ _ _ _ Fp Hq) as (p & Hp & Eq). apply in_map_iff in Hp. destruct Hp as (p0 & <- & Hp0).
    pose proof (tr_paths _ _ _ R) as Pp. unfold proper_paths in Pp. rewrite Forall_forall in Pp. destruct (Pp p0 Hp0) as [T U]. rewrite Eq. split; [exact T|exact U].
  - apply free_bound.
Qed.
Lemma train_ok w fuel : dtree_init A = Ok w -> iteration_bound u <= fuel ->
  exists s', tree_fit sv A clk X y fuel (new_estimator w) = (s', Done tt) /\ f_iter s' <= iteration_bound u /\ J (f_world s') /\
    (f_optimal s' = true -> exists k dl, I1 k dl (all_subproblems (levels E)) (f_world s')).
Proof.
  intros Ew Hf. destruct (init_world w Ew) as (w1 & Eg & H0). set (k := length (all_buckets d (length (ta_splits A)) W)) in *.
  assert (Ek : iteration_bound u = k + 1) by (unfold iteration_bound, k; rewrite all_buckets_length; reflexivity).
  destruct (fit_total E I0 IU I1 I2 J) with (k := k) (fuel := k + 1) (y := map Z.of_nat y) (s := @new_estimator tworld tduals path w) (w := w1) as (s' & E1 & _ & E2 & E3).
  - apply Hsolve.
  - intros. cbn. eauto.
  - intros. cbn. auto.
  - intros. apply Hupd; auto.
  - apply HU1.
  - intros. apply Hgen; auto.
  - intros. apply Hadd; auto.
  - apply H2t.
  - apply H2f.
  - apply H10.
  - intros _. apply Hip.
  - apply two_labels, (tr_classes _ _ _ R).
  - exact Eg.
  - exact H0.
  - lia.
  - exists s'. pose proof (fit_iters _ _ _ _ _ _ E1) as Hi. split; [|split; [lia|auto]].
    unfold tree_fit. rewrite (fit_mono E (k + 1) fuel); [exact E1|lia|]. rewrite E1. discriminate.
Qed.
End Train.

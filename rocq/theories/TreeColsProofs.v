(** Pricing models: generate_columns decodes what the solver returns. *)
From Coq Require Import Qround.
From Verif Require Import Base Lp LpProofs SpecDual TreeModel SpecTree SpecTreeRun SpecTreeLp SpecTreePrice TreePricingModel TreeGeoProofs
  TreePathProofs TreeLpBuild TreeBuildProofs TreeInvProofs TreeOpProofs TreeMasterProofs TreeSolProofs TreePriceProofs TreeHeurProofs TreeSymProofs
  TreeSubmipProofs TreeDecodeProofs TreeMipProofs.
Open Scope nat_scope.

(** * Rounding *)

Lemma py_round_near q : (inject_Z (py_round q) - q <= 1 # 2)%Q /\ (q - inject_Z (py_round q) <= 1 # 2)%Q.
Proof.
  unfold py_round. pose proof (Qfloor_le q) as H1. pose proof (Qlt_floor q) as H2. rewrite inject_Z_plus in H2. change (inject_Z 1) with 1%Q in H2.
  set (r := (q - inject_Z (Qfloor q))%Q) in *. assert (Er : (r == q - inject_Z (Qfloor q))%Q) by reflexivity.
  destruct (Qltb r (1 # 2)) eqn:E1; [apply Qltb_true in E1; split; lra|]. apply Qltb_false in E1.
  destruct (Qltb (1 # 2) r) eqn:E2; [apply Qltb_true in E2; rewrite inject_Z_plus; change (inject_Z 1) with 1%Q; split; lra|]. apply Qltb_false in E2.
  destruct (Z.even (Qfloor q)); [split; lra|rewrite inject_Z_plus; change (inject_Z 1) with 1%Q; split; lra].
Qed.
Lemma scale_near q : (inject_Z (scale_obj_coeff q) - inject_Z 100000 * q <= 1 # 2)%Q /\ (inject_Z 100000 * q - inject_Z (scale_obj_coeff q) <= 1 # 2)%Q.
Proof. unfold scale_obj_coeff. pose proof (py_round_near (q * inject_Z 100000)) as [H1 H2]. split; lra. Qed.

Section Gen.
Variables (u : setup) (c : pclass) (l nt : nat).
Hypotheses (V : valid_setup u) (D : valid_data u) (Hl : l < 2 ^ su_depth u).
Hypothesis Hnt : is_old c = false -> Forall (fun t => t < nt) (su_y u).
Let lf := create_leaf l (su_depth u).
Let n_rows := length (su_X u).
Notation IDS := (ids u l).
Notation CANDS := (cands u).
Notation WT := (wt u).
Variables (dl : tduals) (cuts : list (list bool)).
Hypothesis H0 : forall i, i < n_rows -> WT i = None -> (nth i (d_row dl) 0 == 0)%Q.
Variables (nodes : list node) (targets : list Z).
Hypothesis Hnodes : Forall2 same_node nodes (su_nodes u).
Hypothesis Htg : is_old c = false -> Permutation targets (map Z.of_nat (seq 0 nt)).
Variables (names : list vkind) (pr : pricing).
Let off := (- nth l (d_leaf dl) 0)%Q.
Hypothesis B : built u c l nt cuts (length cuts) (cf u c l dl) off names pr.
Notation PT := (point u c l nt cuts).
Definition vals (x : nat -> Q) (kd : vkind) : Q := x (at_ names kd).

Lemma vals_point x : ip_feasible (pr_lp pr) x <-> PT (vals x).
Proof.
  rewrite (sym_feasible _ _ _ x (bu_sym _ _ _ _ _ _ _ _ _ _ B)). unfold point. split; intros [H1 H2]; (split; [|exact H2]); intros kd H; apply H1; apply (bu_names _ _ _ _ _ _ _ _ _ _ B); auto.
Qed.
Lemma vals_shape x : ip_feasible (pr_lp pr) x -> exists pick, picks u l pick /\ shape u l (vals x) pick cuts.
Proof. intros H. apply vals_point in H. destruct H as [H1 H2]. eapply point_shape; eauto. Qed.
(** A point from the values of the named variables. *)
Definition xval (val : vkind -> Q) (v : nat) : Q := match nth_error names v with Some kd => val kd | None => 0%Q end.
Lemma xval_at val kd : In kd names -> vals (xval val) kd = val kd.
Proof. clear. intros H. unfold vals, xval. rewrite at_nth by auto. reflexivity. Qed.
Lemma at_known kd : known u c l nt (length cuts) kd -> In kd names.
Proof. apply (bu_names _ _ _ _ _ _ _ _ _ _ B). Qed.
Lemma shape_ext val val' pick : (forall kd, known u c l nt (length cuts) kd -> val kd = val' kd) -> shape u l val pick cuts -> shape u l val' pick cuts.
Proof.
  clear. intros E [S1 S2 S3]. constructor; intros.
  - rewrite <- E by (cbn [known]; auto). auto.
  - rewrite <- E by (cbn [known]; auto). auto.
  - rewrite <- E; eauto. cbn [known]. apply nth_error_Some. congruence.
Qed.
Lemma names_nodup : NoDup names.
Proof. apply (sy_nodup _ _ _ (bu_sym _ _ _ _ _ _ _ _ _ _ B)). Qed.

(** The objective in terms of the unscaled coefficients. *)
Lemma vals_value x pick : picks u l pick -> shape u l (vals x) pick cuts ->
  (qsum (fun kd => cf u c l dl kd * vals x kd) names == cost_of u c (vals x) - dual_part u l dl cuts pick)%Q.
Proof. intros Hp S. eapply value_eq; eauto; [apply names_nodup|apply (bu_names _ _ _ _ _ _ _ _ _ _ B)]. Qed.
Lemma vals_objective x pick : is_sat c = false -> picks u l pick -> shape u l (vals x) pick cuts ->
  (objective_value (pr_lp pr) x == cost_of u c (vals x) - dual_part u l dl cuts pick - nth l (d_leaf dl) 0)%Q.
Proof.
  intros Es Hp S. rewrite (sym_objective _ _ _ (pr_orig pr) _ _ _ x (bu_sym _ _ _ _ _ _ _ _ _ _ B) (bu_obj _ _ _ _ _ _ _ _ _ _ B)).
  rewrite (bu_off _ _ _ _ _ _ _ _ _ _ B). rewrite (qsum_ext _ (fun kd => cf u c l dl kd * vals x kd)%Q).
  - rewrite (vals_value x pick Hp S). unfold off. lra.
  - intros kd _. unfold scl. rewrite Es. reflexivity.
Qed.

(** * Decoding *)

Lemma half b q : (q == ind b)%Q -> Qltb (1 # 2) q = b.
Proof. clear. intros E. destruct b; cbn [ind] in E; [apply Qltb_true|apply Qltb_false]; lra. Qed.
Lemma split_ok x pick n : picks u l pick -> shape u l (vals x) pick cuts -> In n IDS -> chosen_split (pr_u pr) x n (CANDS n) = Ok [pick n].
Proof.
  intros Hp S Hn. assert (G : forall ks, incl ks (CANDS n) -> In (pick n) ks -> chosen_split (pr_u pr) x n ks = Ok [pick n]); [|apply G; [apply incl_refl|auto]].
  induction ks as [|k ks IH]; intros Hi Hk; [destruct Hk|]. cbn [chosen_split]. unfold lookup.
  rewrite (bu_u _ _ _ _ _ _ _ _ _ _ B) by (auto; apply Hi; simpl; auto). cbn [bind].
  rewrite (half (k =? pick n)) by (apply (sh_u _ _ _ _ _ S n k Hn); apply Hi; simpl; auto).
  destruct (Nat.eqb_spec k (pick n)) as [->|Hne]; auto. apply IH; [intros a Ha; apply Hi; simpl; auto|]. destruct Hk; congruence.
Qed.
Lemma choices_ok x pick nds : picks u l pick -> shape u l (vals x) pick cuts ->
  Forall (fun nd => In (n_id nd) IDS /\ n_cands nd = CANDS (n_id nd)) nds ->
  chosen_choices (pr_u pr) x nds = Ok (map n_id nds, map pick (map n_id nds)).
Proof.
  intros Hp S HF. unfold chosen_choices.
  assert (G : forall a b, for_each nds (fun nd st => let* ks := chosen_split (pr_u pr) x (n_id nd) (n_cands nd) in Ok (fst st ++ [n_id nd], snd st ++ ks)) (a, b)
    = Ok (a ++ map n_id nds, b ++ map pick (map n_id nds))).
  { induction HF as [|nd nds [H1 H2] _ IH]; intros a b; cbn [for_each map]; [rewrite !app_nil_r; reflexivity|].
    rewrite H2, (split_ok x pick _ Hp S H1). cbn [bind fst snd]. rewrite IH, <- !app_assoc. reflexivity. }
  apply (G [] []).
Qed.
Lemma wvar t : is_old c = false -> t < nt -> getitemZ (pr_w pr) (Z.of_nat t) = Ok (at_ names (VW t)).
Proof.
  intros Ho Ht. unfold getitemZ. destruct (Z.ltb_spec (Z.of_nat t) 0); [lia|]. rewrite Nat2Z.id. apply getitem_nth.
  rewrite (bu_w _ _ _ _ _ _ _ _ _ _ B), Ho. rewrite nth_error_map, seq_nth_error by auto. reflexivity.
Qed.
Lemma target_none x : is_old c = false -> (forall t, t < nt -> (vals x (VW t) == 0)%Q) -> chosen_target (pr_w pr) x targets = Ok (-1)%Z.
Proof.
  intros Ho Hw. assert (Hr : Forall (fun z => exists t, z = Z.of_nat t /\ t < nt) targets).
  { apply Forall_forall. intros z Hz. apply (Permutation_in _ (Htg Ho)), in_map_iff in Hz. destruct Hz as (t & <- & Ht). apply in_seq in Ht. exists t. split; [auto|lia]. }
  revert Hr. generalize targets. intros ts0 Hr. induction Hr as [|z ts (t & -> & Ht) _ IH]; [reflexivity|]. cbn [chosen_target]. rewrite (wvar t Ho Ht). cbn [bind].
  rewrite (half false); [exact IH|]. apply Hw. auto.
Qed.
Lemma target_ok x t : is_old c = false -> t < nt -> (forall t', t' < nt -> (vals x (VW t') == ind (t' =? t))%Q) -> chosen_target (pr_w pr) x targets = Ok (Z.of_nat t).
Proof.
  intros Ho Ht Hw. assert (Hr : forall z, In z targets -> exists t, z = Z.of_nat t /\ t < nt).
  { intros z Hz. apply (Permutation_in _ (Htg Ho)), in_map_iff in Hz. destruct Hz as (t' & <- & Ht'). apply in_seq in Ht'. exists t'. split; [auto|lia]. }
  assert (Hin : In (Z.of_nat t) targets).
  { apply (Permutation_in _ (Permutation_sym (Htg Ho))). apply in_map. apply in_seq. lia. }
  revert Hr Hin. generalize targets. intros tgs. induction tgs as [|z ts IH]; intros Hr Hin; [destruct Hin|]. cbn [chosen_target].
  destruct (Hr z (or_introl eq_refl)) as (t' & -> & Ht'). rewrite (wvar t' Ho Ht'). cbn [bind]. rewrite (half (t' =? t)) by (apply Hw; auto).
  destruct (Nat.eqb_spec t' t) as [->|Hne]; auto. apply IH; [intros; apply Hr; simpl; auto|]. destruct Hin as [E|]; auto. apply Nat2Z.inj in E. congruence.
Qed.
Lemma zs_get i : i < n_rows -> getitem (pr_z pr) i = Ok (match WT i with Some _ => if is_old c then None else Some (at_ names (VZ i)) | None => None end).
Proof. intros Hi. apply getitem_nth. rewrite (bu_z _ _ _ _ _ _ _ _ _ _ B), nth_error_map. fold n_rows. rewrite seq_nth_error by auto. reflexivity. Qed.
Lemma ys_get i : i < n_rows -> getitem (pr_y pr) i = Ok (match WT i with Some _ => Some (at_ names (VY i)) | None => None end).
Proof. intros Hi. apply getitem_nth. rewrite (bu_y _ _ _ _ _ _ _ _ _ _ B), nth_error_map. fold n_rows. rewrite seq_nth_error by auto. reflexivity. Qed.
Lemma y_get i : i < n_rows -> getitem (su_y u) i = Ok (label u i).
Proof. clear - D. intros Hi. apply getitem_nth. unfold label. apply nth_error_nth'. destruct D as [-> _]. exact Hi. Qed.
Lemma cost_ok x : exists q, decoded_cost c (su_rows u) n_rows (su_y u) (pr_z pr) (pr_y pr) x = Ok q /\ (q == cost_of u c (vals x))%Q.
Proof.
  unfold decoded_cost, cost_of. fold n_rows.
  set (f := fun i => (match WT i with Some w => match c with COld t => ind (label u i =? t) * vals x (VY i) | _ => inject_Z (Z.of_nat w) * vals x (VZ i) end | None => 0 end)%Q).
  apply (for_each_total (seq 0 n_rows) _ (fun pre q => (q == qsum f pre)%Q)); [|reflexivity].
  intros pre i post q E Hq. assert (Hi : i < n_rows) by (eapply pre_seq; eauto).
  rewrite (weigh_wt u V i Hi). cbn [bind].
  assert (Hs : forall q', (q' == q + f i)%Q -> (q' == qsum f (pre ++ [i]))%Q) by (intros q' Hq'; rewrite qsum_app, qsum_cons; cbn [qsum fold_right]; lra).
  assert (Ef : f i = (match WT i with Some w => match c with COld t => ind (label u i =? t) * vals x (VY i) | _ => inject_Z (Z.of_nat w) * vals x (VZ i) end | None => 0 end)%Q) by reflexivity.
  pose proof (zs_get i Hi) as Ez. pose proof (ys_get i Hi) as Ey.
  destruct (WT i) as [w|]; [|exists q; split; [reflexivity|apply Hs; rewrite Ef; lra]].
  destruct c as [| |t].
  - rewrite Ez. cbn [bind is_old]. eexists. split; [reflexivity|]. apply Hs. rewrite Ef. unfold vals. lra.
  - rewrite Ez. cbn [bind is_old]. eexists. split; [reflexivity|]. apply Hs. rewrite Ef. unfold vals. lra.
  - rewrite Ey, (y_get i Hi). cbn [bind]. eexists. split; [reflexivity|]. apply Hs. rewrite Ef. unfold vals. destruct (label u i =? t); cbn [ind]; lra.
Qed.

(** The nodes of the leaf, in the order of [nodes]. *)
Lemma own_nodes : let nds := filter (fun nd => memb (n_id nd) IDS) nodes in
  Forall (fun nd => In (n_id nd) IDS /\ n_cands nd = CANDS (n_id nd)) nds /\ Permutation (map n_id nds) IDS.
Proof.
  clear - V Hl Hnodes. intros nds.
  assert (Hid : forall i nd, nth_error nodes i = Some nd -> n_id nd = i /\ n_cands nd = CANDS i).
  { intros i nd E. destruct (Forall2_nth_l _ _ _ _ _ Hnodes E) as (nd' & E' & H1 & H2). pose proof V as (wf & _). destruct (wt_nodes _ _ _ _ wf) as [_ Hi].
    rewrite H1, H2. split; [eapply Hi; eauto|]. unfold cands. rewrite E'. auto. }
  split.
  - apply Forall_forall. intros nd H. apply filter_In in H. destruct H as [H1 H2]. apply memb_In in H2. split; auto.
    apply In_nth_error in H1. destruct H1 as [i Ei]. destruct (Hid i nd Ei) as [-> ->]. reflexivity.
  - apply NoDup_Permutation; [|apply ids_nodup; auto|].
    + assert (Hm : map n_id nodes = seq 0 (length nodes)).
      { apply nth_error_ext'; [rewrite map_length, seq_length; auto|]. intros i Hi. rewrite map_length in Hi. rewrite nth_error_map.
        destruct (nth_error nodes i) as [nd|] eqn:E; [|apply nth_error_None in E; lia]. rewrite seq_nth_error by auto. cbn [option_map]. f_equal. apply (Hid i nd E). }
      assert (Hf : map n_id nds = filter (fun n => memb n IDS) (map n_id nodes)).
      { unfold nds. clear. induction nodes as [|nd ns IH]; [reflexivity|]. cbn [filter map]. destruct (memb (n_id nd) IDS); cbn [map]; rewrite IH; reflexivity. }
      rewrite Hf, Hm. apply NoDup_filter, seq_NoDup.
    + intros n. rewrite in_map_iff. split.
      * intros (nd & <- & H). apply filter_In in H. destruct H as [_ H]. apply memb_In in H. auto.
      * intros Hn. destruct (fetch u l V Hl nodes Hnodes n Hn) as (nd & E & E1 & _). exists nd. split; auto. apply filter_In.
        split; [|rewrite E1; apply memb_In; auto]. apply getitem_ok in E. eapply nth_error_In; eauto.
Qed.
Lemma own_order : exists nds, map_res (getitem nodes) IDS = Ok nds /\ Forall (fun nd => In (n_id nd) IDS /\ n_cands nd = CANDS (n_id nd)) nds /\ map n_id nds = IDS.
Proof.
  clear - V Hl Hnodes. assert (G : forall is, incl is IDS -> exists nds, map_res (getitem nodes) is = Ok nds /\
    Forall (fun nd => In (n_id nd) IDS /\ n_cands nd = CANDS (n_id nd)) nds /\ map n_id nds = is); [|apply G, incl_refl].
  induction is as [|n is IH]; intros Hi; [exists []; repeat split; constructor|].
  destruct IH as (nds & E & HF & Em); [intros a Ha; apply Hi; simpl; auto|]. destruct (fetch u l V Hl nodes Hnodes n) as (nd & E1 & E2 & E3); [apply Hi; simpl; auto|].
  exists (nd :: nds). cbn [map_res map]. rewrite E1. cbn [bind]. rewrite E. cbn [bind]. split; auto. split; [|congruence].
  constructor; auto. rewrite E2. split; auto. apply Hi. simpl. auto.
Qed.

(** What a decoded path looks like. *)
Record decoded (val : vkind -> Q) (pick : nat -> nat) (p : path) : Prop := {
  de_pick : picks u l pick;
  de_shape : shape u l val pick cuts;
  de_path : pick_path u l pick p;
  de_cost : (p_cost p == cost_of u c val)%Q;
  de_id : p_id p = 0 /\ p_initial p = false;
  de_target : match c with
              | COld t => p_target p = Z.of_nat t
              | _ => (is_sat c = false /\ p_target p = (-1)%Z /\ (p_cost p == 0)%Q) \/
                     (exists t, t < nt /\ p_target p = Z.of_nat t /\ (0 <= p_cost p)%Q /\ (p_cost p <= wsum u l pick t)%Q)
              end
}.
Lemma decoded_price val pick p : decoded val pick p -> reported_price u cuts dl p (cost_of u c val - dual_part u l dl cuts pick - nth l (d_leaf dl) 0)%Q.
Proof.
  clear - Hl. intros H. pose proof (pick_price u l Hl dl cuts pick p (de_path _ _ _ H)) as (rs & cs & R1 & R2 & R3 & R4 & R5). exists rs, cs.
  split; auto. split; auto. split; auto. split; auto. rewrite <- (de_cost _ _ _ H), <- R5. lra.
Qed.
Lemma decode_target x pick : is_old c = false -> ip_feasible (pr_lp pr) x -> shape u l (vals x) pick cuts -> exists z, chosen_target (pr_w pr) x targets = Ok z /\
  ((is_sat c = false /\ z = (-1)%Z /\ (cost_of u c (vals x) == 0)%Q) \/
   (exists t, t < nt /\ z = Z.of_nat t /\ (0 <= cost_of u c (vals x))%Q /\ (cost_of u c (vals x) <= wsum u l pick t)%Q)).
Proof.
  intros Ho Hx S. apply vals_point in Hx. destruct (point_class u c l nt Hl cuts (vals x) Ho Hx) as [[Es Hw]|(t & Ht & Hw)].
  - exists (-1)%Z. split; [apply target_none; auto|]. left. split; auto. split; auto. eapply cost_none; eauto.
  - exists (Z.of_nat t). split; [apply target_ok; auto|]. right. exists t. split; auto. split; auto. eapply cost_bound; eauto.
Qed.

(** generate_columns of the two MIP variants. *)
Lemma mip_ok solver x : is_sat c = false -> solver (pr_lp pr) = Some x -> ip_feasible (pr_lp pr) x ->
  exists ps, mip_generate c lf nodes targets (su_rows u) solver n_rows (su_y u) pr = Ok ps /\
    ((objective_value (pr_lp pr) x <= teps)%Q /\ ps = [] \/
     (teps < objective_value (pr_lp pr) x)%Q /\ exists p pick, ps = [p] /\ decoded (vals x) pick p /\ reported_price u cuts dl p (objective_value (pr_lp pr) x)).
Proof.
  intros Es Ex Hx. unfold mip_generate. rewrite Ex. destruct (Qle_bool (objective_value (pr_lp pr) x) teps) eqn:Eo.
  { exists []. split; auto. left. split; auto. apply Qle_bool_iff. auto. }
  assert (Ho : (teps < objective_value (pr_lp pr) x)%Q) by (apply Qnot_le_lt; intros H; apply Qle_bool_iff in H; congruence).
  destruct (vals_shape x Hx) as (pick & Hp & S). destruct own_nodes as [HF Hperm].
  change (l_left lf ++ l_right lf) with IDS. rewrite (choices_ok x pick _ Hp S HF). cbn [bind].
  destruct (cost_ok x) as (q & Eq & Hq). rewrite Eq.
  assert (Hid : l_id lf = l) by (apply create_leaf_id; auto). rewrite Hid.
  assert (Ht : exists z, (match c with COld t => Ok (Z.of_nat t) | _ => chosen_target (pr_w pr) x targets end) = Ok z /\
    match c with COld t => z = Z.of_nat t | _ =>
      (is_sat c = false /\ z = (-1)%Z /\ (q == 0)%Q) \/ (exists t, t < nt /\ z = Z.of_nat t /\ (0 <= q)%Q /\ (q <= wsum u l pick t)%Q) end).
  { assert (Hdt : is_old c = false -> exists z, chosen_target (pr_w pr) x targets = Ok z /\
      ((is_sat c = false /\ z = (-1)%Z /\ (q == 0)%Q) \/ (exists t, t < nt /\ z = Z.of_nat t /\ (0 <= q)%Q /\ (q <= wsum u l pick t)%Q))).
    { intros Hold. destruct (decode_target x pick Hold Hx S) as (z & E & H). exists z. split; auto.
      destruct H as [(H1 & H2 & H3)|(t & H1 & H2 & H3 & H4)]; [left|right; exists t]; repeat split; auto; rewrite Hq; auto. }
    clear - Hdt Es. destruct c as [| |t]; [apply Hdt; reflexivity|discriminate Es|eauto]. }
  destruct Ht as (z & Ez & Hz). rewrite Ez. cbn [bind]. eexists. split; [reflexivity|]. right. split; auto. eexists _, pick. split; [reflexivity|].
  assert (Hd : decoded (vals x) pick (mkPath l (map n_id (filter (fun nd => memb (n_id nd) IDS) nodes))
     (map pick (map n_id (filter (fun nd => memb (n_id nd) IDS) nodes))) q 0 z false)).
  { constructor; auto. split; [reflexivity|]. split; [exact Hperm|reflexivity]. }
  split; auto. destruct (decoded_price _ _ _ Hd) as (rs & cs & R1 & R2 & R3 & R4 & R5). exists rs, cs.
  split; auto. split; auto. split; auto. split; auto. rewrite (vals_objective x pick Es Hp S). exact R5.
Qed.

(** Every choice of splits and every class is an integral point. *)
Lemma encode_ok pick t : picks u l pick -> (is_old c = false -> t < nt) ->
  exists x, ip_feasible (pr_lp pr) x /\ shape u l (vals x) pick cuts /\ (forall kd, In kd names -> vals x kd = enc u l cuts pick t kd) /\
    (cost_of u c (vals x) == match c with COld t' => csum u l pick t' | _ => wsum u l pick t end)%Q.
Proof.
  intros Hp Ht. exists (xval (enc u l cuts pick t)).
  assert (E : forall kd, In kd names -> vals (xval (enc u l cuts pick t)) kd = enc u l cuts pick t kd) by (intros; apply xval_at; auto).
  assert (S : shape u l (vals (xval (enc u l cuts pick t))) pick cuts).
  { apply (shape_ext (enc u l cuts pick t)); [intros kd H; symmetry; apply E, at_known; auto|apply enc_shape]. }
  split; [|split; [exact S|split; [exact E|]]].
  - apply (sym_feasible _ _ _ _ (bu_sym _ _ _ _ _ _ _ _ _ _ B)). destruct (enc_point u c l nt V Hl Hnt cuts pick t Hp Ht) as [P1 P2]. split.
    + intros kd H. fold (vals (xval (enc u l cuts pick t)) kd). rewrite E by auto. apply P1, (bu_names _ _ _ _ _ _ _ _ _ _ B). auto.
    + pose proof (sy_cons _ _ _ (bu_sym _ _ _ _ _ _ _ _ _ _ B)) as HS. apply Forall_forall. intros sc Hsc. rewrite Forall_forall in P2. specialize (P2 sc Hsc).
      apply In_nth_error in Hsc. destruct Hsc as [j Ej]. destruct (Forall2_nth_l _ _ _ _ _ HS Ej) as (cn & _ & Hok). destruct sc as [[lb ub] terms]. destruct Hok as (_ & _ & _ & Hincl & _). cbn [fst snd] in *.
      unfold sat_con in *. change (fun kd => xval (enc u l cuts pick t) (at_ names kd)) with (vals (xval (enc u l cuts pick t))).
      assert (Eq : (term_sum (vals (xval (enc u l cuts pick t))) terms == term_sum (enc u l cuts pick t) terms)%Q); [|unfold in_bounds in *; destruct P2 as [Q1 Q2]; split; intros b Hb; rewrite Eq; auto].
      unfold term_sum. apply qsum_ext. intros [kd q] Hin. cbn [fst snd]. rewrite E; [reflexivity|]. apply Hincl. apply (in_map fst _ _ Hin).
  - assert (E1 : is_old c = false -> (cost_of u c (vals (xval (enc u l cuts pick t))) == wsum u l pick t)%Q).
    { intros Ho. rewrite <- (enc_cost u c l nt Hnt cuts pick t Ho). unfold cost_of. apply qsum_ext. intros i Hi. apply in_seq in Hi.
      destruct (WT i) as [w|] eqn:Ew; [|reflexivity]. assert (Ez : vals (xval (enc u l cuts pick t)) (VZ i) = enc u l cuts pick t (VZ i)).
      { apply E, at_known. cbn [known]. split; auto. split; [unfold n_rows in *; lia|congruence]. }
      rewrite Ez. clear - Ho. destruct c; try discriminate; reflexivity. }
    assert (E2 : forall t', c = COld t' -> (cost_of u c (vals (xval (enc u l cuts pick t))) == csum u l pick t')%Q).
    { intros t' Ec. apply (cost_old u c l nt Hl Hnt cuts _ pick t' Ec S). }
    clear - E1 E2. destruct c; auto.
Qed.

(** * The CP-SAT variant *)
Section Sat.
Hypothesis Hsat : c = CSat.

Lemma orig_at kd : In kd names -> pr_orig pr (at_ names kd) = cf u c l dl kd.
Proof.
  intros H. apply (ob_orig _ _ _ _ _ (bu_obj _ _ _ _ _ _ _ _ _ _ B)); [rewrite Hsat; reflexivity|]. apply at_nth. auto.
Qed.
Lemma cost_var_sum x : (var_sum (pr_orig pr) x (pr_z pr) == cost_of u c (vals x))%Q.
Proof.
  rewrite (bu_z _ _ _ _ _ _ _ _ _ _ B). unfold var_sum, cost_of. rewrite qsum_map. apply qsum_ext. intros i Hi. apply in_seq in Hi.
  destruct (WT i) as [w|] eqn:Ew; [|reflexivity]. rewrite Hsat at 1. cbn [is_old]. rewrite orig_at.
  - cbn [cf]. rewrite Ew, Hsat. reflexivity.
  - apply at_known. cbn [known]. rewrite Hsat. cbn [is_old]. split; auto. split; [unfold n_rows; lia|congruence].
Qed.
Lemma row_var_sum x : (var_sum (pr_orig pr) x (pr_z pr) + var_sum (pr_orig pr) x (pr_y pr) ==
  qsum (fun kd => cf u c l dl kd * vals x kd) (flat_map (row_names u c) (seq 0 n_rows)))%Q.
Proof.
  rewrite (bu_z _ _ _ _ _ _ _ _ _ _ B), (bu_y _ _ _ _ _ _ _ _ _ _ B). unfold var_sum. rewrite !qsum_map, <- qsum_plus. fold n_rows.
  assert (Hi : forall i, In i (seq 0 n_rows) -> i < n_rows) by (intros i Hi; apply in_seq in Hi; lia). revert Hi. generalize (seq 0 n_rows).
  intros rs Hi. induction rs as [|i rs IH]; [reflexivity|]. cbn [flat_map]. rewrite qsum_app, qsum_cons, IH by (intros; apply Hi; simpl; auto).
  apply Qplus_comp; [|reflexivity]. specialize (Hi i (or_introl eq_refl)). unfold row_names. destruct (WT i) as [w|] eqn:Ew; [|cbn [qsum fold_right]; lra].
  assert (Ho : is_old c = false) by (rewrite Hsat; reflexivity). rewrite Ho, !qsum_cons. cbn [qsum fold_right].
  rewrite !orig_at by (apply at_known; cbn [known]; repeat split; auto; congruence). unfold vals. lra.
Qed.
Lemma original_ok x : exists q, original_objective lf nodes (nth l (d_leaf dl) 0%Q) x pr = Ok q /\ (q == qsum (fun kd => cf u c l dl kd * vals x kd) names - nth l (d_leaf dl) 0)%Q.
Proof.
  unfold original_objective. change (l_left lf ++ l_right lf) with IDS.
  set (f := fun kd => (cf u c l dl kd * vals x kd)%Q).
  set (part := (var_sum (pr_orig pr) x (pr_z pr) + var_sum (pr_orig pr) x (pr_y pr) + qsum (fun v => pr_orig pr v * x v) (pr_yc pr))%Q).
  assert (Hpart : (part == qsum f (flat_map (row_names u c) (seq 0 n_rows)) + qsum f (map VC (seq 0 (length cuts))))%Q).
  { unfold part. rewrite row_var_sum. apply Qplus_comp; [reflexivity|]. rewrite (bu_yc _ _ _ _ _ _ _ _ _ _ B), !qsum_map. apply qsum_ext. intros j Hj.
    apply in_seq in Hj. rewrite orig_at; [reflexivity|]. apply at_known. cbn [known]. lia. }
  destruct (for_each_total IDS (fun id acc => let* nd := getitem nodes id in
       for_each (n_cands nd) (fun k acc => let* v := lookup key2_eqb (pr_u pr) (n_id nd, k) in Ok (acc + pr_orig pr v * x v)%Q) acc)
    (fun pre q => (q == part + qsum f (flat_map (fun n => map (VU n) (CANDS n)) pre))%Q)) with (s := part) as (q & Eq & Hq).
  { intros pre n post q E Hq. assert (Hn : In n IDS) by (rewrite E; apply in_or_app; right; left; reflexivity).
    destruct (fetch u l V Hl nodes Hnodes n Hn) as (nd & E1 & E2 & E3). rewrite E1. cbn [bind]. rewrite E2, E3.
    destruct (for_each_total (CANDS n) (fun k acc => let* v := lookup key2_eqb (pr_u pr) (n, k) in Ok (acc + pr_orig pr v * x v)%Q)
      (fun pre' q' => (q' == q + qsum f (map (VU n) pre'))%Q)) with (s := q) as (q' & Eq' & Hq').
    - intros pre' k post' q' E' Hq'. assert (Hk : In k (CANDS n)) by (rewrite E'; apply in_or_app; right; left; reflexivity).
      unfold lookup. rewrite (bu_u _ _ _ _ _ _ _ _ _ _ B n k Hn Hk). cbn [bind]. eexists. split; [reflexivity|].
      rewrite map_app, qsum_app. cbn [map]. rewrite qsum_cons, Hq', orig_at by (apply at_known; cbn [known]; auto). unfold f, vals. cbn [qsum fold_right]. lra.
    - cbn [map qsum fold_right]. lra.
    - exists q'. split; auto. rewrite flat_map_app. cbn [flat_map]. rewrite app_nil_r, qsum_app. lra. }
  { cbn [flat_map qsum fold_right]. lra. }
  rewrite Eq. cbn [bind]. eexists. split; [reflexivity|]. apply Qplus_comp; [|reflexivity]. rewrite Hq, Hpart.
  assert (Hp : Permutation names (flat_map (row_names u c) (seq 0 n_rows) ++ map VC (seq 0 (length cuts)) ++ split_names u l ++ class_names c nt))
    by (eapply names_perm; eauto; [apply names_nodup|apply (bu_names _ _ _ _ _ _ _ _ _ _ B)]).
  rewrite (qsum_perm f _ _ Hp), !qsum_app.
  assert (E4 : (qsum f (class_names c nt) == 0)%Q).
  { unfold class_names. destruct (is_old c); [reflexivity|]. rewrite qsum_map. apply qsum_zero. intros t _. unfold f. cbn [cf]. lra. }
  rewrite E4. unfold split_names. lra.
Qed.

(** One reported solution. *)
Lemma on_solution_ok x paths : ip_feasible (pr_lp pr) x ->
  exists ps v, on_solution lf nodes targets (nth l (d_leaf dl) 0%Q) pr x paths = Ok (paths ++ ps) /\ (v == qsum (fun kd => cf u c l dl kd * vals x kd) names - nth l (d_leaf dl) 0)%Q /\ ((v <= teps)%Q /\ ps = [] \/
     (teps < v)%Q /\ exists p pick, ps = [p] /\ decoded (vals x) pick p /\ p_nodes p = IDS /\ reported_price u cuts dl p v).
Proof.
  intros Hx. unfold on_solution. destruct (original_ok x) as (q & Eq & Hq). rewrite Eq. cbn [bind].
  destruct (Qle_bool q teps) eqn:Eo.
  { exists [], q. rewrite app_nil_r. split; auto. split; auto. left. split; auto. apply Qle_bool_iff. auto. }
  assert (Ho : (teps < q)%Q) by (apply Qnot_le_lt; intros H; apply Qle_bool_iff in H; congruence).
  destruct (vals_shape x Hx) as (pick & Hp & S). destruct own_order as (nds & En & HF & Em). change (l_left lf ++ l_right lf) with IDS.
  rewrite En. cbn [bind]. rewrite (choices_ok x pick _ Hp S HF), Em. cbn [bind].
  assert (Hold : is_old c = false) by (rewrite Hsat; reflexivity).
  destruct (decode_target x pick Hold Hx S) as (z & Ez & Hz). rewrite Ez. cbn [bind].
  assert (Hid : l_id lf = l) by (apply create_leaf_id; auto). rewrite Hid.
  eexists [_], q. split; [reflexivity|]. split; auto. right. split; auto. eexists _, pick. split; [reflexivity|].
  set (p := mkPath l IDS (map pick IDS) (var_sum (pr_orig pr) x (pr_z pr)) 0 z false).
  assert (Hd : decoded (vals x) pick p).
  { constructor; auto.
    - split; [reflexivity|]. split; [apply Permutation_refl|reflexivity].
    - apply cost_var_sum.
    - assert (Hc : (p_cost p == cost_of u c (vals x))%Q) by apply cost_var_sum.
      assert (G : (is_sat c = false /\ z = (-1)%Z /\ (p_cost p == 0)%Q) \/ (exists t, t < nt /\ z = Z.of_nat t /\ (0 <= p_cost p)%Q /\ (p_cost p <= wsum u l pick t)%Q)).
      { destruct Hz as [(Z1 & Z2 & Z3)|(t & Z1 & Z2 & Z3 & Z4)]; [left|right; exists t]; repeat split; auto; rewrite Hc; auto. }
      clear - G Hold. destruct c; try discriminate; exact G. }
  split; auto. split; auto. destruct (decoded_price _ _ _ Hd) as (rs & cs & R1 & R2 & R3 & R4 & R5). exists rs, cs.
  split; auto. split; auto. split; auto. split; auto. rewrite Hq, (vals_value x pick Hp S). exact R5.
Qed.
(** All reported solutions. *)
Lemma callback_ok xs : Forall (ip_feasible (pr_lp pr)) xs ->
  exists ps, for_each xs (on_solution lf nodes targets (nth l (d_leaf dl) 0%Q) pr) [] = Ok ps /\ Forall (fun p => exists x pick v, In x xs /\ decoded (vals x) pick p /\ p_nodes p = IDS /\ reported_price u cuts dl p v /\ (teps < v)%Q) ps /\
    (ps = [] -> forall x, In x xs -> (qsum (fun kd => cf u c l dl kd * vals x kd) names - nth l (d_leaf dl) 0 <= teps)%Q).
Proof.
  intros HF. rewrite Forall_forall in HF.
  destruct (for_each_total xs (on_solution lf nodes targets (nth l (d_leaf dl) 0%Q) pr) (fun pre ps =>
    Forall (fun p => exists x pick v, In x xs /\ decoded (vals x) pick p /\ p_nodes p = IDS /\ reported_price u cuts dl p v /\ (teps < v)%Q) ps /\
    (ps = [] -> forall x, In x pre -> (qsum (fun kd => cf u c l dl kd * vals x kd) names - nth l (d_leaf dl) 0 <= teps)%Q))) with (s := @nil path) as (ps & E & H); eauto.
  - intros pre x post ps E [P1 P2]. assert (Hin : In x xs) by (rewrite E; apply in_or_app; right; left; reflexivity).
    destruct (on_solution_ok x ps (HF x Hin)) as (ps' & v & Eo & Hv & H). exists (ps ++ ps'). split; auto. split.
    + apply Forall_app. split; auto. destruct H as [[_ ->]|(Hlt & p & pick & -> & Hd & Hno & Hr)]; [constructor|]. constructor; [|constructor].
      exists x, pick, v. auto.
    + intros En x' Hx'. apply app_eq_nil in En. destruct En as [-> ->]. apply in_app_or in Hx'. destruct Hx' as [Hx'|[<-|[]]]; [auto|].
      destruct H as [[Hle _]|(_ & p & pick & He & _)]; [|discriminate]. lra.
  - split; [constructor|]. intros _ x [].
Qed.

(** The scaled objective is close to 100000 times the original one. *)
Lemma scl_sum x : (forall kd, In kd names -> zero_one (vals x kd)) ->
  let a := qsum (fun kd => scl c (cf u c l dl kd) * vals x kd)%Q names in
  let b := (inject_Z 100000 * qsum (fun kd => cf u c l dl kd * vals x kd) names)%Q in
  (a - b <= inject_Z (Z.of_nat (length names)) * (1 # 2))%Q /\ (b - a <= inject_Z (Z.of_nat (length names)) * (1 # 2))%Q.
Proof.
  clear - Hsat. intros Hz. cbn zeta. rewrite <- qsum_scale, <- !qsum_minus.
  assert (Hc : forall (q : Q), (inject_Z (Z.of_nat (length names)) * q == qsum (fun _ : vkind => q) names)%Q).
  { intros q. rewrite qsum_const. lra. }
  rewrite Hc. assert (Es : forall q, scl c q = inject_Z (scale_obj_coeff q)) by (intros q; unfold scl; rewrite Hsat; reflexivity).
  split; apply qsum_le; intros kd Hk; rewrite Es; pose proof (scale_near (cf u c l dl kd)) as [S1 S2]; destruct (Hz kd Hk) as [E|E]; rewrite E; lra.
Qed.
Lemma sat_optimal g x x' : near_optimal (pr_lp pr) x g -> ip_feasible (pr_lp pr) x' ->
  (qsum (fun kd => cf u c l dl kd * vals x' kd) names <=
   qsum (fun kd => cf u c l dl kd * vals x kd) names + inject_Z (Z.of_nat (num_vars (pr_lp pr))) * (1 # 100000) + g * (1 # 100000))%Q.
Proof.
  intros [Hx Ho] Hx'. specialize (Ho x' Hx'). rewrite (bu_max _ _ _ _ _ _ _ _ _ _ B) in Ho.
  rewrite !(sym_objective _ _ _ (pr_orig pr) _ _ _ _ (bu_sym _ _ _ _ _ _ _ _ _ _ B) (bu_obj _ _ _ _ _ _ _ _ _ _ B)) in Ho.
  assert (En : num_vars (pr_lp pr) = length names) by (unfold num_vars; rewrite (sy_vars _ _ _ (bu_sym _ _ _ _ _ _ _ _ _ _ B)); apply repeat_length).
  rewrite En. apply (sym_feasible _ _ _ _ (bu_sym _ _ _ _ _ _ _ _ _ _ B)) in Hx, Hx'. destruct Hx as [Z1 _]. destruct Hx' as [Z2 _].
  pose proof (scl_sum x Z1) as [A1 A2]. pose proof (scl_sum x' Z2) as [B1 B2]. cbn zeta in *. unfold vals in *. change (inject_Z 100000) with (100000 # 1)%Q in *. lra.
Qed.
End Sat.
End Gen.

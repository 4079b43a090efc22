(** C79: what the estimator and the results file of the experiment script say about cuts and times. *)
From Verif Require Import Base Lp FitModel SpecFit TreeModel TreePricingModel TreeFitModel ExpModel ExpMainModel SpecTree SpecMain SpecReport FitProofs FitMainProofs
  TimelineProofs CutCountProofs CutPaceProofs TreeHonestProofs ExpCheck SpecExp PropExpRows MainProofs PropFit PropTimes PropPrep PropMain.
Open Scope nat_scope.

Lemma marked_false k : marked (repeat false k) = 0.
Proof. unfold marked. induction k as [|k IH]; [reflexivity|exact IH]. Qed.

(** total_cuts_added counts the constraints the master problem gained after it was built, for rows or for generated cuts. *)
Theorem C79_cuts : forall A X y sv clk w0 fuel s', dtree_init A = Ok w0 -> tree_fit sv A clk X y fuel (new_estimator w0) = (s', Done tt) ->
  let m := tw_master (f_world s') in
  exists m0, generate_mp X y (tw_master w0) = Ok m0 /\
    num_cons (tm_lp m) = num_cons (tm_lp m0) + tm_total_cuts m /\
    marked (tm_added m) = marked (tm_added m0) + tm_total_cuts m /\
    (ta_beta A = true -> tm_total_cuts m = marked (tm_added m)) /\
    (ta_gen A = false -> length (tm_added m) = length X) /\
    (ta_beta A = true -> ta_gen A = false -> tm_total_cuts m <= length X) /\
    (ta_beta A = false -> ta_gen A = false -> tm_total_cuts m = 0).
Proof.
  intros A X y sv clk w0 fuel s' Ew Ef m.
  assert (E0 : exists m0, generate_mp X y (tw_master w0) = Ok m0).
  { destruct (fit_generates _ _ _ _ _ _ Ef) as (w1 & H1). cbn [c_generate_mp tree_env] in H1. unfold tree_generate_mp in H1. cbn [f_world new_estimator] in H1.
    destruct (generate_mp X y (tw_master w0)) as [m0|]; [eauto|discriminate]. }
  destruct E0 as [m0 E0]. exists m0. split; [exact E0|].
  destruct (fit_counted _ _ _ _ _ _ _ _ m0 Ef E0) as (C1 & C2 & C3 & C4 & C5 & C6 & C7). fold m in C1, C2, C3, C4, C5, C6, C7.
  assert (Z : tm_generated (tw_master w0) = false /\ tm_total_cuts (tw_master w0) = 0 /\ tm_beta_cuts (tw_master w0) = ta_beta A /\ tm_gen_cuts (tw_master w0) = ta_gen A).
  { unfold dtree_init in Ew. destruct (check_arguments _ _ _ _ _ _); [|discriminate]. cbn [bind] in Ew. destruct (construct _ _); [|discriminate]. cbn [bind] in Ew. injection Ew as <-. auto. }
  destruct Z as (Z1 & Z2 & Z3 & Z4).
  assert (G : tm_total_cuts m0 = 0 /\ length (tm_added m0) = length X /\ (ta_beta A = true -> marked (tm_added m0) = 0) /\ tm_gen_cuts m0 = ta_gen A /\ tm_beta_cuts m0 = ta_beta A).
  { unfold generate_mp in E0. rewrite Z1 in E0. destruct (create_cut_gen_model _ _ _); [|discriminate]. cbn [bind] in E0. destruct (make_path_vars _ _). destruct (make_leaf_cons _ _ _) as [[? ?]|]; [|discriminate].
    cbn [bind] in E0. destruct (match tm_rows (tw_master w0) with None => _ | _ => _ end) as [[? rows]|]; [|discriminate]. cbn [bind] in E0.
    destruct (make_row_cons _ _ _ _ _ _ _) as [[[m4 rc] ad]|] eqn:Er; [|discriminate]. cbn [bind] in E0. destruct (for_ns _ _ _ _) as [[[? ?] ?]|]; [|discriminate]. cbn [bind] in E0. injection E0 as <-.
    cbn [tm_total_cuts tm_added tm_gen_cuts tm_beta_cuts]. rewrite Z2, Z3, Z4. rewrite Z3 in Er. unfold make_row_cons in Er. destruct (ta_beta A).
    - injection Er as _ _ <-. rewrite repeat_length. repeat split; auto. intros _. apply marked_false.
    - repeat split; auto; [|discriminate].
      refine (for_each_inv _ _ (fun st => length (snd st) = length X) _ _ _ _ Er); [|cbn; apply repeat_length].
      intros r [[ma ca] aa] [[mb cb] ab] _ Ha Eb. cbn in Ha |- *. destruct (getitem rows r) as [dr|]; [|discriminate]. cbn [bind] in Eb. destruct (r_gone dr); [injection Eb as _ _ <-; exact Ha|].
      destruct (setitem aa r true) as [aa'|] eqn:Es; [|discriminate]. cbn [bind] in Eb. apply setitem_inv in Es as [-> _]. cbn [new_con] in Eb.
      destruct (setitem ca r _); [|discriminate]. cbn [bind] in Eb. destruct (getitem X r); [|discriminate]. cbn [bind] in Eb. destruct (followed _ _ _ _); [|discriminate]. cbn [bind] in Eb.
      injection Eb as _ _ <-. rewrite set_nth_len. exact Ha. }
  destruct G as (G1 & G2 & G3 & G4 & G5). rewrite G4, G5 in *.
  split; [lia|]. split; [lia|]. split; [intros Hb; specialize (G3 Hb); lia|]. split; [intros Hg; rewrite (C4 Hg); exact G2|]. split.
  - intros Hb Hg. specialize (G3 Hb). assert (L : marked (tm_added m) <= length (tm_added m)).
    { unfold marked. clear. induction (tm_added m) as [|[] l IH]; cbn; lia. }
    rewrite (C4 Hg), G2 in L. lia.
  - intros Hb Hg. rewrite (C7 Hb Hg). exact G1.
Qed.
Print Assumptions C79_cuts.

Lemma main_report wd o fuel t r1 r2 : train wd o fuel = Done t -> main wd o fuel = Done (r1, r2) ->
  let s := td_state t in
  rs_cuts r2 = tm_total_cuts (tw_master (f_world s)) /\ rs_master r2 = f_tmaster s /\ rs_add r2 = f_tadd s /\ rs_ip r2 = f_tip s /\ rs_time r2 = f_elapsed s /\
  exists e0 q0 q1 qs, f_tsp s = (e0 :: q0) :: q1 :: qs /\ rs_sp_heuristic r2 = e0 /\ rs_sp_ip r2 = qsum (fun q => q) q1.
Proof.
  intros Et Em s. unfold main in Em. rewrite Et in Em. cbn [obind] in Em. destruct (cart_row wd t) as [r1'|]; [|discriminate]. cbn [lift obind] in Em.
  destruct (tree_results wd t) as [r2'|] eqn:Er2; [|discriminate]. cbn [lift obind] in Em. injection Em as <- <-.
  unfold tree_results in Er2. destruct (tree_score wd t (wd_X wd) (wd_y wd)) as [a|]; [|discriminate]. cbn [bind] in Er2. destruct (tree_score wd t (wd_Xt wd) (wd_yt wd)) as [b|]; [|discriminate]. cbn [bind] in Er2.
  fold s in Er2. destruct (getitem (f_cols s) 0) as [l0|]; [|discriminate]. cbn [bind] in Er2. destruct (getitem l0 0) as [c0|]; [|discriminate]. cbn [bind] in Er2.
  destruct (getitem (f_cols s) 1) as [l1|]; [|discriminate]. cbn [bind] in Er2.
  destruct (f_tsp s) as [|q0 [|q1 qs]] eqn:Eq; cbn [getitem nth_error bind] in Er2; try discriminate; [destruct q0; discriminate|].
  destruct q0 as [|e0 q0]; cbn [getitem nth_error bind] in Er2; [discriminate|]. injection Er2 as <-.
  cbn [rs_cuts rs_master rs_add rs_ip rs_time rs_sp_heuristic rs_sp_ip]. repeat split. exists e0, q0, q1, qs. auto.
Qed.

(** The script: the reported number of cuts is the number of training samples that got a constraint; the master problem starts without any. *)
Theorem C79_reported_cuts : forall wd o fuel t r1 r2, script_input wd o -> train wd o fuel = Done t -> main wd o fuel = Done (r1, r2) ->
  let m := tw_master (f_world (td_state t)) in
  rs_cuts r2 = marked (tm_added m) /\ length (tm_added m) = length (wd_X wd) /\ rs_cuts r2 <= length (wd_X wd) /\
  exists w0 m0, dtree_init (td_args t) = Ok w0 /\ generate_mp (wd_X wd) (wd_y wd) (tw_master w0) = Ok m0 /\
    num_cons (tm_lp m) = num_cons (tm_lp m0) + rs_cuts r2.
Proof.
  intros wd o fuel t r1 r2 Si Et Em m. destruct (train_done wd o fuel t Si Et) as (n & k & ag & rest & pre & out & w0 & _ & _ & _ & _ & _ & EA & _ & Ew & Ef).
  destruct (main_report _ _ _ _ _ _ Et Em) as (Hc & _). fold m in Hc.
  assert (B : ta_beta (td_args t) = true /\ ta_gen (td_args t) = false) by (rewrite EA; destruct out as [[[[? ?] ?] ?] ?]; split; reflexivity). destruct B as [B1 B2].
  destruct (C79_cuts _ _ _ _ _ _ _ _ Ew Ef) as (m0 & H0 & H1 & H2 & H3 & H4 & H5 & _). fold m in H1, H2, H3, H4, H5.
  rewrite Hc. split; [apply H3; exact B1|]. split; [apply H4; exact B2|]. split; [apply H5; auto|]. exists w0, m0. auto.
Qed.
Print Assumptions C79_reported_cuts.

Lemma qsum_cells (l : list Q) : (qsum (fun q => q) l == qsum (fun i => nth i l 0%Q) (seq 0 (length l)))%Q.
Proof.
  induction l as [|a l IH]; [reflexivity|]. cbn [length seq]. rewrite <- seq_shift. unfold qsum in *. cbn [fold_right nth]. rewrite IH. apply Qplus_comp; [reflexivity|].
  clear. generalize (seq 0 (length l)). intros is. induction is as [|i is IH]; [reflexivity|]. cbn [fold_right map nth]. rewrite IH. reflexivity.
Qed.

(** The script: every reported time is the time its own calls took, and together they do not exceed the reported training time. *)
Theorem C79_reported_times : forall wd o fuel t r1 r2, script_input wd o -> train wd o fuel = Done t -> main wd o fuel = Done (r1, r2) ->
  (forall n, wd_fit_clock wd n <= wd_fit_clock wd (S n))%Q ->
  (0 <= rs_master r2 /\ 0 <= rs_sp_heuristic r2 /\ 0 <= rs_sp_ip r2 /\ 0 <= rs_add r2 /\ 0 <= rs_ip r2 /\
   rs_master r2 + rs_sp_heuristic r2 + rs_sp_ip r2 + rs_add r2 + rs_ip r2 <= rs_time r2)%Q /\
  exists tl : timeline,
    f_tick (td_state t) = length tl /\ map fst tl = map (wd_fit_clock wd) (seq 0 (length tl)) /\
    concat (map snd tl) = f_trace (td_state t) /\ Forall (fun qe => alone (snd qe)) tl /\
    (rs_master r2 == spent (holds is_solve) tl /\ rs_sp_heuristic r2 == spent (holds (works 0 0)) tl /\
     rs_sp_ip r2 == qsum (fun i => spent (holds (works 1 i)) tl) (seq 0 (length (sub_specs (td_args t)))) /\
     rs_ip r2 == spent (holds is_ip) tl /\ spent (holds is_offer) tl <= rs_add r2 <= spent (holds is_offer) tl + spent idle tl)%Q.
Proof.
  intros wd o fuel t r1 r2 Si Et Em Mono. destruct (train_done wd o fuel t Si Et) as (n & k & ag & rest & pre & out & w0 & _ & _ & _ & _ & _ & EA & _ & Ew & Ef).
  destruct (main_report _ _ _ _ _ _ Et Em) as (_ & Hm & Ha & Hi & Ht & e0 & q0 & q1 & qs & Eq & Hh & Hs).
  pose proof (no_reset _ _ _ _ _ _ _ _ Ef eq_refl) as Hr.
  set (E := tree_env (wd_solvers wd) (td_args t) (wd_fit_clock wd) (wd_X wd) (wd_y wd)) in *.
  destruct (C17_time_accounting _ _ _ E _ _ _ _ _ (f_trace (td_state t)) Mono Ef eq_refl) as (_ & N1 & N2 & N3 & N4 & Hrt & He & _). specialize (He Hr).
  pose proof (sub_times_shape E _ _ _ _ _ Ef) as Sh. rewrite Eq in Sh. unfold E in Sh. cbn in Sh. injection Sh as S0 S1 S2.
  assert (q0 = []) by (destruct q0; [reflexivity|discriminate]). subst q0. assert (qs = []) by (destruct qs; [reflexivity|discriminate]). subst qs. clear S0 S2.
  destruct (C78_attribution _ _ _ E _ _ _ _ _ (f_trace (td_state t)) Mono Ef eq_refl) as (tl & T1 & T2 & T3 & T4 & T5 & T6 & T7 & T8).
  rewrite Hm, Ha, Hi, Ht, Hh, Hs. split.
  - rewrite Eq in N4. inversion N4 as [|? ? P1 P2]; subst. inversion P1 as [|? ? P3 _]; subst. inversion P2 as [|? ? P4 _]; subst.
    assert (0 <= qsum (fun q => q) q1)%Q by (clear - P4; induction P4; cbn; [lra|]; unfold qsum in *; lra).
    rewrite He. unfold reported_time in Hrt. rewrite Eq in Hrt. unfold qsum in *. cbn [fold_right] in Hrt. repeat split; auto. change (clock E) with (wd_fit_clock wd) in *. lra.
  - exists tl. cbn [f_tick f_trace new_estimator] in T1, T2. repeat split; auto; try apply T8.
    + rewrite <- (T6 0 0). unfold cell. rewrite Eq. reflexivity.
    + rewrite (qsum_cells q1), <- S1. apply qsum_ext. intros i _. rewrite <- (T6 1 i). unfold cell. rewrite Eq. reflexivity.
Qed.
Print Assumptions C79_reported_times.

(** Without generated cuts, cuts come only in every tenth iteration, in at most cut_rounds rounds of at most ten. *)
Theorem C79_cut_limit : forall A X y sv clk w0 fuel s', dtree_init A = Ok w0 -> tree_fit sv A clk X y fuel (new_estimator w0) = (s', Done tt) -> ta_gen A = false ->
  tm_total_cuts (tw_master (f_world s')) <= 10 * ta_rounds A * (f_iter s' / 10).
Proof.
  intros A X y sv clk w0 fuel s' Ew Ef Hg. destruct (C79_cuts _ _ _ _ _ _ _ _ Ew Ef) as (m0 & E0 & _).
  assert (Z : tm_generated (tw_master w0) = false /\ tm_total_cuts (tw_master w0) = 0 /\ tm_iter (tw_master w0) = 0 /\ tm_gen_cuts (tw_master w0) = ta_gen A /\ tm_rounds (tw_master w0) = ta_rounds A).
  { unfold dtree_init in Ew. destruct (check_arguments _ _ _ _ _ _); [|discriminate]. cbn [bind] in Ew. destruct (construct _ _); [|discriminate]. cbn [bind] in Ew. injection Ew as <-. repeat split. }
  destruct Z as (Z1 & Z2 & Z3 & Z4 & Z5).
  assert (G : tm_total_cuts m0 = 0 /\ tm_iter m0 = 0 /\ tm_gen_cuts m0 = false /\ tm_rounds m0 = ta_rounds A).
  { unfold generate_mp in E0. rewrite Z1 in E0. destruct (create_cut_gen_model _ _ _); [|discriminate]. cbn [bind] in E0. destruct (make_path_vars _ _). destruct (make_leaf_cons _ _ _) as [[? ?]|]; [|discriminate].
    cbn [bind] in E0. destruct (match tm_rows (tw_master w0) with None => _ | _ => _ end) as [[? rows]|]; [|discriminate]. cbn [bind] in E0.
    destruct (make_row_cons _ _ _ _ _ _ _) as [[[m4 rc] ad]|]; [|discriminate]. cbn [bind] in E0. destruct (for_ns _ _ _ _) as [[[? ?] ?]|]; [|discriminate]. cbn [bind] in E0. injection E0 as <-.
    cbn [tm_total_cuts tm_iter tm_gen_cuts tm_rounds]. repeat split; congruence. }
  destruct G as (G1 & G2 & G3 & G4).
  destruct (fit_paced sv A clk X y fuel (new_estimator w0) s' m0 Ef eq_refl E0 G3 G2 G1) as (_ & _ & _ & P).
  destruct (C08_iteration_cap _ _ _ (tree_env sv A clk X y) fuel (map Z.of_nat y) (new_estimator w0) (f_trace s')) as [_ C2].
  { unfold tree_fit in Ef. rewrite Ef. reflexivity. }
  unfold tree_fit in Ef. rewrite Ef in C2. destruct (C2 eq_refl) as [C1 _]. cbn [fst] in C1. rewrite C1, <- G4. exact P.
Qed.
Print Assumptions C79_cut_limit.

(** The script: a run of fewer than ten iterations reports no cuts, so its master problem never had a row constraint. *)
Theorem C79_reported_cut_limit : forall wd o fuel t r1 r2, script_input wd o -> train wd o fuel = Done t -> main wd o fuel = Done (r1, r2) ->
  rs_cuts r2 <= 100 * (rs_iterations r2 / 10) /\
  (rs_iterations r2 < 10 -> rs_cuts r2 = 0 /\ marked (tm_added (tw_master (f_world (td_state t)))) = 0).
Proof.
  intros wd o fuel t r1 r2 Si Et Em. destruct (train_done wd o fuel t Si Et) as (n & k & ag & rest & pre & out & w0 & _ & _ & _ & _ & _ & EA & _ & Ew & Ef).
  destruct (main_report _ _ _ _ _ _ Et Em) as (Hc & _). destruct (C79_reported_cuts _ _ _ _ _ _ Si Et Em) as (Hm & _). cbv zeta in Hm.
  destruct (C71_reported _ _ _ _ _ _ Si Et Em) as (Hi & _).
  assert (B : ta_gen (td_args t) = false /\ ta_rounds (td_args t) = 10) by (rewrite EA; destruct out as [[[[? ?] ?] ?] ?]; split; reflexivity). destruct B as [B1 B2].
  pose proof (C79_cut_limit _ _ _ _ _ _ _ _ Ew Ef B1) as L. rewrite <- Hc, B2 in L.
  destruct (C08_iteration_cap _ _ _ (tree_env (wd_solvers wd) (td_args t) (wd_fit_clock wd) (wd_X wd) (wd_y wd)) fuel (map Z.of_nat (wd_y wd)) (new_estimator w0) (f_trace (td_state t))) as [_ C2].
  { unfold tree_fit in Ef. rewrite Ef. reflexivity. }
  unfold tree_fit in Ef. rewrite Ef in C2. destruct (C2 eq_refl) as [C1 _]. cbn [fst] in C1. rewrite C1, <- Hi in L. change (10 * 10) with 100 in L. split; [exact L|]. intros H.
  rewrite (Nat.div_small _ _ H) in L. split; lia.
Qed.
Print Assumptions C79_reported_cut_limit.

(** ** Cases *)
(** The relaxation gives every path the value 0 for nine iterations, then 1: two samples get a constraint in the tenth. *)
Definition busy_sv : fsolvers :=
  mkFsv (mkTsv (fun i => if i <? 9 then (fun _ => Some (fun _ => 0%Q, fun i => nth i [0; 0; 0; - (1 # 2); 0; 1 # 2] 0)%Q)
                         else if i =? 9 then (fun _ => Some (fun _ => 1%Q, fun _ => 0%Q)) else tv_lp (fs_tree main_sv) 1)
    (tv_cuts (fs_tree main_sv)) (tv_ip (fs_tree main_sv))) (fs_rand main_sv) (fs_order main_sv) (fs_streams main_sv) (fs_sat main_sv) (fs_mip main_sv).
Definition keep_all (A : targs) : targs :=
  mkTargs (ta_paths A) (ta_leaves A) (ta_nodes A) (ta_splits A) (ta_depth A) (ta_targets A) (ta_max_iterations A) (ta_time_limit A) (ta_rounds A) true false
    (option_map (map (fun r => mkRow (r_nodes r) (r_paths r) (r_leaves r) (r_left r) (r_right r) false (r_gone_sp r) (r_weight r))) (ta_rows A)) (ta_old A).
Definition busy_args : targs := match train fast plain 9 with Done t => keep_all (td_args t) | _ => mkTargs [] [] [] [] 0 [] 0 0 0 true false None false end.
Example C79_case : exists w0 s', dtree_init busy_args = Ok w0 /\ tree_fit busy_sv busy_args (wd_fit_clock fast) (wd_X fast) (wd_y fast) 19 (new_estimator w0) = (s', Done tt) /\
  ta_beta busy_args = true /\ ta_gen busy_args = false /\ f_iter s' = 11 /\ tm_total_cuts (tw_master (f_world s')) = 2 /\ tm_added (tw_master (f_world s')) = [true; true; false].
Proof.
  assert (V : match dtree_init busy_args with
              | Ok w => match tree_fit busy_sv busy_args (wd_fit_clock fast) (wd_X fast) (wd_y fast) 19 (new_estimator w) with
                        | (s, Done tt) => Some (f_iter s, tm_total_cuts (tw_master (f_world s)), tm_added (tw_master (f_world s))) | _ => None end
              | Err _ => None end
              = Some (11, 2, [true; true; false])) by (vm_compute; reflexivity).
  assert (V1 : ta_beta busy_args = true) by (vm_compute; reflexivity). assert (V2 : ta_gen busy_args = false) by (vm_compute; reflexivity).
  destruct (dtree_init busy_args) as [w|] eqn:Ew; [|discriminate V]. destruct (tree_fit _ _ _ _ _ _ _) as [s [[]| |]] eqn:Ef; [|discriminate V|discriminate V].
  injection V as V3 V4 V5. exists w, s. exact (conj eq_refl (conj Ef (conj V1 (conj V2 (conj V3 (conj V4 V5)))))).
Qed.
Example C79_case_script : exists t r1 r2, script_input fast plain /\ train fast plain 9 = Done t /\ main fast plain 9 = Done (r1, r2) /\
  (forall n, wd_fit_clock fast n <= wd_fit_clock fast (S n))%Q /\ rs_cuts r2 = 0 /\ rs_iterations r2 = 3 /\
  (rs_time r2 == 38 # 5)%Q /\ (rs_master r2 == 3 # 10)%Q /\ (rs_sp_heuristic r2 == 3 # 5)%Q /\ (rs_sp_ip r2 == 11 # 10)%Q /\ (rs_add r2 == 4 # 5)%Q /\ (rs_ip r2 == 1 # 10)%Q.
Proof.
  assert (V : match train fast plain 9, main fast plain 9 with Done t, Done (r1, r2) => Some (rs_cuts r2, rs_iterations r2, Qred (rs_time r2), Qred (rs_master r2), Qred (rs_sp_heuristic r2), Qred (rs_sp_ip r2), Qred (rs_add r2), Qred (rs_ip r2)) | _, _ => None end
              = Some (0%nat, 3%nat, 38 # 5, 3 # 10, 3 # 5, 11 # 10, 4 # 5, 1 # 10)%Q) by (vm_compute; reflexivity).
  destruct (train fast plain 9) as [t| |]; [|discriminate V|discriminate V]. destruct (main fast plain 9) as [[r1 r2]| |]; [|discriminate V|discriminate V].
  injection V as V1 V2 V3 V4 V5 V6 V7 V8. exists t, r1, r2. split; [apply main_input|]. split; [reflexivity|]. split; [reflexivity|]. split.
  { intros k; cbn [wd_fit_clock fast main_world]; rewrite Nat2Z.inj_succ; unfold Z.succ; rewrite inject_Z_plus; change (inject_Z 1) with 1%Q. unfold Qdiv. change (/ 10)%Q with (1 # 10)%Q. lra. }
  split; [exact V1|]. split; [exact V2|]. rewrite <- V3, <- V4, <- V5, <- V6, <- V7, <- V8, !Qred_correct. exact (conj (Qeq_refl _) (conj (Qeq_refl _) (conj (Qeq_refl _) (conj (Qeq_refl _) (conj (Qeq_refl _) (Qeq_refl _)))))).
Qed.

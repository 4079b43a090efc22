(** Property C64: when exact pricing finds no column, no tree is better than the master objective. *)
From Verif Require Import Base Lp LpProofs SpecDual DualProofs LpCheck LpBrute SolveModel TreeModel SpecTree SpecTreeRun SpecTreeLp SpecTreePrice SpecTreeMip TreePricingModel
  TreePathProofs TreeBuildProofs TreeInvProofs TreeMasterProofs TreeSolProofs TreePriceProofs TreeHeurProofs TreeFedProofs TreeCheck
  TreeCertProofs PropTreeMaster PropTreeLp PropTreePrice PropTreeMip.
Open Scope nat_scope.

Lemma mip_nothing u c l nt g cuts dl s ops sv x pi : valid_setup u -> valid_data u -> rows_agree u -> l < 2 ^ su_depth u -> is_sat c = false ->
  solved u ops cuts sv dl s x pi -> mip_found_nothing u c l nt g cuts dl s ->
  forall p v, path_to u l p -> exact_class u c nt p -> reported_price u cuts dl p v -> (v <= teps + g)%Q.
Proof.
  intros V D HR Hl Es S (targets & old & pr & pr' & solver & y & HC & F & -> & E & Ey & Hopt & Eg).
  destruct (C46_exact _ _ _ _ _ _ _ _ _ _ _ _ _ _ solver y g V D HR Hl HC Es F S E Ey Hopt) as (ps & Eg' & H). rewrite Eg in Eg'. injection Eg' as <-.
  destruct H as [[_ H]|(p & v & Ep & _)]; [exact H|discriminate].
Qed.

(** The default MIP variant. *)
Theorem C64_any_duals_mip : forall u nt ops cuts sv dl s x pi tau g w, valid_setup u -> valid_data u -> rows_agree u -> 0 < nt ->
  solved u ops cuts sv dl s x pi -> near_dual (tm_lp s) pi tau -> active_weight u CMip w ->
  (forall l, l < 2 ^ su_depth u -> mip_found_nothing u CMip l nt g cuts dl s) ->
  forall tree label v, tree_over (su_depth u) (su_nodes u) tree ->
    correct_weight u w (fun xr => label (tree_leaf (su_depth u) (su_splits u) tree xr)) v ->
    (v <= dual_value (tm_lp s) pi + inject_Z (Z.of_nat (2 ^ su_depth u)) * (teps + g) + inject_Z (Z.of_nat (2 ^ su_depth u - 1)) * tau)%Q.
Proof.
  intros u nt ops cuts sv dl s x pi tau g w V D HR Hnt S K W Hn.
  assert (Hy : Forall (fun t => t < nt) (su_y u)).
  { destruct (Hn 0) as (targets & _ & _ & _ & _ & _ & HC & _); [pose proof (Nat.pow_nonzero 2 (su_depth u)); lia|]. apply (proj2 HC eq_refl). }
  apply (certified u (fun _ => CMip) nt w V D Hnt Hy (fun t Ht => Ht) (fun _ _ => W) ops cuts sv dl s x pi S (teps + g)%Q); auto.
  intros t p v Ht Hp Hc Hv. pose proof (proj1 (proj1 Hp)) as Hl. eapply mip_nothing; eauto; reflexivity.
Qed.
Print Assumptions C64_any_duals_mip.
Theorem C64_certificate_mip : forall u nt ops cuts sv dl s x pi w, valid_setup u -> valid_data u -> rows_agree u -> 0 < nt ->
  solved u ops cuts sv dl s x pi -> lp_kkt (tm_lp s) x pi -> active_weight u CMip w ->
  (forall l, l < 2 ^ su_depth u -> mip_found_nothing u CMip l nt 0 cuts dl s) ->
  forall tree label v, tree_over (su_depth u) (su_nodes u) tree ->
    correct_weight u w (fun xr => label (tree_leaf (su_depth u) (su_splits u) tree xr)) v ->
    (v <= objective_value (tm_lp s) x + inject_Z (Z.of_nat (2 ^ su_depth u)) * teps)%Q.
Proof.
  intros u nt ops cuts sv dl s x pi w V D HR Hnt S K W Hn tree label v Ht Hv.
  pose proof (C64_any_duals_mip u nt ops cuts sv dl s x pi 0%Q 0%Q w V D HR Hnt S (kkt_near _ _ _ K) W Hn tree label v Ht Hv) as H. rewrite (kkt_dual_value _ _ _ K). lra.
Qed.
Print Assumptions C64_certificate_mip.

(** The old variant: one model per leaf and class; weights are not used. *)
Theorem C64_any_duals_old : forall u nt ops cuts sv dl s x pi tau g w, valid_setup u -> valid_data u -> rows_agree u -> 0 < nt ->
  Forall (fun t => t < nt) (su_y u) ->
  solved u ops cuts sv dl s x pi -> near_dual (tm_lp s) pi tau -> active_weight u (COld 0) w ->
  (forall l t, l < 2 ^ su_depth u -> t < nt -> mip_found_nothing u (COld t) l nt g cuts dl s) ->
  forall tree label v, tree_over (su_depth u) (su_nodes u) tree ->
    correct_weight u w (fun xr => label (tree_leaf (su_depth u) (su_splits u) tree xr)) v ->
    (v <= dual_value (tm_lp s) pi + inject_Z (Z.of_nat (2 ^ su_depth u)) * (teps + g) + inject_Z (Z.of_nat (2 ^ su_depth u - 1)) * tau)%Q.
Proof.
  intros u nt ops cuts sv dl s x pi tau g w V D HR Hnt Hy S K W Hn.
  apply (certified u COld nt w V D Hnt Hy (fun t _ => eq_refl) (fun _ _ => W) ops cuts sv dl s x pi S (teps + g)%Q); auto.
  intros t p v Ht Hp Hc Hv. pose proof (proj1 (proj1 Hp)) as Hl. eapply mip_nothing; eauto; reflexivity.
Qed.
Print Assumptions C64_any_duals_old.
Theorem C64_certificate_old : forall u nt ops cuts sv dl s x pi w, valid_setup u -> valid_data u -> rows_agree u -> 0 < nt ->
  Forall (fun t => t < nt) (su_y u) ->
  solved u ops cuts sv dl s x pi -> lp_kkt (tm_lp s) x pi -> active_weight u (COld 0) w ->
  (forall l t, l < 2 ^ su_depth u -> t < nt -> mip_found_nothing u (COld t) l nt 0 cuts dl s) ->
  forall tree label v, tree_over (su_depth u) (su_nodes u) tree ->
    correct_weight u w (fun xr => label (tree_leaf (su_depth u) (su_splits u) tree xr)) v ->
    (v <= objective_value (tm_lp s) x + inject_Z (Z.of_nat (2 ^ su_depth u)) * teps)%Q.
Proof.
  intros u nt ops cuts sv dl s x pi w V D HR Hnt Hy S K W Hn tree label v Ht Hv.
  pose proof (C64_any_duals_old u nt ops cuts sv dl s x pi 0%Q 0%Q w V D HR Hnt Hy S (kkt_near _ _ _ K) W Hn tree label v Ht Hv) as H. rewrite (kkt_dual_value _ _ _ K). lra.
Qed.
Print Assumptions C64_certificate_old.

(** The CP-SAT variant: the bound is weaker because it rounds the objective coefficients to multiples of 1e-5. *)
Theorem C64_any_duals_sat : forall u nt N ops cuts sv dl s x pi tau g w, valid_setup u -> valid_data u -> rows_agree u -> 0 < nt ->
  solved u ops cuts sv dl s x pi -> near_dual (tm_lp s) pi tau -> active_weight u CSat w ->
  (forall l, l < 2 ^ su_depth u -> sat_found_nothing u l nt N g cuts dl s) ->
  forall tree label v, tree_over (su_depth u) (su_nodes u) tree ->
    correct_weight u w (fun xr => label (tree_leaf (su_depth u) (su_splits u) tree xr)) v ->
    (v <= dual_value (tm_lp s) pi + inject_Z (Z.of_nat (2 ^ su_depth u)) * (teps + inject_Z (Z.of_nat N) * (1 # 100000) + g * (1 # 100000)) + inject_Z (Z.of_nat (2 ^ su_depth u - 1)) * tau)%Q.
Proof.
  intros u nt N ops cuts sv dl s x pi tau g w V D HR Hnt S K W Hn.
  assert (Hy : Forall (fun t => t < nt) (su_y u)).
  { destruct (Hn 0) as (targets & _ & _ & _ & _ & _ & _ & HC & _); [pose proof (Nat.pow_nonzero 2 (su_depth u)); lia|]. apply (proj2 HC eq_refl). }
  apply (certified u (fun _ => CSat) nt w V D Hnt Hy (fun t Ht => Ht) (fun _ _ => W) ops cuts sv dl s x pi S (teps + inject_Z (Z.of_nat N) * (1 # 100000) + g * (1 # 100000))%Q); auto.
  intros t p v Ht Hp Hc Hv. pose proof (proj1 (proj1 Hp)) as Hl. destruct (Hn _ Hl) as (targets & pr & rs & solver & sub & sub' & pr' & HC & F & Hs & Eg & Hle).
  pose proof (C46_sat_exact _ _ _ _ _ _ _ _ _ _ _ _ _ _ _ _ _ _ V D HR Hl HC F S Hs Eg p v Hp Hc Hv) as H.
  assert (inject_Z (Z.of_nat (num_vars (pr_lp pr'))) <= inject_Z (Z.of_nat N))%Q by (rewrite <- Zle_Qle; lia). lra.
Qed.
Print Assumptions C64_any_duals_sat.
Theorem C64_certificate_sat : forall u nt N ops cuts sv dl s x pi w, valid_setup u -> valid_data u -> rows_agree u -> 0 < nt ->
  solved u ops cuts sv dl s x pi -> lp_kkt (tm_lp s) x pi -> active_weight u CSat w ->
  (forall l, l < 2 ^ su_depth u -> sat_found_nothing u l nt N 0 cuts dl s) ->
  forall tree label v, tree_over (su_depth u) (su_nodes u) tree ->
    correct_weight u w (fun xr => label (tree_leaf (su_depth u) (su_splits u) tree xr)) v ->
    (v <= objective_value (tm_lp s) x + inject_Z (Z.of_nat (2 ^ su_depth u)) * (teps + inject_Z (Z.of_nat N) * (1 # 100000)))%Q.
Proof.
  intros u nt N ops cuts sv dl s x pi w V D HR Hnt S K W Hn tree label v Ht Hv.
  pose proof (C64_any_duals_sat u nt N ops cuts sv dl s x pi 0%Q 0%Q w V D HR Hnt S (kkt_near _ _ _ K) W Hn tree label v Ht Hv) as H. rewrite (kkt_dual_value _ _ _ K). lra.
Qed.
Print Assumptions C64_certificate_sat.

(** * Cases *)

(** Three rows 0, 1, 2 with classes 0, 1, 0 and the splits x <= 1/2 and x <= 3/2 (see C47_case).  The LP optimum is 2, exact
    pricing (by enumeration) finds nothing for any leaf: no tree of depth 1 classifies all three rows. *)
Definition ex1_sv : tsolvers := mkTsv (fun _ _ => Some (ex1_x, ex1_pi)) (fun _ => ex_sols) (fun _ _ => None).
Lemma ex1_data : valid_data ex1_setup.
Proof. apply data_okb_ok. vm_compute. reflexivity. Qed.
Lemma ex1_agree : rows_agree ex1_setup.
Proof. intros rows r dr E. discriminate. Qed.
Lemma ex1_classes c : classes_ok ex1_setup c 2 [0; 1]%Z.
Proof. split; [reflexivity|]. intros _. split; [apply Permutation_refl|repeat constructor]. Qed.

Definition price_ex1 (c : pclass) (l : nat) (s : tmaster) (dl : tduals) : option (res (list path) * bool) :=
  match update_subproblem c (create_leaf l 1) (tm_nodes s) (tm_splits s) [0; 1]%Z 1 None (su_X ex1_setup) (su_y ex1_setup) dl pricing_init with
  | Ok pr => Some (mip_generate c (create_leaf l 1) (tm_nodes s) [0; 1]%Z None brute 3 (su_y ex1_setup) pr,
                   match brute (pr_lp pr) with Some _ => true | None => false end)
  | Err _ => None end.
Lemma price_ex1_nothing c l s dl : d_new_cuts dl = [] -> price_ex1 c l s dl = Some (Ok [], true) -> mip_found_nothing ex1_setup c l 2 0 [] dl s.
Proof.
  intros Hn. unfold price_ex1. destruct (update_subproblem _ _ _ _ _ _ _ _ _ _ _) as [pr|] eqn:E; [|discriminate]. intros H. injection H as Hg Hb.
  destruct (brute (pr_lp pr)) as [y|] eqn:Ey; [|discriminate].
  exists [0; 1]%Z, [], pricing_init, pr, brute, y. split; [apply ex1_classes|]. split; [constructor|]. split; [rewrite Hn; reflexivity|].
  split; [exact E|]. split; [exact Ey|]. split; [apply optimal_near, brute_optimal; auto|exact Hg].
Qed.
Example C64_case : exists dl s, solved ex1_setup [] [] ex1_sv dl s ex1_x ex1_pi /\ lp_kkt (tm_lp s) ex1_x ex1_pi /\ (objective_value (tm_lp s) ex1_x == 2)%Q /\
  (forall l, l < 2 -> mip_found_nothing ex1_setup CMip l 2 0 [] dl s) /\
  (forall l t, l < 2 -> t < 2 -> mip_found_nothing ex1_setup (COld t) l 2 0 [] dl s).
Proof.
  assert (V : match run_setup ex1_setup [] with
              | Ok (cuts, s0) => match solve_rmp ex1_sv s0 with
                | Ok (dl, s) => Some (cuts, d_new_cuts dl, tm_answer s, kktb (tm_lp s) ex1_x ex1_pi, Qeq_bool (objective_value (tm_lp s) ex1_x) 2,
                    map (fun l => (price_ex1 CMip l s dl, map (fun t => price_ex1 (COld t) l s dl) [0; 1])) [0; 1])
                | Err _ => None end
              | Err _ => None end =
              Some ([], [], Some (ex1_x, ex1_pi), true, true,
                [(Some (Ok [], true), [Some (Ok [], true); Some (Ok [], true)]); (Some (Ok [], true), [Some (Ok [], true); Some (Ok [], true)])])) by (vm_compute; reflexivity).
  destruct (run_setup ex1_setup []) as [[cuts s0]|] eqn:E; [|discriminate V].
  destruct (solve_rmp ex1_sv s0) as [[dl s]|] eqn:Es; [|discriminate V].
  cbn [map] in V. injection V as -> Hn Ha Hk Ho V1 V2 V3 V4 V5 V6. exists dl, s.
  assert (A : after ex1_setup [] [] s0) by (apply run_setup_after; [constructor|exact E]).
  split; [exists s0, []; split; [exact A|]; split; [intros n; exact ex_sols_sound|]; split; [exact Es|]; split; [rewrite Hn; reflexivity|exact Ha]|].
  split; [apply kktb_ok; exact Hk|]. split; [apply Qeq_bool_iff; exact Ho|]. split.
  - intros [|[|l]] Hl; [| |lia]; apply price_ex1_nothing; auto.
  - intros [|[|l]] [|[|t]] Hl Ht; try lia; apply price_ex1_nothing; auto.
Qed.
Example C64_case_bound : forall tree label v, tree_over 1 ex1_nodes tree ->
  correct_weight ex1_setup (fun _ => 1%Q) (fun xr => label (tree_leaf 1 ex1_splits tree xr)) v -> (v < 3)%Q.
Proof.
  intros tree label v Ht Hv. destruct C64_case as (dl & s & S & K & Ho & Hm & _).
  assert (W : active_weight ex1_setup CMip (fun _ => 1%Q)) by (intros r; split; [intros _; reflexivity|intros H; exfalso; apply H; exact I]).
  assert (H2 : 0 < 2) by lia.
  pose proof (C64_certificate_mip ex1_setup 2 _ _ _ _ _ _ _ _ ex1_valid ex1_data ex1_agree H2 S K W Hm tree label v Ht Hv) as H. rewrite Ho in H.
  change (su_depth ex1_setup) with 1 in H. change (inject_Z (Z.of_nat (2 ^ 1))) with 2%Q in H. unfold teps in H. lra.
Qed.

(** The CP-SAT variant with a callback that sees the optimum, once with all duals 0 (a path is returned) and once with the
    optimal duals (nothing is returned). *)
Definition ex_solver (st : settings) (m : lp) : answer * list (nat -> Q) :=
  (mkAnswer OPTIMAL 1 0 0, match brute m with Some y => [y] | None => [] end).
Definition ex_rs : streams := mkStreams (fun _ => 0) (fun _ => 0) (fun _ => 0).
Definition ex1_sv0 : tsolvers := mkTsv (fun _ _ => Some (ex1_x, fun _ => 0%Q)) (fun _ => ex_sols) (fun _ _ => None).
Lemma ex_solver_feasible st m : Forall (ip_feasible m) (snd (ex_solver st m)).
Proof. unfold ex_solver. destruct (brute m) eqn:E; [|constructor]. constructor; [|constructor]. apply brute_optimal in E. apply E. Qed.
Definition sat_ex1 (l : nat) (s : tmaster) (dl : tduals) (pr : pricing) : option (list (nat * list nat * Q * Z) * nat * bool) :=
  match sat_generate CSat (create_leaf l 1) (tm_nodes s) (tm_splits s) [0; 1]%Z 1 None ex_rs ex_solver (su_X ex1_setup) (su_y ex1_setup) dl sub_init pr with
  | Ok (ps, (_, pr')) => Some (map (fun p => (p_leaf p, p_splits p, p_cost p, p_target p)) ps, num_vars (pr_lp pr'), match brute (pr_lp pr') with Some _ => true | None => false end)
  | Err _ => None end.
Lemma sat_ex1_nothing l s dl : d_new_cuts dl = [] -> fed ex1_setup CSat l [0; 1]%Z [] pricing_init ->
  sat_ex1 l s dl pricing_init = Some ([], 10, true) -> sat_found_nothing ex1_setup l 2 10 0 [] dl s.
Proof.
  intros Hn F. unfold sat_ex1. destruct (sat_generate _ _ _ _ _ _ _ _ _ _ _ _ _ _) as [[ps [sub pr]]|] eqn:E; [|discriminate]. intros H. injection H as Hg Hv Hb.
  apply map_eq_nil in Hg. subst ps. exists [0; 1]%Z, pricing_init, ex_rs, ex_solver, sub_init, sub, pr. split; [apply ex1_classes|]. split; [exact F|]. split.
  - intros st. split; [apply ex_solver_feasible|]. unfold ex_solver. destruct (brute (pr_lp pr)) as [y|] eqn:Ey; [|discriminate]. exists y. split; [left; auto|apply optimal_near, brute_optimal; auto].
  - split; [exact E|lia].
Qed.
Example C64_case_sat : exists dl s, solved ex1_setup [] [] ex1_sv dl s ex1_x ex1_pi /\ lp_kkt (tm_lp s) ex1_x ex1_pi /\
  forall l, l < 2 -> sat_found_nothing ex1_setup l 2 10 0 [] dl s.
Proof.
  assert (V : match run_setup ex1_setup [] with
              | Ok (cuts, s0) => match solve_rmp ex1_sv s0 with
                | Ok (dl, s) => Some (cuts, d_new_cuts dl, tm_answer s, kktb (tm_lp s) ex1_x ex1_pi, map (fun l => sat_ex1 l s dl pricing_init) [0; 1])
                | Err _ => None end
              | Err _ => None end =
              Some ([], [], Some (ex1_x, ex1_pi), true, [Some ([], 10, true); Some ([], 10, true)])) by (vm_compute; reflexivity).
  destruct (run_setup ex1_setup []) as [[cuts s0]|] eqn:E; [|discriminate V].
  destruct (solve_rmp ex1_sv s0) as [[dl s]|] eqn:Es; [|discriminate V].
  cbn [map] in V. injection V as -> Hn Ha Hk V1 V2. exists dl, s.
  assert (A : after ex1_setup [] [] s0) by (apply run_setup_after; [constructor|exact E]).
  split; [exists s0, []; split; [exact A|]; split; [intros n; exact ex_sols_sound|]; split; [exact Es|]; split; [rewrite Hn; reflexivity|exact Ha]|].
  split; [apply kktb_ok; exact Hk|].
  intros [|[|l]] Hl; [| |lia]; apply sat_ex1_nothing; auto; constructor.
Qed.

(** C46: a model that was updated with the optimal duals and is updated again with all duals 0: leaf 1 has a path of reduced
    cost 1. *)
Example C46_case : exists pr dl s pr' y ps, fed ex1_setup CMip 1 [0; 1]%Z [] pr /\ pr_generated pr = true /\
  solved ex1_setup [Solve ex1_sv] ([] ++ d_new_cuts dl) ex1_sv0 dl s ex1_x (fun _ => 0%Q) /\
  update_subproblem CMip (create_leaf 1 1) (tm_nodes s) (tm_splits s) [0; 1]%Z 1 None (su_X ex1_setup) (su_y ex1_setup) dl pr = Ok pr' /\
  brute (pr_lp pr') = Some y /\ ip_optimal (pr_lp pr') y /\
  mip_generate CMip (create_leaf 1 1) (tm_nodes s) [0; 1]%Z None brute 3 (su_y ex1_setup) pr' = Ok ps /\
  map (fun p => (p_leaf p, p_splits p, p_cost p, p_target p)) ps = [(1, [0], 1%Q, 1%Z)].
Proof.
  assert (V : match run_setup ex1_setup [] with
      | Ok (cuts, s0) => match solve_rmp ex1_sv s0 with
        | Ok (dl1, s1) =>
          match update_subproblem CMip (create_leaf 1 1) (tm_nodes s1) (tm_splits s1) [0; 1]%Z 1 None (su_X ex1_setup) (su_y ex1_setup) dl1 pricing_init with
          | Ok pr1 => match run_setup ex1_setup [Solve ex1_sv] with
            | Ok (cuts1, s1') => match solve_rmp ex1_sv0 s1' with
              | Ok (dl2, s2) => match update_subproblem CMip (create_leaf 1 1) (tm_nodes s2) (tm_splits s2) [0; 1]%Z 1 None (su_X ex1_setup) (su_y ex1_setup) dl2 pr1 with
                | Ok pr2 => match brute (pr_lp pr2), mip_generate CMip (create_leaf 1 1) (tm_nodes s2) [0; 1]%Z None brute 3 (su_y ex1_setup) pr2 with
                  | Some _, Ok ps => Some (cuts, d_new_cuts dl1, tm_answer s1, cuts1, d_new_cuts dl2, tm_answer s2, pr_generated pr1, map (fun p => (p_leaf p, p_splits p, p_cost p, p_target p)) ps)
                  | _, _ => None end
                | Err _ => None end
              | Err _ => None end
            | Err _ => None end
          | Err _ => None end
        | Err _ => None end
      | Err _ => None end = Some ([], [], Some (ex1_x, ex1_pi), [], [], Some (ex1_x, fun _ => 0%Q), true, [(1, [0], 1%Q, 1%Z)])) by (vm_compute; reflexivity).
  destruct (run_setup ex1_setup []) as [[cuts s0]|] eqn:E0; [|discriminate V].
  destruct (solve_rmp ex1_sv s0) as [[dl1 s1]|] eqn:E1; [|discriminate V].
  destruct (update_subproblem CMip (create_leaf 1 1) (tm_nodes s1) (tm_splits s1) _ _ _ _ _ _ _) as [pr1|] eqn:U1; [|discriminate V].
  destruct (run_setup ex1_setup [Solve ex1_sv]) as [[cuts1 s1']|] eqn:E1'; [|discriminate V].
  destruct (solve_rmp ex1_sv0 s1') as [[dl2 s2]|] eqn:E2; [|discriminate V].
  destruct (update_subproblem CMip (create_leaf 1 1) (tm_nodes s2) (tm_splits s2) _ _ _ _ _ _ _) as [pr2|] eqn:U2; [|discriminate V].
  destruct (brute (pr_lp pr2)) as [y|] eqn:Ey; [|discriminate V].
  destruct (mip_generate _ _ _ _ _ _ _ _ _) as [ps|] eqn:Eg; [|discriminate V].
  injection V as -> Hn1 Ha1 -> Hn2 Ha2 Hc Hp.
  assert (A : after ex1_setup [] [] s0) by (apply run_setup_after; [constructor|exact E0]).
  assert (A1 : after ex1_setup [Solve ex1_sv] [] s1') by (apply run_setup_after; [constructor; [intros n; exact ex_sols_sound|constructor]|exact E1']).
  exists pr1, dl2, s2, pr2, y, ps. split; [|split; [exact Hc|split; [|split; [exact U2|split; [exact Ey|split; [apply brute_optimal; exact Ey|split; [exact Eg|exact Hp]]]]]]].
  - replace ([] : list (list bool)) with ([] ++ d_new_cuts dl1) by (rewrite Hn1; reflexivity).
    eapply (fed_update ex1_setup CMip 1 [0; 1]%Z [] pricing_init [] ex1_sv dl1 s1 ex1_x ex1_pi); [constructor| |exact U1].
    exists s0, []. split; [exact A|]. split; [intros n; exact ex_sols_sound|]. split; [exact E1|]. split; [reflexivity|exact Ha1].
  - exists s1', []. split; [exact A1|]. split; [intros n; exact ex_sols_sound|]. split; [exact E2|]. split; [reflexivity|exact Ha2].
Qed.

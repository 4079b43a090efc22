(** Properties C46 and C64: the pricing models of the tree classifier. *)
From Verif Require Import Base Lp LpProofs SpecDual LpCheck SolveModel TreeModel SpecTree SpecTreeRun SpecTreeLp SpecTreePrice SpecTreeMip TreePricingModel TreeGeoProofs
  TreePathProofs TreeLpBuild TreeBuildProofs TreeInvProofs TreeMasterProofs TreeSolProofs TreePriceProofs TreeHeurProofs TreeSymProofs
  TreeSubmipProofs TreeDecodeProofs TreeMipProofs TreeColsProofs TreeFedProofs TreeCheck PropTreeMaster PropTreeLp PropTreePrice.
Open Scope nat_scope.

Lemma not_sat c : is_sat c = false -> c <> CSat.
Proof. intros H ->. discriminate. Qed.
Lemma price_eq u cuts dl p v v' : (v == v')%Q -> reported_price u cuts dl p v -> reported_price u cuts dl p v'.
Proof. intros E (rs & cs & H1 & H2 & H3 & H4 & H5). exists rs, cs. split; auto. split; auto. split; auto. split; auto. rewrite <- E. auto. Qed.

(** * C46: the pricing models *)

(** An update never fails: every subproblem that was told about all earlier cuts accepts the next duals. *)
Theorem C46_update_total : forall u c l nt targets old pr ops sv dl s x pi, valid_setup u -> valid_data u -> l < 2 ^ su_depth u ->
  classes_ok u c nt targets -> fed u c l targets old pr -> solved u ops (old ++ d_new_cuts dl) sv dl s x pi ->
  exists pr', update_subproblem c (create_leaf l (su_depth u)) (tm_nodes s) (tm_splits s) targets (su_depth u) (su_rows u) (su_X u) (su_y u) dl pr = Ok pr'.
Proof.
  intros u c l nt targets old pr ops sv dl s x pi V D Hl HC F S.
  destruct (update_solved u c l nt targets V D Hl HC old ops sv dl s x pi pr S (fed_alive _ _ _ _ _ V D Hl HC _ _ F)) as (pr' & E & _). eauto.
Qed.
Print Assumptions C46_update_total.

Lemma built_update u c l nt targets old pr ops sv dl s x pi pr' : valid_setup u -> valid_data u -> l < 2 ^ su_depth u ->
  classes_ok u c nt targets -> is_sat c = false -> fed u c l targets old pr -> solved u ops (old ++ d_new_cuts dl) sv dl s x pi ->
  update_subproblem c (create_leaf l (su_depth u)) (tm_nodes s) (tm_splits s) targets (su_depth u) (su_rows u) (su_X u) (su_y u) dl pr = Ok pr' ->
  exists names, built u c l nt (old ++ d_new_cuts dl) (length (old ++ d_new_cuts dl)) (cf u c l dl) (- nth l (d_leaf dl) 0)%Q names pr'.
Proof.
  intros V D Hl HC Es F S E. destruct (update_solved u c l nt targets V D Hl HC old ops sv dl s x pi pr S (fed_alive _ _ _ _ _ V D Hl HC _ _ F)) as (pr2 & E2 & _ & H).
  rewrite E in E2. injection E2 as <-. auto.
Qed.

(** Every integral point of the updated model is a path to the leaf: one candidate split per node, the row and cut variables
    mark what follows the path, and the objective is the path's reduced cost with a cost of at most the value of its class. *)
Theorem C46_decode : forall u c l nt targets old pr ops sv dl s x pi pr' x', valid_setup u -> valid_data u -> rows_agree u -> l < 2 ^ su_depth u ->
  classes_ok u c nt targets -> is_sat c = false -> fed u c l targets old pr -> solved u ops (old ++ d_new_cuts dl) sv dl s x pi ->
  update_subproblem c (create_leaf l (su_depth u)) (tm_nodes s) (tm_splits s) targets (su_depth u) (su_rows u) (su_X u) (su_y u) dl pr = Ok pr' ->
  ip_feasible (pr_lp pr') x' ->
  exists p, path_to u l p /\ fair_class u c nt p /\ marks u (old ++ d_new_cuts dl) pr' x' p /\
    reported_price u (old ++ d_new_cuts dl) dl p (objective_value (pr_lp pr') x').
Proof.
  intros u c l nt targets old pr ops sv dl s x pi pr' x' V D HR Hl HC Es F S E Hx.
  destruct (built_update _ _ _ _ _ _ _ _ _ _ _ _ _ _ V D Hl HC Es F S E) as (names & B). set (cuts := old ++ d_new_cuts dl) in *.
  pose proof (solved_zero u V HR _ _ _ _ _ _ _ S) as H0.
  destruct (vals_shape u c l nt V Hl dl cuts names pr' B x' Hx) as (pick & Hp & Sh).
  pose proof (hc_nt u c nt targets HC) as Hnt. pose proof (hc_tg u c nt targets HC) as Htg.
  set (mk := fun t q => mkPath l (ids u l) (map pick (ids u l)) q 0 t false).
  assert (Hd : exists p, decoded u c l nt cuts (vals names x') pick p).
  { destruct (Bool.bool_dec (is_old c) true) as [Ho|Ho]; [|apply Bool.not_true_is_false in Ho].
    - destruct c as [| |t0] eqn:Ec; try discriminate. exists (mk (Z.of_nat t0) (cost_of u (COld t0) (vals names x'))).
      constructor; auto; try reflexivity. split; [reflexivity|]. split; [apply Permutation_refl|reflexivity].
    - destruct (decode_target u c l nt D Hl Hnt dl cuts targets Htg names pr' B x' pick Ho Hx Sh) as (z & _ & Hz).
      exists (mk z (cost_of u c (vals names x'))). constructor; auto; try reflexivity.
      + split; [reflexivity|]. split; [apply Permutation_refl|reflexivity].
      + clear - Hz Ho. destruct c; try discriminate; exact Hz. }
  destruct Hd as (p & Hd). exists p. split; [eapply decoded_path_to; eauto|]. split; [eapply decoded_fair; eauto|].
  split; [eapply shape_marks; eauto; apply (de_path _ _ _ _ _ _ _ _ Hd)|].
  eapply price_eq; [|eapply decoded_price; eauto]. rewrite (vals_objective u c l nt V Hl dl cuts H0 names pr' B x' pick Es Hp Sh). lra.
Qed.
Print Assumptions C46_decode.

(** Conversely every path to the leaf, with one of the classes and the value of that class as cost, is an integral point
    whose objective is the path's reduced cost. *)
Theorem C46_complete : forall u c l nt targets old pr ops sv dl s x pi pr' p v, valid_setup u -> valid_data u -> rows_agree u -> l < 2 ^ su_depth u ->
  classes_ok u c nt targets -> is_sat c = false -> fed u c l targets old pr -> solved u ops (old ++ d_new_cuts dl) sv dl s x pi ->
  update_subproblem c (create_leaf l (su_depth u)) (tm_nodes s) (tm_splits s) targets (su_depth u) (su_rows u) (su_X u) (su_y u) dl pr = Ok pr' ->
  path_to u l p -> exact_class u c nt p -> reported_price u (old ++ d_new_cuts dl) dl p v ->
  exists x', ip_feasible (pr_lp pr') x' /\ marks u (old ++ d_new_cuts dl) pr' x' p /\ (objective_value (pr_lp pr') x' == v)%Q.
Proof.
  intros u c l nt targets old pr ops sv dl s x pi pr' p v V D HR Hl HC Es F S E Hp Hc Hv.
  destruct (built_update _ _ _ _ _ _ _ _ _ _ _ _ _ _ V D Hl HC Es F S E) as (names & B). set (cuts := old ++ d_new_cuts dl) in *.
  pose proof (solved_zero u V HR _ _ _ _ _ _ _ S) as H0.
  destruct (path_point u c l nt targets V D Hl HC dl cuts names pr' B p Hp Hc) as (x' & pick & Hx & P & Hpk & Sh & Ec). exists x'.
  split; auto. split; [eapply shape_marks; eauto|]. rewrite (objective_names u c l nt dl cuts names pr' B x' Es).
  eapply path_price_value; eauto.
Qed.
Print Assumptions C46_complete.

(** What generate_columns of the two MIP variants returns when the solver returns an integral point: nothing if the objective
    is at most the tolerance, else one path whose reduced cost is the objective. *)
Theorem C46_returned : forall u c l nt targets old pr ops sv dl s x pi pr' solver x', valid_setup u -> valid_data u -> rows_agree u -> l < 2 ^ su_depth u ->
  classes_ok u c nt targets -> is_sat c = false -> fed u c l targets old pr -> solved u ops (old ++ d_new_cuts dl) sv dl s x pi ->
  update_subproblem c (create_leaf l (su_depth u)) (tm_nodes s) (tm_splits s) targets (su_depth u) (su_rows u) (su_X u) (su_y u) dl pr = Ok pr' ->
  solver (pr_lp pr') = Some x' -> ip_feasible (pr_lp pr') x' ->
  exists ps, mip_generate c (create_leaf l (su_depth u)) (tm_nodes s) targets (su_rows u) solver (length (su_X u)) (su_y u) pr' = Ok ps /\
    (((objective_value (pr_lp pr') x' <= teps)%Q /\ ps = []) \/
     ((teps < objective_value (pr_lp pr') x')%Q /\ exists p, ps = [p] /\ path_to u l p /\ fair_class u c nt p /\
        marks u (old ++ d_new_cuts dl) pr' x' p /\ reported_price u (old ++ d_new_cuts dl) dl p (objective_value (pr_lp pr') x'))).
Proof.
  intros u c l nt targets old pr ops sv dl s x pi pr' solver x' V D HR Hl HC Es F S E Ex Hx.
  destruct (built_update _ _ _ _ _ _ _ _ _ _ _ _ _ _ V D Hl HC Es F S E) as (names & B). set (cuts := old ++ d_new_cuts dl) in *.
  pose proof (solved_zero u V HR _ _ _ _ _ _ _ S) as H0. destruct (solved_nodes u V _ _ _ _ _ _ _ S) as [Hn _].
  destruct (mip_ok u c l nt V D Hl (hc_nt u c nt targets HC) dl cuts H0 (tm_nodes s) targets Hn (hc_tg u c nt targets HC) names pr' B solver x' Es Ex Hx) as (ps & Eg & H).
  exists ps. split; auto. destruct H as [H|(Ho & p & pick & Ep & Hd & Hr)]; [left; auto|]. right. split; auto. exists p. split; auto.
  split; [eapply decoded_path_to; eauto|]. split; [eapply decoded_fair; eauto|]. split; auto.
  eapply shape_marks; eauto; [apply (de_shape _ _ _ _ _ _ _ _ Hd)|apply (de_path _ _ _ _ _ _ _ _ Hd)].
Qed.
Print Assumptions C46_returned.

(** Pricing is as exact as the solver: if its answer is within [g] of the optimum, nothing returned means no path to the leaf
    has a reduced cost above the tolerance plus [g]; a returned path has the largest reduced cost up to [g], and its cost is the
    value of its best class up to [g].  For an optimal answer [g] is 0. *)
Theorem C46_exact : forall u c l nt targets old pr ops sv dl s x pi pr' solver x' g, valid_setup u -> valid_data u -> rows_agree u -> l < 2 ^ su_depth u ->
  classes_ok u c nt targets -> is_sat c = false -> fed u c l targets old pr -> solved u ops (old ++ d_new_cuts dl) sv dl s x pi ->
  update_subproblem c (create_leaf l (su_depth u)) (tm_nodes s) (tm_splits s) targets (su_depth u) (su_rows u) (su_X u) (su_y u) dl pr = Ok pr' ->
  solver (pr_lp pr') = Some x' -> near_optimal (pr_lp pr') x' g ->
  exists ps, mip_generate c (create_leaf l (su_depth u)) (tm_nodes s) targets (su_rows u) solver (length (su_X u)) (su_y u) pr' = Ok ps /\
    ((ps = [] /\ forall p v, path_to u l p -> exact_class u c nt p -> reported_price u (old ++ d_new_cuts dl) dl p v -> (v <= teps + g)%Q) \/
     (exists p v, ps = [p] /\ path_to u l p /\ reported_price u (old ++ d_new_cuts dl) dl p v /\ (teps < v)%Q /\
        (forall t w, own_class c nt t -> class_value u c p t w -> (inject_Z (Z.of_nat w) <= p_cost p + g)%Q) /\
        (forall p' v', path_to u l p' -> exact_class u c nt p' -> reported_price u (old ++ d_new_cuts dl) dl p' v' -> (v' <= v + g)%Q))).
Proof.
  intros u c l nt targets old pr ops sv dl s x pi pr' solver x' g V D HR Hl HC Es F S E Ex [Hx Hopt].
  destruct (built_update _ _ _ _ _ _ _ _ _ _ _ _ _ _ V D Hl HC Es F S E) as (names & B).
  assert (Hall : forall p v, path_to u l p -> exact_class u c nt p -> reported_price u (old ++ d_new_cuts dl) dl p v -> (v <= objective_value (pr_lp pr') x' + g)%Q).
  { intros p v Hp Hc Hv. destruct (C46_complete _ _ _ _ _ _ _ _ _ _ _ _ _ _ p v V D HR Hl HC Es F S E Hp Hc Hv) as (y & Hy & _ & Ey).
    specialize (Hopt y Hy). rewrite (bu_max _ _ _ _ _ _ _ _ _ _ B) in Hopt. rewrite <- Ey. exact Hopt. }
  destruct (C46_returned _ _ _ _ _ _ _ _ _ _ _ _ _ _ solver x' V D HR Hl HC Es F S E Ex Hx) as (ps & Eg & H). exists ps. split; auto.
  destruct H as [[Hle ->]|(Hlt & p & -> & Hp & Hf & _ & Hr)]; [left; split; auto; intros p v Hp Hc Hv; specialize (Hall p v Hp Hc Hv); lra|].
  right. exists p, (objective_value (pr_lp pr') x'). split; auto. split; auto. split; auto. split; auto. split; auto.
  intros t w Ho Hw. set (p' := mkPath (p_leaf p) (p_nodes p) (p_splits p) (inject_Z (Z.of_nat w)) (p_id p) (Z.of_nat t) (p_initial p)).
  assert (Hr' : reported_price u (old ++ d_new_cuts dl) dl p' (objective_value (pr_lp pr') x' - p_cost p + inject_Z (Z.of_nat w))%Q).
  { destruct Hr as (rs & cs & R1 & R2 & R3 & R4 & R5). exists rs, cs. split; auto. split; auto. split; auto. split; auto. rewrite R5. change (choices p') with (choices p). change (p_leaf p') with (p_leaf p). change (p_cost p') with (inject_Z (Z.of_nat w)). lra. }
  assert (Hc : exact_class u c nt p').
  { exists t, w. split; auto. split; [reflexivity|]. split; [|cbn [p_cost p']; reflexivity]. exact Hw. }
  specialize (Hall p' _ Hp Hc Hr'). lra.
Qed.
Print Assumptions C46_exact.

(** * The CP-SAT variant *)

(** generate_columns fails only if choosing or scoring the solver settings fails; otherwise every returned path is a path to
    the leaf whose reduced cost is above the tolerance and whose cost is at most the weight of its class. *)
Theorem C46_callback : forall u l nt targets cuts pr ops sv dl s x pi rs solver sub, valid_setup u -> valid_data u -> rows_agree u -> l < 2 ^ su_depth u ->
  classes_ok u CSat nt targets -> fed u CSat l targets cuts pr -> solved u ops cuts sv dl s x pi ->
  (forall st m, Forall (ip_feasible m) (snd (solver st m))) ->
  match sat_generate CSat (create_leaf l (su_depth u)) (tm_nodes s) (tm_splits s) targets (su_depth u) (su_rows u) rs solver (su_X u) (su_y u) dl sub pr with
  | Err e => exists m, snd (solve_model rs (fun st => fst (solver st m)) 2 sub) = Err e
  | Ok (ps, (sub', pr')) =>
      fed u CSat l targets cuts pr' /\
      Forall (fun p => path_to u l p /\ fair_class u CSat nt p /\ exists v, reported_price u cuts dl p v /\ (teps < v)%Q) ps
  end.
Proof.
  intros u l nt targets cuts pr ops sv dl s x pi rs solver sub V D HR Hl HC F S Hsol.
  destruct (sat_generate _ _ _ _ _ _ _ _ _ _ _ _ _ _) as [[ps [sub' pr']]|e] eqn:Eg; [split; [eapply fed_price; eauto|]|];
    (destruct (refresh_solved u CSat l nt targets V D Hl HC _ _ _ _ _ _ _ pr S (fed_alive _ _ _ _ _ V D Hl HC _ _ F)) as (pr1 & names & E1 & B);
     unfold sat_generate in Eg; rewrite E1 in Eg; cbn [bind] in Eg; rewrite (create_leaf_id l _ Hl) in Eg;
     pose proof (gd_leaf _ _ _ _ (solved_duals u V _ _ _ _ _ _ _ S l Hl)) as Hlen; rewrite (nth_getitem _ _ Hlen) in Eg; cbn [bind] in Eg;
     pose proof (solved_zero u V HR _ _ _ _ _ _ _ S) as H0; destruct (solved_nodes u V _ _ _ _ _ _ _ S) as [Hn _];
     destruct (solve_model rs (fun st => fst (solver st (pr_lp pr1))) 2 sub) as [sub1 [st|e']] eqn:Em; cbn [bind] in Eg).
  - destruct (callback_ok u CSat l nt V D Hl (hc_nt u CSat nt targets HC) dl cuts H0 (tm_nodes s) targets Hn (hc_tg u CSat nt targets HC) names pr1 B eq_refl _ (Hsol st (pr_lp pr1)))
      as (ps1 & E & HF & _). rewrite E in Eg. cbn [bind] in Eg. injection Eg as <- _ _. rewrite Forall_forall in *. intros p Hp.
    destruct (HF p Hp) as (y & pick & v & Hy & Hd & _ & Hr & Hlt). split; [eapply decoded_path_to; eauto|]. split; [|eauto].
    eapply decoded_fair; eauto. pose proof (Hsol st (pr_lp pr1)) as Hs. rewrite Forall_forall in Hs. auto.
  - discriminate.
  - destruct (callback_ok u CSat l nt V D Hl (hc_nt u CSat nt targets HC) dl cuts H0 (tm_nodes s) targets Hn (hc_tg u CSat nt targets HC) names pr1 B eq_refl _ (Hsol st (pr_lp pr1)))
      as (ps1 & E & HF & _). rewrite E in Eg. discriminate.
  - injection Eg as <-. exists (pr_lp pr1). rewrite Em. reflexivity.
Qed.
Print Assumptions C46_callback.

(** If the solutions reported to the callback include one within [g] of the optimum of the model and no path is returned, no
    path to the leaf has a reduced cost above 1e-6 + (number of variables) * 1e-5 + [g] * 1e-5: the objective coefficients are
    scaled by 100000 and rounded to whole numbers. *)
Theorem C46_sat_exact : forall u l nt targets cuts pr ops sv dl s x pi rs solver sub sub' pr' g, valid_setup u -> valid_data u -> rows_agree u -> l < 2 ^ su_depth u ->
  classes_ok u CSat nt targets -> fed u CSat l targets cuts pr -> solved u ops cuts sv dl s x pi ->
  (forall st, Forall (ip_feasible (pr_lp pr')) (snd (solver st (pr_lp pr'))) /\ exists y, In y (snd (solver st (pr_lp pr'))) /\ near_optimal (pr_lp pr') y g) ->
  sat_generate CSat (create_leaf l (su_depth u)) (tm_nodes s) (tm_splits s) targets (su_depth u) (su_rows u) rs solver (su_X u) (su_y u) dl sub pr
    = Ok ([], (sub', pr')) ->
  forall p v, path_to u l p -> exact_class u CSat nt p -> reported_price u cuts dl p v ->
    (v <= teps + inject_Z (Z.of_nat (num_vars (pr_lp pr'))) * (1 # 100000) + g * (1 # 100000))%Q.
Proof.
  intros u l nt targets cuts pr ops sv dl s x pi rs solver sub sub' pr' g V D HR Hl HC F S Hsol Eg p v Hp Hc Hv.
  destruct (refresh_solved u CSat l nt targets V D Hl HC _ _ _ _ _ _ _ pr S (fed_alive _ _ _ _ _ V D Hl HC _ _ F)) as (pr1 & names & E1 & B).
  unfold sat_generate in Eg. rewrite E1 in Eg. cbn [bind] in Eg. rewrite (create_leaf_id l _ Hl) in Eg.
  pose proof (gd_leaf _ _ _ _ (solved_duals u V _ _ _ _ _ _ _ S l Hl)) as Hlen. rewrite (nth_getitem _ _ Hlen) in Eg. cbn [bind] in Eg.
  pose proof (solved_zero u V HR _ _ _ _ _ _ _ S) as H0. destruct (solved_nodes u V _ _ _ _ _ _ _ S) as [Hn _].
  destruct (solve_model rs (fun st => fst (solver st (pr_lp pr1))) 2 sub) as [sub1 [st|e']] eqn:Em; cbn [bind] in Eg; [|discriminate].
  assert (Epr : pr1 = pr') by (destruct (for_each _ _ _); [cbn [bind] in Eg; congruence|discriminate]).
  rewrite <- Epr in Hsol. destruct (Hsol st) as [Hs (y & Hy & Hopt)].
  destruct (callback_ok u CSat l nt V D Hl (hc_nt u CSat nt targets HC) dl cuts H0 (tm_nodes s) targets Hn (hc_tg u CSat nt targets HC) names pr1 B eq_refl _ Hs)
    as (ps1 & E & _ & Hnil). rewrite E in Eg. cbn [bind] in Eg. injection Eg as -> _ <-. specialize (Hnil eq_refl y Hy).
  destruct (path_point u CSat l nt targets V D Hl HC dl cuts names pr1 B p Hp Hc) as (x' & pick & Hx & P & Hpk & Sh & Ec).
  pose proof (path_price_value u CSat l nt V Hl dl cuts names pr1 H0 B x' pick p v P Hpk Sh Ec Hv) as Ev.
  pose proof (sat_optimal u CSat l nt dl cuts names pr1 B eq_refl g y x' Hopt Hx). lra.
Qed.
Print Assumptions C46_sat_exact.

(** C90 for the boolean rule classifiers. *)
From Verif Require Import Base Lp LpProofs FitModel SpecFit FitProofs FitMainProofs FitHoareProofs FitInvProofs.
From Verif Require Import SpecDual DualProofs BdrModel SpecBdr BdrProofs BdrLpProofs BdrPricingProofs BdrSubmipProofs BdrRuleProofs BdrFitModel BdrRunProofs BdrCertProofs.
From Verif Require Import LpCheck BdrWitness PropBdr PropBdrRun.
From Verif Require Import SpecMore MoreProofs MoreRuleProofs.
Open Scope nat_scope.

(** The clauses generated under the smaller limits are the first clauses of the longer training. *)
Theorem C90_clauses : forall n X y sv P clk m m' q q' fuel fuel' t t', dataset n X y -> iterations_allowed m m' -> time_allowed q q' ->
  bdr_fit sv (params_limits P m q) clk X y fuel (new_estimator (bdr_init P)) = (t, Done tt) ->
  bdr_fit sv (params_limits P m' q') clk X y fuel' (new_estimator (bdr_init P)) = (t', Done tt) ->
  exists more, generated t' = generated t ++ more.
Proof.
  intros n X y sv P clk m m' q q' fuel fuel' t t' HD Hm Hq H H'. unfold bdr_fit in H, H'. set (E := bdr_env sv P clk X y).
  change (bdr_env sv (params_limits P m q) clk X y) with (with_limits E m q) in H. change (bdr_env sv (params_limits P m' q') clk X y) with (with_limits E m' q') in H'.
  destruct (fit_split _ _ _ _ _ H) as (s1 & t0 & L & F & Hs & Ho). destruct (fit_split _ _ _ _ _ H') as (s1' & t0' & L' & F' & Hs' & _).
  set (s0 := new_estimator (bdr_init P)) in *.
  assert (s1' = s1).
  { assert (E0 : fit (with_limits E m' q') 0 (map Z.of_nat y) s0 = fit (with_limits E m q) 0 (map Z.of_nat y) s0) by reflexivity. rewrite E0, Hs in Hs'. congruence. }
  subst s1'. assert (K1 : keyed (f_world s1)).
  { apply fit_start in Hs. cbn [with_limits E bdr_env c_generate_mp] in Hs. unfold bdr_generate_mp in Hs. cbn [s0 new_estimator f_world bdr_init bw_master] in Hs.
    destruct (generate_mp_ok n X y HD (bp_C P) (bp_p P)) as (s2 & E2 & I & _). rewrite E2 in Hs. injection Hs as <-. unfold keyed. cbn [bw_master].
    rewrite (mi_dict _ _ _ _ _ _ I). destruct (mi_lp _ _ _ _ _ _ I) as (Ev & _). unfold num_vars. rewrite Ev. cbn [length seq combine]. constructor; [|constructor].
    cbn [fst problem1 lp_vars]. rewrite repeat_length. cbn [length]. lia. }
  pose proof (bdr_finish_dict sv (params_limits P m q) clk X y t0) as G1. change (bdr_env sv (params_limits P m q) clk X y) with (with_limits E m q) in G1. rewrite F in G1. cbn [fst] in G1.
  pose proof (bdr_finish_dict sv (params_limits P m' q') clk X y t0') as G2. change (bdr_env sv (params_limits P m' q') clk X y) with (with_limits E m' q') in G2. rewrite F' in G2. cbn [fst] in G2.
  unfold generated. rewrite G1, G2.
  pose proof (grow_loop more_clauses more_refl more_trans (with_limits E m q) (bdr_moves sv P clk X y) fuel s1) as (_ & _ & _ & Q1). rewrite L in Q1. destruct (Q1 K1) as (K2 & _).
  destruct (loop_more more_clauses more_refl more_trans E m m' q q' (bdr_moves sv P clk X y) Hm Hq fuel s1 t0 fuel' t0' Ho L L') as [->|(_ & _ & _ & _ & _ & G)]; [exists []; symmetry; apply app_nil_r|].
  destruct (G K2) as (_ & more & Em). rewrite Em, map_app. eexists. reflexivity.
Qed.
Print Assumptions C90_clauses.

(** The rule learned with the larger limits loses no more than the rule learned with the smaller ones costs, up to the gap [g] of the integer solver. *)
Theorem C90_rules : forall n X y sv P clk m m' q q' fuel fuel' t t' tau g, dataset n X y -> (0 <= bp_p P)%Q -> (tau <= 1 # 1000000)%Q -> iterations_allowed m m' -> time_allowed q q' ->
  near_rmp n X y (bp_C P) (bp_p P) tau (sv_lp sv) -> complete_pricing n X y (bp_C P) (sv_pricing sv) -> near_ip n X y (bp_C P) (bp_p P) g (sv_ip sv) ->
  bdr_fit sv (params_limits P m q) clk X y fuel (new_estimator (bdr_init P)) = (t, Done tt) ->
  bdr_fit sv (params_limits P m' q') clk X y fuel' (new_estimator (bdr_init P)) = (t', Done tt) ->
  exists rule rule', learned t = Some rule /\ learned t' = Some rule' /\ (rule_loss X y (bp_p P) rule' <= rule_cost X y (bp_p P) rule + g)%Q.
Proof.
  intros n X y sv P clk m m' q q' fuel fuel' t t' tau g HD Hp Ht Hm Hq HL HP HI H H'.
  destruct (C90_clauses n X y sv P clk m m' q q' fuel fuel' t t' HD Hm Hq H H') as (more & Em).
  destruct (C62_learned_rule_usable n X y sv (params_limits P m q) clk fuel t tau HD Ht HL HP (near_complete_ip _ _ _ _ _ _ _ HI) H) as (rule & Er & N & _ & Hi & Hc & _).
  destruct (C28_learned_rule n X y sv (params_limits P m' q') clk fuel' t' tau g HD Hp Ht HL HP HI H') as (rule' & Er' & _ & Hb).
  exists rule, rule'. split; [exact Er|]. split; [exact Er'|]. apply Hb; auto. intros k Hk. rewrite Em. apply in_or_app. left. auto.
Qed.
Print Assumptions C90_rules.
(** Stopped by the clock before the first pricing the rule accepts nothing and loses the positive sample; without limits it loses nothing. *)
Example C90_case_rules : forall h, h = None \/ h = Some 1 ->
  let fit_with q := bdr_fit tiny_solvers (params_limits (tiny_params h) (-1) q) (fun k => inject_Z (Z.of_nat k)) tiny_X tiny_y 2 (new_estimator (bdr_init (tiny_params h))) in
  exists t t', dataset 1 tiny_X tiny_y /\ iterations_allowed (-1) (-1) /\ time_allowed 1 (-1) /\
  near_rmp 1 tiny_X tiny_y 2 1 0 (sv_lp tiny_solvers) /\ complete_pricing 1 tiny_X tiny_y 2 (sv_pricing tiny_solvers) /\ near_ip 1 tiny_X tiny_y 2 1 0 (sv_ip tiny_solvers) /\
  fit_with 1%Q = (t, Done tt) /\ fit_with (-1)%Q = (t', Done tt) /\ learned t = Some [] /\ learned t' = Some [[0]] /\
  (rule_loss tiny_X tiny_y 1 [] == 1)%Q /\ (rule_loss tiny_X tiny_y 1 [[0%nat]] == 0)%Q.
Proof.
  intros h Hh fit_with.
  assert (V : snd (fit_with 1%Q) = Done tt /\ snd (fit_with (-1)%Q) = Done tt /\ learned (fst (fit_with 1%Q)) = Some [] /\ learned (fst (fit_with (-1)%Q)) = Some [[0]])
    by (unfold fit_with; destruct Hh as [->| ->]; vm_compute; repeat (split; [reflexivity|]); reflexivity).
  destruct V as (V1 & V2 & V3 & V4). exists (fst (fit_with 1%Q)), (fst (fit_with (-1)%Q)). split; [apply tiny_data|]. split; [left; lia|]. split; [left; lra|].
  split; [apply exact_near_rmp, (tiny_exact_rmp tiny_y None); auto|]. split; [apply exact_complete_pricing, (tiny_exact_pricing tiny_y None); auto|].
  split; [apply exact_near_ip, (tiny_exact_ip tiny_y None); auto|].
  split; [rewrite <- V1; apply surjective_pairing|]. split; [rewrite <- V2; apply surjective_pairing|]. split; [exact V3|]. split; [exact V4|]. split; vm_compute; reflexivity.
Qed.

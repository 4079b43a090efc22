(** Claims C28, C31, C32, C60-C62: complete runs of the boolean rule classifiers. *)
From Verif Require Import Base Lp LpProofs FitModel SpecFit FitProofs FitMainProofs FitHoareProofs FitInvProofs.
From Verif Require Import SpecDual DualProofs BdrModel SpecBdr BdrProofs BdrLpProofs BdrPricingProofs BdrSubmipProofs BdrRuleProofs BdrFitModel BdrRunProofs BdrCertProofs.
From Verif Require Import LpCheck BdrWitness PropBdr.
From Coq Require Import Sorted.
Open Scope nat_scope.

(** The rule an estimator has learned, the objective value of its last LP, and the clauses it generated. *)
Definition learned (s : fstate bworld (Q * list Q) clause) : option (list clause) := bm_explanation (bw_master (f_world s)).
Definition last_bound (s : fstate bworld (Q * list Q) clause) : Q :=
  objective_value (bm_lp (bw_master (f_world s))) (bw_last (f_world s)).
Definition generated (s : fstate bworld (Q * list Q) clause) : list clause := map snd (bm_dict (bw_master (f_world s))).

(** * C28 *)
Theorem C28_optimality_certificate : forall n X y sv P clk fuel s, dataset n X y ->
  exact_rmp n X y (bp_C P) (bp_p P) (sv_lp sv) -> exact_pricing n X y (bp_C P) (sv_pricing sv) ->
  complete_ip n X y (bp_C P) (bp_p P) (sv_ip sv) ->
  bdr_fit sv P clk X y fuel (new_estimator (bdr_init P)) = (s, Done tt) -> f_optimal s = true ->
  lp_optimal (bm_lp (bw_master (f_world s))) (bw_last (f_world s))
  /\ forall xi K', p1_feasible X y (bp_C P) xi K' ->
       (forall k w, In (k, w) K' -> clause_over n k /\ (Z.of_nat (length k) <= bp_C P)%Z) ->
       (last_bound s - (1 # 1000000) * inject_Z (bp_C P) <= p1_objective X y (bp_p P) xi K')%Q.
Proof.
  intros n X y sv P clk fuel s HD HL HX HI HF HO.
  pose proof (exact_complete_pricing _ _ _ _ _ HX) as HP. assert (H0 : (0 <= eps)%Q) by (unfold eps; lra).
  destruct (bdr_fit_done n X y HD sv P clk 0%Q H0 (exact_near_rmp _ _ _ _ _ _ HL) HP HI fuel s HF) as (_ & _ & HJ). destruct (HJ HO) as (b & d & J).
  destruct J as (K & t & pi & (I & PK & HS) & _ & Et & E1 & E2 & Hd).
  pose proof (HL t _ K PK (mi_lp _ _ _ _ _ _ I)) as KK. rewrite Et in KK. cbn [fst snd] in KK. split; [apply (kkt_optimal _ _ pi); auto|].
  apply (same_kkt _ _ _ _ (mi_lp _ _ _ _ _ _ I)) in KK. destruct (kkt_signs _ _ _ _ _ _ _ KK) as (S1 & _ & _).
  intros xi K' F HK. unfold last_bound. rewrite (same_objective _ _ _ (mi_lp _ _ _ _ _ _ I)). change (1 # 1000000) with eps.
  apply (certificate X y (bp_C P) (bp_p P) K _ pi eps xi K' KK); auto.
  intros k w Hk. destruct (HK _ _ Hk) as [Ho Hlen]. assert (EL : (fst d == - pi O)%Q) by (rewrite E1; apply Qabs_neg; auto).
  rewrite <- E2, <- (clause_cost_lam _ _ _ _ _ _ EL).
  assert (EE : (- eps == - (eps + 0))%Q) by lra. rewrite EE. apply (priced_out_all n X y P 0%Q); auto; [rewrite EL; lra|].
  apply Hd; [apply exact_near_pricing; auto|apply (all_levels X y sv P clk)].
Qed.
Print Assumptions C28_optimality_certificate.
Lemma clause_in_rule k rule : In k rule -> length k < nsum complexity rule.
Proof.
  induction rule as [|a rule IH]; [intros []|]. change (nsum complexity (a :: rule)) with (complexity a + nsum complexity rule).
  intros [->|Hk]; [unfold complexity; lia|]. specialize (IH Hk). lia.
Qed.
(** In particular for integer decision rules. *)
Theorem C28_decision_rules : forall n X y sv P clk fuel s rule, dataset n X y ->
  exact_rmp n X y (bp_C P) (bp_p P) (sv_lp sv) -> exact_pricing n X y (bp_C P) (sv_pricing sv) ->
  complete_ip n X y (bp_C P) (bp_p P) (sv_ip sv) ->
  bdr_fit sv P clk X y fuel (new_estimator (bdr_init P)) = (s, Done tt) -> f_optimal s = true ->
  Forall (clause_over n) rule -> (Z.of_nat (nsum complexity rule) <= bp_C P)%Z ->
  (last_bound s - (1 # 1000000) * inject_Z (bp_C P) <= rule_cost X y (bp_p P) rule)%Q.
Proof.
  intros n X y sv P clk fuel s rule HD HL HX HI HF HO HR HC.
  destruct (rule_p1_feasible X y (bp_C P) (bp_p P) rule HC) as [F EO]. rewrite <- EO.
  apply (C28_optimality_certificate n X y sv P clk fuel s HD HL HX HI HF HO); auto.
  intros k w H. apply in_map_iff in H. destruct H as (k' & H & Hk). injection H as <- <-. rewrite Forall_forall in HR. split; auto.
  pose proof (clause_in_rule _ _ Hk). lia.
Qed.
Print Assumptions C28_decision_rules.
(** Without exact solvers: LP duals whose signs and reduced costs are right up to [tau] and pricing solutions that are optimal
    up to [g] still bound every solution of problem (1) by the dual objective of the last duals. *)
Theorem C28_any_duals : forall n X y sv P clk fuel s tau g, dataset n X y -> (0 <= bp_p P)%Q ->
  (0 <= tau <= 1 # 1000000)%Q -> (0 <= g)%Q ->
  near_rmp n X y (bp_C P) (bp_p P) tau (sv_lp sv) -> near_pricing n X y (bp_C P) g (sv_pricing sv) ->
  complete_ip n X y (bp_C P) (bp_p P) (sv_ip sv) ->
  bdr_fit sv P clk X y fuel (new_estimator (bdr_init P)) = (s, Done tt) -> f_optimal s = true ->
  let m := bm_lp (bw_master (f_world s)) in
  exists t, fst (sv_lp sv t m) = bw_last (f_world s)
  /\ forall xi K', p1_feasible X y (bp_C P) xi K' ->
       (forall k w, In (k, w) K' -> clause_over n k /\ (Z.of_nat (length k) <= bp_C P)%Z) ->
       (dual_value m (snd (sv_lp sv t m)) - ((1 # 1000000) + g + tau) * inject_Z (bp_C P) - tau * qn (length (positives X y))
        <= p1_objective X y (bp_p P) xi K')%Q.
Proof.
  intros n X y sv P clk fuel s tau g HD Hp [Ht0 Ht] Hg HL HX HI HF HO m. pose proof (near_complete_pricing _ _ _ _ _ _ HX) as HP.
  destruct (bdr_fit_done n X y HD sv P clk tau Ht HL HP HI fuel s HF) as (_ & _ & HJ). destruct (HJ HO) as (b & d & J).
  eapply bdr_certificate; eauto.
Qed.
Print Assumptions C28_any_duals.
Theorem C28_any_duals_rules : forall n X y sv P clk fuel s tau g, dataset n X y -> (0 <= bp_p P)%Q ->
  (0 <= tau <= 1 # 1000000)%Q -> (0 <= g)%Q ->
  near_rmp n X y (bp_C P) (bp_p P) tau (sv_lp sv) -> near_pricing n X y (bp_C P) g (sv_pricing sv) ->
  complete_ip n X y (bp_C P) (bp_p P) (sv_ip sv) ->
  bdr_fit sv P clk X y fuel (new_estimator (bdr_init P)) = (s, Done tt) -> f_optimal s = true ->
  let m := bm_lp (bw_master (f_world s)) in
  exists t, fst (sv_lp sv t m) = bw_last (f_world s)
  /\ forall rule, Forall (clause_over n) rule -> (Z.of_nat (nsum complexity rule) <= bp_C P)%Z ->
       (dual_value m (snd (sv_lp sv t m)) - ((1 # 1000000) + g + tau) * inject_Z (bp_C P) - tau * qn (length (positives X y))
        <= rule_cost X y (bp_p P) rule)%Q.
Proof.
  intros n X y sv P clk fuel s tau g HD Hp Ht Hg HL HX HI HF HO m.
  destruct (C28_any_duals n X y sv P clk fuel s tau g HD Hp Ht Hg HL HX HI HF HO) as (t & Et & H). exists t. split; auto. fold m in H.
  intros rule HR HC. destruct (rule_p1_feasible X y (bp_C P) (bp_p P) rule HC) as [F EO]. rewrite <- EO. apply H; auto.
  intros k w Hk. apply in_map_iff in Hk. destruct Hk as (k' & Ek & Hk). injection Ek as <- <-. rewrite Forall_forall in HR. split; auto.
  pose proof (clause_in_rule _ _ Hk). lia.
Qed.
Print Assumptions C28_any_duals_rules.
(** With an integer solver that is exact up to [g] the learned rule is, up to [g], at least as good as every rule made of
    generated clauses. *)
Theorem C28_learned_rule : forall n X y sv P clk fuel s tau g, dataset n X y -> (0 <= bp_p P)%Q -> (tau <= 1 # 1000000)%Q ->
  near_rmp n X y (bp_C P) (bp_p P) tau (sv_lp sv) -> complete_pricing n X y (bp_C P) (sv_pricing sv) ->
  near_ip n X y (bp_C P) (bp_p P) g (sv_ip sv) ->
  bdr_fit sv P clk X y fuel (new_estimator (bdr_init P)) = (s, Done tt) ->
  exists rule, learned s = Some rule /\ incl rule (generated s)
  /\ (forall rule', NoDup rule' -> incl rule' (generated s) -> (Z.of_nat (nsum complexity rule') <= bp_C P)%Z ->
        (rule_loss X y (bp_p P) rule <= rule_cost X y (bp_p P) rule' + g)%Q).
Proof.
  intros n X y sv P clk fuel s tau g HD Hp Ht HL HP HIX HF. pose proof (near_complete_ip _ _ _ _ _ _ _ HIX) as HI.
  destruct (bdr_fit_done n X y HD sv P clk tau Ht HL HP HI fuel s HF) as ((K & x & (I & PK & _) & Fx & Ox & EX) & _ & _).
  exists (chosen X y K x). split; [exact EX|].
  assert (EG : generated s = K).
  { unfold generated. rewrite (mi_dict _ _ _ _ _ _ I). apply map_snd_combine. rewrite seq_length. auto. }
  rewrite EG. split; [intros k Hk; eapply chosen_In; eauto|].
  intros rule' ND IN HC. destruct PK as (_ & NK & _).
  destruct (rule_point_ok X y (bp_C P) (bp_p P) K rule' NK ND IN HC) as [F EO].
  specialize (Ox g HIX). destruct Ox as [_ Op]. specialize (Op _ F). cbn [problem1 lp_max] in Op. rewrite EO in Op.
  eapply Qle_trans; [|exact Op]. apply chosen_loss; auto.
Qed.
Print Assumptions C28_learned_rule.
(** Exact solvers are the case [tau = 0], [g = 0]. *)
Theorem C28_exact_solvers : forall n X y C p lp ip,
  (exact_rmp n X y C p lp -> near_rmp n X y C p 0 lp)
  /\ (exact_pricing n X y C ip <-> near_pricing n X y C 0 ip) /\ (exact_ip n X y C p ip <-> near_ip n X y C p 0 ip).
Proof.
  intros n X y C p lp ip. split; [apply exact_near_rmp|]. split; (split; [first [apply exact_near_pricing|apply exact_near_ip]|]).
  - intros H t m lam mu A1 A2 A3 A4. destruct (H t m lam mu A1 A2 A3 A4) as (x & E & O). exists x. split; auto. apply near_optimal_exact; auto.
  - intros H t m K A1 A2. destruct (H t m K A1 A2) as (x & E & O). exists x. split; auto. apply near_optimal_exact; auto.
Qed.
Print Assumptions C28_exact_solvers.

Example C28_case : forall h, let s := fst (bdr_fit tiny_solvers (tiny_params h) (fun _ => 0%Q) tiny_X tiny_y 2 (new_estimator (bdr_init (tiny_params h)))) in
  (dataset 1 tiny_X tiny_y /\ exact_rmp 1 tiny_X tiny_y 2 1 (sv_lp tiny_solvers) /\ exact_pricing 1 tiny_X tiny_y 2 (sv_pricing tiny_solvers)
   /\ exact_ip 1 tiny_X tiny_y 2 1 (sv_ip tiny_solvers))
  /\ (h = None \/ h = Some 1 -> bdr_fit tiny_solvers (tiny_params h) (fun _ => 0%Q) tiny_X tiny_y 2 (new_estimator (bdr_init (tiny_params h))) = (s, Done tt)
      /\ f_optimal s = true /\ learned s = Some [[0]] /\ f_iter s = 2 /\ (last_bound s == 0)%Q).
Proof.
  intros h s. split.
  - split; [apply tiny_data|]. split; [apply (tiny_exact_rmp tiny_y h); auto|]. split; [apply (tiny_exact_pricing tiny_y h); auto|apply (tiny_exact_ip tiny_y h); auto].
  - intros [->| ->]; unfold s; vm_compute; auto.
Qed.

(** An LP solver whose duals are wrong by 1e-7: the last dual objective is 1e-7, the best rule costs 0. *)
Example C28_any_duals_case : let tau := (1 # 10000000)%Q in let sv := shaken_solvers (- tau) in let P := tiny_params None in
  let s := fst (bdr_fit sv P (fun _ => 0%Q) tiny_X tiny_y 2 (new_estimator (bdr_init P))) in let m := bm_lp (bw_master (f_world s)) in
  near_rmp 1 tiny_X tiny_y (bp_C P) (bp_p P) tau (sv_lp sv) /\ near_pricing 1 tiny_X tiny_y (bp_C P) 0 (sv_pricing sv)
  /\ complete_ip 1 tiny_X tiny_y (bp_C P) (bp_p P) (sv_ip sv)
  /\ bdr_fit sv P (fun _ => 0%Q) tiny_X tiny_y 2 (new_estimator (bdr_init P)) = (s, Done tt) /\ f_optimal s = true
  /\ (forall t, dual_value m (snd (sv_lp sv t m)) == tau)%Q /\ (rule_cost tiny_X tiny_y (bp_p P) [[0%nat]] == 0)%Q.
Proof.
  intros tau sv P s m. split; [apply lifted_near_rmp|]. split; [apply exact_near_pricing, (tiny_exact_pricing tiny_y None); auto|].
  split; [apply exact_complete_ip, (tiny_exact_ip tiny_y None); auto|]. split; [unfold s; vm_compute; reflexivity|].
  split; [unfold s; vm_compute; reflexivity|]. split; [intros t; unfold m, s; vm_compute; reflexivity|vm_compute; reflexivity].
Qed.

(** * C31 *)
(** Duals that price every clause of the master at -1e-6 or more (a fortiori exact LP duals) never yield a clause the master
    has: the heuristic and, for any feasible solver answer, the exact pricing. *)
Theorem C31_pricing_returns_new_clauses : forall n X y D lam mu K, dataset n X y ->
  (0 <= lam)%Q -> Forall (fun m => 0 <= m)%Q mu -> length mu = length (positives X y) ->
  (forall k, In k K -> (- (1 # 1000000) <= clause_cost X y lam mu k)%Q) ->
  (forall size, exists cols, heuristic_generate_columns size X y (lam, mu) = Ok cols /\ NoDup cols
     /\ Forall (fun k => clause_over n k /\ ~ In k K) cols)
  /\ (forall s solver, priced_before X y D s ->
      (forall m, same_lp m (problem2 n X y D lam mu) -> exists x, solver m = Some x /\ ip_feasible m x) ->
      exists cols s', sub_generate_columns solver X y (lam, mu) s = Ok (cols, s') /\ NoDup cols
        /\ Forall (fun k => clause_over n k /\ ~ In k K) cols).
Proof.
  intros n X y D lam mu K HD Hl Hm Hn HK. split.
  - intros size. destruct (C24_heuristic_enumeration n X y size lam mu HD Hl Hm Hn) as (cols & E & _ & ND & H). exists cols.
    split; auto. split; auto. apply Forall_forall. intros k Hk. apply H in Hk. destruct Hk as (_ & Ho & _ & Hc). split; auto.
    intros Hin. specialize (HK _ Hin). lra.
  - intros s solver HP HS. destruct (C26_feasible_pricing n X y D lam mu s solver HD HP Hl Hm Hn HS) as (cols & s' & E & Hlen & H).
    exists cols, s'. split; auto. split.
    + destruct cols as [|a [|b cols]]; cbn in Hlen; [constructor|constructor; [intros []|constructor]|lia].
    + apply Forall_forall. intros k Hk. apply H in Hk. destruct Hk as (_ & Ho & _ & Hc). split; auto. intros Hin. specialize (HK _ Hin). lra.
Qed.
Print Assumptions C31_pricing_returns_new_clauses.
(** ... and offering such clauses to a master in turn never fails: each is accepted. *)
Theorem C31_no_duplicate_assertion : forall n X y C p h cols, dataset n X y -> Forall (clause_over n) h ->
  NoDup cols -> Forall (fun k => clause_over n k /\ ~ In k (master_clauses h)) cols ->
  forall s0 pre k post, generate_mp X y (master_init C p) = Ok s0 -> cols = pre ++ k :: post ->
  snd (add_column k (fold_left (fun s k => fst (add_column k s)) (h ++ pre) s0)) = Ok true.
Proof.
  intros n X y C p h cols HD Hh ND HC s0 pre k post E ->. destruct (generate_mp_ok n X y HD C p) as (s1 & E1 & I & _).
  rewrite E in E1. injection E1 as <-.
  assert (Hpre : Forall (clause_over n) pre). { apply Forall_app in HC. destruct HC as [HC _]. eapply Forall_impl; [|exact HC]. cbn. tauto. }
  pose proof (fold_master_inv n X y HD C p (h ++ pre) ltac:(apply Forall_app; auto) [[]] s0 ltac:(left; auto) I) as I'.
  rewrite fold_left_app in I'. fold (master_clauses h) in I'.
  assert (Hk : clause_over n k /\ ~ In k (master_clauses h)). { rewrite Forall_forall in HC. apply HC. apply in_or_app. right. left. auto. }
  assert (Hempty : In [] (master_clauses h)).
  { unfold master_clauses. assert (G : forall h K, In [] K -> In [] (fold_left kept h K)).
    { clear. induction h as [|a h IH]; intros K H; cbn; auto. apply IH. unfold kept. destruct (in_dec clause_dec a K); auto.
      destruct a; auto. apply in_or_app. auto. }
    apply G. left. auto. }
  assert (Hin : forall K, In k (fold_left kept pre K) -> In k K \/ In k pre).
  { clear. induction pre as [|a pre IH]; intros K H; cbn in *; auto. apply IH in H. destruct H as [H|H]; auto.
    unfold kept in H. destruct (in_dec clause_dec a K); auto. destruct a; auto. apply in_app_or in H. destruct H as [H|[H|[]]]; auto. }
  destruct (add_column_ok n X y HD C p _ k _ I') as (s' & Es & _).
  - apply Hk.
  - intros ->. tauto.
  - intros H. apply Hin in H. destruct H as [H|H]; [tauto|]. apply NoDup_remove_2 in ND. apply ND. apply in_or_app. auto.
  - rewrite Es. reflexivity.
Qed.
Print Assumptions C31_no_duplicate_assertion.
Example C31_case : (forall k, In k [[]; [1]] -> (- (1 # 1000000) <= clause_cost ex_X ex_y (1 # 4) [1; 0] k)%Q)
  /\ heuristic_generate_columns 2 ex_X ex_y (1 # 4, [1; 0])%Q = Ok [[0]].
Proof. split; [|vm_compute; reflexivity]. intros k [<-|[<-|[]]]; vm_compute; discriminate. Qed.

(** * C32 *)
Lemma add_column_data c s : bm_generated (fst (add_column c s)) = bm_generated s /\ bm_X (fst (add_column c s)) = bm_X s /\ bm_y (fst (add_column c s)) = bm_y s.
Proof.
  unfold add_column. destruct (bm_generated s) eqn:G; cbn [negb]; auto. destruct (_ =? _); auto. destruct (existsb _ _); auto.
  destruct (new_var _ _ _ _). destruct (get_objective_coeff_mp _ _ _); auto. destruct (get_clause_coeffs _ _ _); auto.
  destruct (negb _); auto. destruct (set_clause_coeffs _ _ _ _ _ _); auto.
Qed.
Lemma solve_ip_data a s : bm_generated (fst (solve_ip a s)) = bm_generated s /\ bm_X (fst (solve_ip a s)) = bm_X s /\ bm_y (fst (solve_ip a s)) = bm_y s.
Proof.
  unfold solve_ip. destruct (negb _); auto. destruct a; auto. destruct (negb _); auto. destruct (for_each _ _ _); auto.
Qed.
(** Whatever data a second fit is called with, and however it ends, the master problem still holds the data of the first. *)
Theorem C32_refit_keeps_the_data : forall sv P clk X y fuel s, bm_generated (bw_master (f_world s)) = true ->
  let s' := fst (bdr_fit sv P clk X y fuel s) in
  bm_X (bw_master (f_world s')) = bm_X (bw_master (f_world s)) /\ bm_y (bw_master (f_world s')) = bm_y (bw_master (f_world s)).
Proof.
  intros sv P clk X y fuel s HG s'.
  set (I := fun w => bm_generated (bw_master w) = true /\ bm_X (bw_master w) = bm_X (bw_master (f_world s)) /\ bm_y (bw_master w) = bm_y (bw_master (f_world s))).
  assert (H : I (f_world s')); [|apply H].
  apply (keeps_fit (bdr_env sv P clk X y) I); [..|unfold I; auto]; unfold I; cbn.
  - intros w w' E H. unfold bdr_generate_mp, generate_mp in E. destruct H as (H & ? & ?). rewrite H in E. inversion E; subst. cbn. auto.
  - intros w d w' E H. unfold bdr_solve_rmp in E. destruct (sv_lp _ _ _). destruct (solve_rmp _ _); [|discriminate]. inversion E; subst. cbn. auto.
  - intros w d w' E H. inversion E; subst. auto.
  - auto.
  - intros l i d w w' E H. inversion E; subst. auto.
  - intros l i d w cols w' E H. unfold bdr_generate in E.
    assert (G : bdr_exact sv X y d w = Ok (cols, w') -> bw_master w' = bw_master w).
    { unfold bdr_exact. destruct (sub_generate_columns _ _ _ _ _) as [[c s0]|]; [|discriminate]. intros F. inversion F; subst. reflexivity. }
    destruct (bp_heuristic P); [destruct (l =? 0)|].
    + destruct (heuristic_generate_columns _ _ _ _); [|discriminate]. inversion E; subst. auto.
    + rewrite (G E). auto.
    + rewrite (G E). auto.
  - intros c w b w' E H. unfold bdr_add in E. pose proof (add_column_data c (bw_master w)) as G.
    destruct (add_column c (bw_master w)) as [m [r|]]; [|discriminate]. inversion E; subst. cbn in *. intuition congruence.
  - intros w b w' E H. unfold bdr_solve_ip in E.
    match type of E with match solve_ip ?a ?m with _ => _ end = _ => pose proof (solve_ip_data a m) as G; destruct (solve_ip a m) as [m' [r|]]; [|discriminate] end.
    inversion E; subst. cbn in *. intuition congruence.
Qed.
Print Assumptions C32_refit_keeps_the_data.
(** So refitting does not train on the new data: an estimator with exact solvers, fitted on [y1] and then on [y2], keeps a
    rule with training loss 2 on [y2] where a fresh estimator learns one with loss 1. *)
Theorem C32_refuted : exists n X y1 y2 sv P clk fuel s1 s2 s3 rule fresh,
  dataset n X y1 /\ dataset n X y2
  /\ (forall y, y = y1 \/ y = y2 -> exact_rmp n X y (bp_C P) (bp_p P) (sv_lp sv) /\ exact_pricing n X y (bp_C P) (sv_pricing sv)
         /\ exact_ip n X y (bp_C P) (bp_p P) (sv_ip sv))
  /\ bdr_fit sv P clk X y1 fuel (new_estimator (bdr_init P)) = (s1, Done tt)
  /\ bdr_fit sv P clk X y2 fuel s1 = (s2, Done tt) /\ f_optimal s2 = true /\ learned s2 = Some rule
  /\ bdr_fit sv P clk X y2 fuel (new_estimator (bdr_init P)) = (s3, Done tt) /\ learned s3 = Some fresh
  /\ (rule_loss X y2 (bp_p P) rule == 2)%Q /\ (rule_loss X y2 (bp_p P) fresh == 1)%Q.
Proof.
  pose (P := tiny_params None). pose (f := fun y s => fst (bdr_fit tiny_solvers P (fun _ => 0%Q) tiny_X y 2 s)).
  exists 1, tiny_X, tiny_y, tiny_y', tiny_solvers, P, (fun _ => 0%Q), 2.
  exists (f tiny_y (new_estimator (bdr_init P))), (f tiny_y' (f tiny_y (new_estimator (bdr_init P)))), (f tiny_y' (new_estimator (bdr_init P))), [[0]], [].
  split; [apply tiny_data|]. split; [apply tiny_data'|].
  split. { intros y Hy. split; [apply tiny_exact_rmp; auto|]. split; [apply (tiny_exact_pricing y None); auto|apply tiny_exact_ip; auto]. }
  unfold f, P. vm_compute. repeat split.
Qed.
Print Assumptions C32_refuted.

(** * C60 *)
(** Both labels occur and the solvers answer every model: fit returns normally, whatever the clock says and whether or not the
    heuristic is used.  The LP duals may be wrong by up to the 1e-6 at which pricing compares reduced costs (exact ones are the
    case 0, C28_exact_solvers), but those of the positive samples must not be negative. *)
Theorem C60_fit_never_raises : forall n X y sv P clk fuel tau, dataset n X y -> In 0 y -> In 1 y -> (tau <= 1 # 1000000)%Q ->
  near_rmp n X y (bp_C P) (bp_p P) tau (sv_lp sv) -> complete_pricing n X y (bp_C P) (sv_pricing sv) ->
  complete_ip n X y (bp_C P) (bp_p P) (sv_ip sv) -> 2 ^ n <= fuel ->
  exists s, bdr_fit sv P clk X y fuel (new_estimator (bdr_init P)) = (s, Done tt) /\ f_fitted s = true.
Proof.
  intros n X y sv P clk fuel tau HD H0 H1 Ht HL HP HI Hf.
  destruct (bdr_fit_ok n X y HD sv P clk tau Ht HL HP HI fuel (labels_distinct y H0 H1) Hf) as (s & E & _). exists s. split; auto.
  unfold bdr_fit in E. eapply fit_spec in E. destruct E as (_ & t & e & E). apply E.
Qed.
Print Assumptions C60_fit_never_raises.
Example C60_case : dataset 1 tiny_X tiny_y /\ In 0 tiny_y /\ In 1 tiny_y /\ near_rmp 1 tiny_X tiny_y 2 1 0 (sv_lp tiny_solvers)
  /\ complete_pricing 1 tiny_X tiny_y 2 (sv_pricing tiny_solvers) /\ complete_ip 1 tiny_X tiny_y 2 1 (sv_ip tiny_solvers).
Proof.
  split; [apply tiny_data|]. split; [right; left; auto|]. split; [left; auto|]. split; [apply exact_near_rmp, (tiny_exact_rmp tiny_y None); auto|].
  split; [apply exact_complete_pricing, (tiny_exact_pricing tiny_y None); auto|apply exact_complete_ip, (tiny_exact_ip tiny_y None); auto].
Qed.

Lemma raised_mono sv P clk X y fuel fuel' s e : fuel <= fuel' ->
  snd (bdr_fit sv P clk X y fuel s) = Raised e -> snd (bdr_fit sv P clk X y fuel' s) = Raised e.
Proof.
  intros Hf H. unfold bdr_fit in *. rewrite (fit_mono (bdr_env sv P clk X y) fuel fuel' (map Z.of_nat y) s Hf); auto. rewrite H. discriminate.
Qed.
(** The sign is needed: an LP solver whose solutions are exact and whose duals are exact up to [tau], however small, makes fit
    raise AssertionError when it reports a slightly negative dual. *)
Theorem C60_dual_sign_needed : forall tau, (0 < tau)%Q -> exists n X y sv P clk, dataset n X y /\ In 0 y /\ In 1 y
  /\ exact_up_to tau n X y (bp_C P) (bp_p P) (sv_lp sv) /\ exact_pricing n X y (bp_C P) (sv_pricing sv)
  /\ exact_ip n X y (bp_C P) (bp_p P) (sv_ip sv)
  /\ forall fuel, 2 <= fuel -> snd (bdr_fit sv P clk X y fuel (new_estimator (bdr_init P))) = Raised AssertionError.
Proof.
  intros tau Ht. exists 1, tiny_X, tiny_y, (shaken_solvers tau), (tiny_params None), (fun _ => 0%Q).
  split; [apply tiny_data|]. split; [right; left; auto|]. split; [left; auto|].
  split. { intros t m K PK SL. exists (snd (tiny_lp m)). split; [apply (tiny_exact_rmp tiny_y None (or_introl eq_refl) t m K PK SL)|].
    intros c. apply shaken_near. lra. }
  split; [apply (tiny_exact_pricing tiny_y None); auto|]. split; [apply (tiny_exact_ip tiny_y None); auto|].
  intros fuel Hf. apply (raised_mono (shaken_solvers tau) (tiny_params None) (fun _ => 0%Q) tiny_X tiny_y 2 fuel); [exact Hf|exact (shaken_raises tau Ht)].
Qed.
Print Assumptions C60_dual_sign_needed.

(** * C61 *)
Theorem C61_iterations_bounded : forall n X y sv P clk fuel s tau, dataset n X y -> (tau <= 1 # 1000000)%Q ->
  near_rmp n X y (bp_C P) (bp_p P) tau (sv_lp sv) -> complete_pricing n X y (bp_C P) (sv_pricing sv) ->
  complete_ip n X y (bp_C P) (bp_p P) (sv_ip sv) ->
  bdr_fit sv P clk X y fuel (new_estimator (bdr_init P)) = (s, Done tt) -> f_iter s <= 2 ^ n /\ length (generated s) <= 2 ^ n.
Proof.
  intros n X y sv P clk fuel s tau HD Ht HL HP HI HF.
  destruct (bdr_fit_done n X y HD sv P clk tau Ht HL HP HI fuel s HF) as ((K & x & (I & PK & _) & _) & Hi & _). split; auto.
  unfold generated. rewrite (mi_dict _ _ _ _ _ _ I), map_snd_combine by (rewrite seq_length; auto). apply pool_bound; auto.
Qed.
Print Assumptions C61_iterations_bounded.
(** Without a time limit and an iteration limit the run ends with the master problem proved optimal. *)
Theorem C61_runs_to_optimality : forall sv P clk X y fuel s, (bp_max_iterations P <= 0)%Z -> (bp_time_limit P <= 0)%Q ->
  bdr_fit sv P clk X y fuel (new_estimator (bdr_init P)) = (s, Done tt) -> f_optimal s = true.
Proof.
  intros sv P clk X y fuel s Hm Ht HF. unfold bdr_fit in HF. apply fit_spec in HF.
  destruct HF as (_ & t & e & _ & (evs & LT & _) & _ & _ & _ & HO & _). rewrite HO. cbn [max_iterations time_limit bdr_env] in LT.
  clear -LT Hm Ht. induction LT as [k M|k evs M T|k evs M T|k evs evs' e M T LT IH]; auto; try lia.
  inversion T as [d b r evs' v SW]; subst. exfalso. remember TimedOut as v. clear T. induction SW; try discriminate; auto. lra.
Qed.
Print Assumptions C61_runs_to_optimality.
Example C61_case : let P := tiny_params None in exists s, bdr_fit tiny_solvers P (fun _ => 0%Q) tiny_X tiny_y 2 (new_estimator (bdr_init P)) = (s, Done tt) /\
  f_iter s = 2 /\ length (generated s) <= 2 ^ 1 /\ f_optimal s = true.
Proof.
  intros P. destruct (C28_case None) as ((D & L & Pr & I) & H). destruct (H (or_introl eq_refl)) as (E & Ho & _ & Hi & _). eexists. split; [exact E|]. split; [exact Hi|]. split; [|exact Ho].
  refine (proj2 (C61_iterations_bounded 1 tiny_X tiny_y tiny_solvers P _ 2 _ 0 D _ _ _ _ E)); [lra|apply exact_near_rmp; exact L|apply exact_complete_pricing; exact Pr|apply exact_complete_ip; exact I].
Qed.

(** * C62 *)
Theorem C62_learned_rule_usable : forall n X y sv P clk fuel s tau, dataset n X y -> (tau <= 1 # 1000000)%Q ->
  near_rmp n X y (bp_C P) (bp_p P) tau (sv_lp sv) -> complete_pricing n X y (bp_C P) (sv_pricing sv) ->
  complete_ip n X y (bp_C P) (bp_p P) (sv_ip sv) ->
  bdr_fit sv P clk X y fuel (new_estimator (bdr_init P)) = (s, Done tt) ->
  exists rule, learned s = Some rule /\ NoDup rule /\ Forall increasing rule /\ incl rule (generated s)
  /\ (Z.of_nat (nsum complexity rule) <= bp_C P)%Z
  /\ forall (L : Type) (l0 l1 : L) X', Forall (fun r => length r = n) X' ->
       predict [l0; l1] rule X' = Ok (map (fun r => if rule_accepts r rule then l1 else l0) X').
Proof.
  intros n X y sv P clk fuel s tau HD Ht HL HP HI HF.
  destruct (bdr_fit_done n X y HD sv P clk tau Ht HL HP HI fuel s HF) as ((K & x & (I & PK & _) & Fx & _ & EX) & _ & _).
  destruct PK as (_ & NK & SK & OK). exists (chosen X y K x).
  assert (IN : incl (chosen X y K x) K) by (intros k Hk; eapply chosen_In; eauto).
  split; [exact EX|]. split; [apply chosen_NoDup; auto|]. split; [eapply incl_Forall; eauto|].
  split. { unfold generated. rewrite (mi_dict _ _ _ _ _ _ I), map_snd_combine by (rewrite seq_length; auto). auto. }
  split. { pose proof (chosen_complexity X y _ _ K x Fx) as H. unfold qn in H. rewrite <- Zle_Qle in H. exact H. }
  intros L l0 l1 X' HX'. apply (predict_ok n); auto. eapply incl_Forall; eauto.
Qed.
Print Assumptions C62_learned_rule_usable.
Example C62_case : learned (fst (bdr_fit tiny_solvers (tiny_params (Some 1)) (fun _ => 0%Q) tiny_X tiny_y 2 (new_estimator (bdr_init (tiny_params (Some 1)))))) = Some [[0]]
  /\ predict [false; true] [[0]] [[0]; [3]; [1]]%Q = Ok [false; true; true].
Proof. vm_compute. auto. Qed.

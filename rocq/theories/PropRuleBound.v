(** Claim C91: what the bound of a finished rule training depends on. *)
From Verif Require Import Base Lp LpProofs FitModel SpecFit FitProofs FitMainProofs FitHoareProofs FitInvProofs.
From Verif Require Import SpecDual DualProofs BdrModel SpecBdr BdrProofs BdrLpProofs BdrPricingProofs BdrSubmipProofs BdrRuleProofs BdrFitModel BdrRunProofs BdrCertProofs.
From Verif Require Import LpCheck BdrWitness PropBdr PropBdrRun.
From Verif Require Import RuleBoundProofs.
Open Scope nat_scope.

(** * C91 *)
(** Two trainings on the same data that both report optimality, each with its own exact solvers, clock, limits and heuristic.
    The second has at least the budget and at most the penalty of the first, and the heuristic of the first, if it has one,
    builds clauses that the budget of the second allows.  Then its bound is at most that of the first. *)
Theorem C91_more_freedom_lower_bound : forall n X y sv P clk fuel s sv' P' clk' fuel' s', dataset n X y ->
  exact_rmp n X y (bp_C P) (bp_p P) (sv_lp sv) -> exact_pricing n X y (bp_C P) (sv_pricing sv) -> complete_ip n X y (bp_C P) (bp_p P) (sv_ip sv) ->
  exact_rmp n X y (bp_C P') (bp_p P') (sv_lp sv') -> exact_pricing n X y (bp_C P') (sv_pricing sv') -> complete_ip n X y (bp_C P') (bp_p P') (sv_ip sv') ->
  bdr_fit sv P clk X y fuel (new_estimator (bdr_init P)) = (s, Done tt) -> f_optimal s = true ->
  bdr_fit sv' P' clk' X y fuel' (new_estimator (bdr_init P')) = (s', Done tt) -> f_optimal s' = true ->
  (bp_C P <= bp_C P')%Z -> (bp_p P' <= bp_p P)%Q -> (forall size, bp_heuristic P = Some size -> (Z.of_nat size <= bp_C P')%Z) ->
  (last_bound s' - (1 # 1000000) * inject_Z (bp_C P') <= last_bound s)%Q.
Proof.
  intros n X y sv P clk fuel s sv' P' clk' fuel' s' HD HL HX HI HL' HX' HI' HF HO HF' HO' HC Hp HK.
  pose proof (exact_complete_pricing _ _ _ _ _ HX) as HP. assert (H0 : (0 <= eps)%Q) by (unfold eps; lra).
  assert (HA : exists xi K, p1_feasible X y (bp_C P) xi K /\ (last_bound s == p1_objective X y (bp_p P) xi K)%Q
            /\ forall k w, In (k, w) K -> clause_over n k /\ ((0 <= bp_C P')%Z -> (Z.of_nat (length k) <= bp_C P')%Z)).
  { destruct (bdr_fit_done n X y HD sv P clk 0%Q H0 (exact_near_rmp _ _ _ _ _ _ HL) HP HI fuel s HF) as (_ & _ & HJ). destruct (HJ HO) as (b & d & J).
    destruct J as (K & t & pi & (I & PK & HS) & _ & Et & _).
    pose proof (HL t _ K PK (mi_lp _ _ _ _ _ _ I)) as KK. rewrite Et in KK. cbn [fst snd] in KK.
    apply (same_kkt _ _ _ _ (mi_lp _ _ _ _ _ _ I)) in KK. destruct KK as (KF & _).
    exists (penalties X y (bw_last (f_world s))), (weights X y K (bw_last (f_world s))). split; [apply p1_feasible_iff in KF; exact KF|].
    split; [unfold last_bound; rewrite (same_objective _ _ _ (mi_lp _ _ _ _ _ _ I)); apply p1_objective_value|].
    intros k w Hk. unfold weights in Hk. apply in_combine_l in Hk. split.
    - destruct PK as (_ & _ & _ & PO). rewrite Forall_forall in PO. auto.
    - intros HM. destruct (bdr_fit_short n X y HD sv P clk 0%Q H0 (exact_near_rmp _ _ _ _ _ _ HL) HP HI (bp_C P') HM HC HK fuel s HF HO) as (_ & _ & _ & Sh).
      unfold short in Sh. rewrite (inv_clauses _ _ _ _ _ _ I) in Sh. rewrite Forall_forall in Sh. apply Sh. auto. }
  destruct HA as (xi & K & F & EB & HB). pose proof (budget_pos _ _ _ _ _ F) as HC0. rewrite EB.
  eapply Qle_trans; [|apply (objective_less _ _ _ _ _ _ _ Hp F)].
  apply (C28_optimality_certificate n X y sv' P' clk' fuel' s' HD HL' HX' HI' HF' HO').
  - eapply feasible_more; eauto.
  - intros k w Hk. destruct (HB _ _ Hk). split; auto. apply H1. lia.
Qed.
Print Assumptions C91_more_freedom_lower_bound.

(** With the same budget and penalty the two bounds agree up to 1e-6 times the budget. *)
Theorem C91_bound_independent : forall n X y sv P clk fuel s sv' P' clk' fuel' s', dataset n X y ->
  exact_rmp n X y (bp_C P) (bp_p P) (sv_lp sv) -> exact_pricing n X y (bp_C P) (sv_pricing sv) -> complete_ip n X y (bp_C P) (bp_p P) (sv_ip sv) ->
  exact_rmp n X y (bp_C P') (bp_p P') (sv_lp sv') -> exact_pricing n X y (bp_C P') (sv_pricing sv') -> complete_ip n X y (bp_C P') (bp_p P') (sv_ip sv') ->
  bdr_fit sv P clk X y fuel (new_estimator (bdr_init P)) = (s, Done tt) -> f_optimal s = true ->
  bdr_fit sv' P' clk' X y fuel' (new_estimator (bdr_init P')) = (s', Done tt) -> f_optimal s' = true ->
  bp_C P = bp_C P' -> (bp_p P == bp_p P')%Q ->
  (forall size, bp_heuristic P = Some size \/ bp_heuristic P' = Some size -> (Z.of_nat size <= bp_C P)%Z) ->
  (Qabs (last_bound s - last_bound s') <= (1 # 1000000) * inject_Z (bp_C P))%Q.
Proof.
  intros n X y sv P clk fuel s sv' P' clk' fuel' s' HD HL HX HI HL' HX' HI' HF HO HF' HO' HC Hp HK.
  assert (A : (last_bound s' - (1 # 1000000) * inject_Z (bp_C P') <= last_bound s)%Q).
  { apply (C91_more_freedom_lower_bound n X y sv P clk fuel s sv' P' clk' fuel' s'); auto; [lia|lra|]. intros size Hs. rewrite <- HC. auto. }
  assert (B : (last_bound s - (1 # 1000000) * inject_Z (bp_C P) <= last_bound s')%Q).
  { apply (C91_more_freedom_lower_bound n X y sv' P' clk' fuel' s' sv P clk fuel s); auto; [lia|lra]. }
  rewrite <- HC in A. apply Qabs_Qle_condition. lra.
Qed.
Print Assumptions C91_bound_independent.

(** No rule learned within a smaller budget and with a larger penalty, whether its training reports optimality or not and
    whatever its LP and pricing solvers and its heuristic, costs less than the bound. *)
Theorem C91_bounds_other_rules : forall n X y sv P clk fuel s sv' P' clk' fuel' s' rule, dataset n X y ->
  near_rmp n X y (bp_C P) (bp_p P) (1 # 1000000) (sv_lp sv) -> complete_pricing n X y (bp_C P) (sv_pricing sv) -> complete_ip n X y (bp_C P) (bp_p P) (sv_ip sv) ->
  exact_rmp n X y (bp_C P') (bp_p P') (sv_lp sv') -> exact_pricing n X y (bp_C P') (sv_pricing sv') -> complete_ip n X y (bp_C P') (bp_p P') (sv_ip sv') ->
  bdr_fit sv P clk X y fuel (new_estimator (bdr_init P)) = (s, Done tt) -> learned s = Some rule ->
  bdr_fit sv' P' clk' X y fuel' (new_estimator (bdr_init P')) = (s', Done tt) -> f_optimal s' = true ->
  (bp_C P <= bp_C P')%Z -> (bp_p P' <= bp_p P)%Q ->
  (last_bound s' - (1 # 1000000) * inject_Z (bp_C P') <= rule_cost X y (bp_p P) rule)%Q.
Proof.
  intros n X y sv P clk fuel s sv' P' clk' fuel' s' rule HD HL HP HI HL' HX' HI' HF HR HF' HO' HC Hp.
  destruct (bdr_fit_done n X y HD sv P clk (1 # 1000000)%Q ltac:(unfold eps; lra) HL HP HI fuel s HF) as ((K & x & (I & PK & _) & Fx & _ & EX) & _).
  unfold learned in HR. rewrite EX in HR. injection HR as <-.
  eapply Qle_trans.
  - apply (C28_decision_rules n X y sv' P' clk' fuel' s' (chosen X y K x) HD HL' HX' HI' HF' HO').
    + destruct PK as (_ & _ & _ & PO). rewrite Forall_forall in *. intros k Hk. apply PO. eapply chosen_In; eauto.
    + pose proof (chosen_complexity X y _ _ _ _ Fx) as H. unfold qn in H. rewrite <- Zle_Qle in H. lia.
  - unfold rule_cost. assert (0 <= qn (length (filter (fun r => negb (rule_accepts r (chosen X y K x))) (positives X y))))%Q
      by (unfold qn; change 0%Q with (inject_Z 0); rewrite <- Zle_Qle; lia).
    pose proof (Qmult_le_compat_r _ _ _ Hp H). lra.
Qed.
Print Assumptions C91_bounds_other_rules.

(** The tiny data set with budget 1: half of the clause [0] is worth taking. *)
Definition half_at (i j : nat) : Q := if (j =? 0) || (j =? i) then (1 # 2)%Q else 0%Q.
Definition half_duals (c : nat) : Q := match c with O => (- (1 # 2))%Q | S O => 1%Q | _ => 0%Q end.
Definition tight_lp (m : lp) : (nat -> Q) * (nat -> Q) :=
  let k := nth 0 (lp_cons m) (mkCon None None (fun _ => 0%Q)) in
  if Qeq_bool (c_coef k 1) 2 && Qeq_bool (lp_obj m 1) 0 then (half_at 1, half_duals)
  else if Qeq_bool (c_coef k 2) 2 && Qeq_bool (lp_obj m 2) 0 then (half_at 2, half_duals)
  else (unit_at 0, unit_at 1).
Definition tight_solvers : solvers :=
  mkSolvers (fun _ => tight_lp) (fun _ => by_enumeration 1 tiny_X 1) (fun _ _ => Some (unit_at 0)).
Definition tight_params : bparams := mkBparams 1 1 (-1) (-1) None.

Lemma tight_exact_rmp : exact_rmp 1 tiny_X tiny_y 1 1 (sv_lp tight_solvers).
Proof.
  intros t m K PK SL. cbn [sv_lp tight_solvers].
  assert (E0 : tight_lp m = tight_lp (problem1 tiny_X tiny_y 1 1 K)).
  { destruct SL as (_ & HO & _ & _ & H). unfold tight_lp.
    assert (E : forall j, (c_coef (nth 0 (lp_cons m) (mkCon None None (fun _ => 0))) j
        == c_coef (nth 0 (lp_cons (problem1 tiny_X tiny_y 1 1 K)) (mkCon None None (fun _ => 0))) j)%Q).
    { intros j. destruct H as [|k k' l l' (_ & _ & Hk) _]; cbn; [reflexivity|apply Hk]. }
    rewrite !E, !HO. reflexivity. }
  rewrite E0. eapply same_kkt; [apply same_lp_sym; exact SL|]. apply kktb_ok. destruct (tiny_pool K PK) as [->|[->| ->]]; vm_compute; auto.
Qed.
Lemma tight_complete_ip : complete_ip 1 tiny_X tiny_y 1 1 (sv_ip tight_solvers).
Proof.
  intros t m K PK SL. exists (unit_at 0). split; [reflexivity|]. eapply same_ip_feasible; [apply same_lp_sym; exact SL|].
  apply ip_feasibleb_ok. destruct (tiny_pool K PK) as [->|[->| ->]]; vm_compute; auto.
Qed.

(** Budgets 1 and 2 and, for budget 2, training with and without the heuristic: the bounds are 1/2, 0 and 0. *)
Example C91_case :
  let s := fst (bdr_fit tight_solvers tight_params (fun _ => 0%Q) tiny_X tiny_y 2 (new_estimator (bdr_init tight_params))) in
  let s' h := fst (bdr_fit tiny_solvers (tiny_params h) (fun _ => 0%Q) tiny_X tiny_y 2 (new_estimator (bdr_init (tiny_params h)))) in
  dataset 1 tiny_X tiny_y
  /\ (exact_rmp 1 tiny_X tiny_y 1 1 (sv_lp tight_solvers) /\ exact_pricing 1 tiny_X tiny_y 1 (sv_pricing tight_solvers) /\ complete_ip 1 tiny_X tiny_y 1 1 (sv_ip tight_solvers))
  /\ (exact_rmp 1 tiny_X tiny_y 2 1 (sv_lp tiny_solvers) /\ exact_pricing 1 tiny_X tiny_y 2 (sv_pricing tiny_solvers) /\ complete_ip 1 tiny_X tiny_y 2 1 (sv_ip tiny_solvers))
  /\ (bdr_fit tight_solvers tight_params (fun _ => 0%Q) tiny_X tiny_y 2 (new_estimator (bdr_init tight_params)) = (s, Done tt)
      /\ f_optimal s = true /\ (last_bound s == 1 # 2)%Q)
  /\ (forall h, h = None \/ h = Some 1 ->
      bdr_fit tiny_solvers (tiny_params h) (fun _ => 0%Q) tiny_X tiny_y 2 (new_estimator (bdr_init (tiny_params h))) = (s' h, Done tt)
      /\ f_optimal (s' h) = true /\ (last_bound (s' h) == 0)%Q).
Proof.
  intros s s'. split; [apply tiny_data|]. split.
  { split; [apply tight_exact_rmp|]. split; [|apply tight_complete_ip]. apply by_enumeration_exact; [apply tiny_data|cbn; lia]. }
  split.
  { split; [apply (tiny_exact_rmp tiny_y None); auto|]. split; [apply (tiny_exact_pricing tiny_y None); auto|].
    apply exact_complete_ip, (tiny_exact_ip tiny_y None); auto. }
  split; [unfold s; vm_compute; auto|]. intros h [->| ->]; unfold s'; vm_compute; auto.
Qed.

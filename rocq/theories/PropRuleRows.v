(** Claim C93: the training rows as a collection. *)
From Verif Require Import Base Lp LpProofs FitModel SpecFit FitProofs FitMainProofs FitHoareProofs FitInvProofs.
From Verif Require Import SpecDual DualProofs BdrModel SpecBdr BdrProofs BdrLpProofs BdrPricingProofs BdrSubmipProofs BdrRuleProofs BdrFitModel BdrRunProofs BdrCertProofs.
From Verif Require Import LpCheck BdrWitness PropBdr PropBdrRun RuleBoundProofs PropRuleBound PropRuleBoundNeeded.
From Verif Require Import SpecRuleRows RuleRowsProofs.
From Coq Require Import Permutation.
Open Scope nat_scope.

(** Fewer rows, more budget and a smaller penalty never raise the bound. *)
Theorem C93_fewer_rows : forall n X y X' y' sv P clk fuel s sv' P' clk' fuel' s', dataset n X y -> dataset n X' y' -> rows_among X' y' X y ->
  exact_rmp n X y (bp_C P) (bp_p P) (sv_lp sv) -> exact_pricing n X y (bp_C P) (sv_pricing sv) -> complete_ip n X y (bp_C P) (bp_p P) (sv_ip sv) ->
  exact_rmp n X' y' (bp_C P') (bp_p P') (sv_lp sv') -> exact_pricing n X' y' (bp_C P') (sv_pricing sv') -> complete_ip n X' y' (bp_C P') (bp_p P') (sv_ip sv') ->
  bdr_fit sv P clk X y fuel (new_estimator (bdr_init P)) = (s, Done tt) -> f_optimal s = true ->
  bdr_fit sv' P' clk' X' y' fuel' (new_estimator (bdr_init P')) = (s', Done tt) -> f_optimal s' = true ->
  (bp_C P <= bp_C P')%Z -> (0 <= bp_p P' <= bp_p P)%Q -> (forall size, bp_heuristic P = Some size -> (Z.of_nat size <= bp_C P')%Z) ->
  (last_bound s' - (1 # 1000000) * inject_Z (bp_C P') <= last_bound s)%Q.
Proof.
  intros n X y X' y' sv P clk fuel s sv' P' clk' fuel' s' HD HD' HA HL HX HI HL' HX' HI' HF HO HF' HO' HC [Hp0 Hp] HK.
  destruct (attained n X y sv P clk fuel s (bp_C P') HD HL HX HI HF HO HC HK) as (xi & K & F & EB & HB). rewrite EB.
  eapply Qle_trans; [|apply (objective_less _ _ _ _ _ _ _ Hp F)].
  destruct (among_solution X' y' X y _ _ _ _ Hp0 HA F) as (xi' & F' & LE). eapply Qle_trans; [|exact LE].
  apply (C28_optimality_certificate n X' y' sv' P' clk' fuel' s' HD' HL' HX' HI' HF' HO'); auto. eapply feasible_more; eauto.
Qed.
Print Assumptions C93_fewer_rows.

(** The order of the rows and the non-zero values in them do not matter. *)
Theorem C93_row_order : forall n X y X' y' sv P clk fuel s sv' P' clk' fuel' s', dataset n X y -> dataset n X' y' -> 
  (exists rows, Permutation rows (combine X y) /\ Forall2 same_sample (combine X' y') rows) ->
  exact_rmp n X y (bp_C P) (bp_p P) (sv_lp sv) -> exact_pricing n X y (bp_C P) (sv_pricing sv) -> complete_ip n X y (bp_C P) (bp_p P) (sv_ip sv) ->
  exact_rmp n X' y' (bp_C P') (bp_p P') (sv_lp sv') -> exact_pricing n X' y' (bp_C P') (sv_pricing sv') -> complete_ip n X' y' (bp_C P') (bp_p P') (sv_ip sv') ->
  bdr_fit sv P clk X y fuel (new_estimator (bdr_init P)) = (s, Done tt) -> f_optimal s = true ->
  bdr_fit sv' P' clk' X' y' fuel' (new_estimator (bdr_init P')) = (s', Done tt) -> f_optimal s' = true ->
  bp_C P = bp_C P' -> (bp_p P == bp_p P')%Q -> (0 <= bp_p P)%Q ->
  (forall size, bp_heuristic P = Some size \/ bp_heuristic P' = Some size -> (Z.of_nat size <= bp_C P)%Z) ->
  (Qabs (last_bound s - last_bound s') <= (1 # 1000000) * inject_Z (bp_C P))%Q.
Proof.
  intros n X y X' y' sv P clk fuel s sv' P' clk' fuel' s' HD HD' (rows & HP & HF2) HL HX HI HL' HX' HI' HF HO HF' HO' HC Hp Hp0 HK.
  assert (HA : rows_among X' y' X y) by (exists [], rows; split; [exact HP|rewrite app_nil_r; exact HF2]).
  assert (HB : rows_among X y X' y').
  { assert (G : Forall2 same_sample rows (combine X' y')) by (clear -HF2; induction HF2 as [|a b l l' [H1 H2] F IH]; constructor; auto; split; auto).
    destruct (Permutation_Forall2 HP G) as (rows' & P1 & G1). exists [], rows'. split; [apply Permutation_sym, P1|rewrite app_nil_r; exact G1]. }
  assert (A : (last_bound s' - (1 # 1000000) * inject_Z (bp_C P') <= last_bound s)%Q).
  { apply (C93_fewer_rows n X y X' y' sv P clk fuel s sv' P' clk' fuel' s'); auto; [lia|lra|]. intros size Hs. rewrite <- HC. auto. }
  assert (B : (last_bound s - (1 # 1000000) * inject_Z (bp_C P) <= last_bound s')%Q).
  { apply (C93_fewer_rows n X' y' X y sv' P' clk' fuel' s' sv P clk fuel s); auto; [lia|lra]. }
  rewrite <- HC in A. apply Qabs_Qle_condition. lra.
Qed.
Print Assumptions C93_row_order.

(** More features never raise the bound; the order of the columns does not matter. *)
Theorem C93_more_features : forall n X n' X' y f sv P clk fuel s sv' P' clk' fuel' s', dataset n X y -> dataset n' X' y -> features_among n X n' X' f ->
  exact_rmp n X y (bp_C P) (bp_p P) (sv_lp sv) -> exact_pricing n X y (bp_C P) (sv_pricing sv) -> complete_ip n X y (bp_C P) (bp_p P) (sv_ip sv) ->
  exact_rmp n' X' y (bp_C P') (bp_p P') (sv_lp sv') -> exact_pricing n' X' y (bp_C P') (sv_pricing sv') -> complete_ip n' X' y (bp_C P') (bp_p P') (sv_ip sv') ->
  bdr_fit sv P clk X y fuel (new_estimator (bdr_init P)) = (s, Done tt) -> f_optimal s = true ->
  bdr_fit sv' P' clk' X' y fuel' (new_estimator (bdr_init P')) = (s', Done tt) -> f_optimal s' = true ->
  (bp_C P <= bp_C P')%Z -> (bp_p P' <= bp_p P)%Q -> (forall size, bp_heuristic P = Some size -> (Z.of_nat size <= bp_C P')%Z) ->
  (last_bound s' - (1 # 1000000) * inject_Z (bp_C P') <= last_bound s)%Q.
Proof.
  intros n X n' X' y f sv P clk fuel s sv' P' clk' fuel' s' HD HD' [Hf HA] HL HX HI HL' HX' HI' HF HO HF' HO' HC Hp HK.
  destruct (attained n X y sv P clk fuel s (bp_C P') HD HL HX HI HF HO HC HK) as (xi & K & F & EB & HB). rewrite EB.
  eapply Qle_trans; [|apply (objective_less _ _ _ _ _ _ _ Hp F)].
  destruct (carry_solution n f X X' y _ (bp_p P') xi K HA (fun k w Hk => proj1 (HB k w Hk)) F) as [F' EO]. rewrite <- EO.
  apply (C28_optimality_certificate n' X' y sv' P' clk' fuel' s' HD' HL' HX' HI' HF' HO'); [eapply feasible_more; eauto|].
  intros k w Hk. apply in_map_iff in Hk. destruct Hk as ([k0 w1] & Ek & Hk). unfold carry in Ek. cbn [fst snd] in Ek. injection Ek as <- <-.
  destruct (HB _ _ Hk) as [H1 H2]. rewrite map_length. split; auto. apply Forall_map. eapply Forall_impl; [|exact H1]. cbn. auto.
Qed.
Print Assumptions C93_more_features.

(** The tiny data set with its rows exchanged and another non-zero value, and with a contradicting row added. *)
Definition turned_X : matrix := [[0]; [3]]%Q.
Definition turned_y : list nat := [0; 1].
Definition noisy_X : matrix := [[1]; [0]; [1]]%Q.
Definition noisy_y : list nat := [1; 0; 0].
Definition row_solvers (X : matrix) : solvers :=
  mkSolvers (fun _ => tiny_lp) (fun _ => by_enumeration 1 X 2) (fun _ m => Some (fst (tiny_lp m))).
Definition small_set (X : matrix) (y : list nat) : Prop := (X = tiny_X /\ y = tiny_y) \/ (X = turned_X /\ y = turned_y) \/ (X = noisy_X /\ y = noisy_y).
Lemma small_certified X y K : small_set X y -> clause_pool 1 K ->
  let m := problem1 X y 2 1 K in kktb m (fst (tiny_lp m)) (snd (tiny_lp m)) = true /\ ip_feasibleb m (fst (tiny_lp m)) = true.
Proof. intros [[-> ->]|[[-> ->]|[-> ->]]] H; (destruct (tiny_pool K H) as [->|[->| ->]]; vm_compute; auto). Qed.
Lemma small_data X y : small_set X y -> dataset 1 X y.
Proof. intros [[-> ->]|[[-> ->]|[-> ->]]]; (split; [discriminate|]; split; [reflexivity|]; split; repeat (constructor; auto)). Qed.
Lemma small_solvers X y : small_set X y -> exact_rmp 1 X y 2 1 (sv_lp (row_solvers X)) /\ exact_pricing 1 X y 2 (sv_pricing (row_solvers X)) /\ complete_ip 1 X y 2 1 (sv_ip (row_solvers X)).
Proof.
  intros HS. split; [|split].
  - intros t m K PK SL. cbn [sv_lp row_solvers]. rewrite (tiny_lp_same _ _ SL). eapply same_kkt; [apply same_lp_sym; exact SL|]. apply kktb_ok. apply (small_certified X y K HS PK).
  - apply by_enumeration_exact; [apply small_data; exact HS|cbn; lia].
  - intros t m K PK SL. eexists. split; [reflexivity|]. rewrite (tiny_lp_same _ _ SL). eapply same_ip_feasible; [apply same_lp_sym; exact SL|].
    apply ip_feasibleb_ok. apply (small_certified X y K HS PK).
Qed.
(** Training on them ends with the bounds 0, 0 and 1. *)
Example C93_case : let run X y := bdr_fit (row_solvers X) (tiny_params None) (fun _ => 0%Q) X y 2 (new_estimator (bdr_init (tiny_params None))) in
  (forall X y, small_set X y -> dataset 1 X y /\ exact_rmp 1 X y 2 1 (sv_lp (row_solvers X)) /\ exact_pricing 1 X y 2 (sv_pricing (row_solvers X))
     /\ complete_ip 1 X y 2 1 (sv_ip (row_solvers X)) /\ snd (run X y) = Done tt /\ f_optimal (fst (run X y)) = true)
  /\ rows_among tiny_X tiny_y noisy_X noisy_y
  /\ (exists rows, Permutation rows (combine tiny_X tiny_y) /\ Forall2 same_sample (combine turned_X turned_y) rows)
  /\ (last_bound (fst (run tiny_X tiny_y)) == 0)%Q /\ (last_bound (fst (run turned_X turned_y)) == 0)%Q /\ (last_bound (fst (run noisy_X noisy_y)) == 1)%Q.
Proof.
  intros run. split.
  { intros X y HS. split; [apply small_data; exact HS|]. destruct (small_solvers X y HS) as (H1 & H2 & H3). split; [exact H1|]. split; [exact H2|]. split; [exact H3|].
    destruct HS as [[-> ->]|[[-> ->]|[-> ->]]]; vm_compute; auto. }
  split. { exists [([1]%Q, 0)], (combine noisy_X noisy_y). split; [apply Permutation_refl|]. repeat constructor. }
  split. { exists [([0]%Q, 0); ([1]%Q, 1)]. split; [apply perm_swap|]. constructor; [split; auto|]. constructor; [|constructor]. split; auto. intros [|[|j]]; reflexivity. }
  split; [vm_compute; reflexivity|]. split; vm_compute; reflexivity.
Qed.

(** The noisy data set is the second column of the data set of C91_heuristic_size_needed.  With budget 1 its bound is 1; with the
    other column and the heuristic the bound is 2/3. *)
Definition one_column : solvers := mkSolvers (fun _ _ => (unit_at 0, unit_at 1)) (fun _ => by_enumeration 1 noisy_X 1) (fun _ _ => Some (unit_at 0)).
Lemma one_column_ok : exact_rmp 1 noisy_X both_y 1 1 (sv_lp one_column) /\ exact_pricing 1 noisy_X both_y 1 (sv_pricing one_column) /\ complete_ip 1 noisy_X both_y 1 1 (sv_ip one_column).
Proof.
  assert (HD : dataset 1 noisy_X both_y) by (apply (small_data noisy_X noisy_y); right; right; auto).
  assert (G : forall K, clause_pool 1 K -> kktb (problem1 noisy_X both_y 1 1 K) (unit_at 0) (unit_at 1) = true /\ ip_feasibleb (problem1 noisy_X both_y 1 1 K) (unit_at 0) = true)
    by (intros K H; destruct (tiny_pool K H) as [->|[->| ->]]; vm_compute; auto).
  split; [|split].
  - intros t m K PK SL. eapply same_kkt; [apply same_lp_sym; exact SL|]. apply kktb_ok. apply (G K PK).
  - apply by_enumeration_exact; [exact HD|cbn; lia].
  - intros t m K PK SL. eexists. split; [reflexivity|]. eapply same_ip_feasible; [apply same_lp_sym; exact SL|]. apply ip_feasibleb_ok. apply (G K PK).
Qed.
Example C93_case_features :
  let s := fst (bdr_fit one_column (both_params None) (fun _ => 0%Q) noisy_X both_y 2 (new_estimator (bdr_init (both_params None)))) in
  let s' := fst (bdr_fit both_solvers (both_params (Some 2)) (fun _ => 0%Q) both_X both_y 3 (new_estimator (bdr_init (both_params (Some 2))))) in
  (dataset 1 noisy_X both_y /\ dataset 2 both_X both_y /\ features_among 1 noisy_X 2 both_X (fun _ => 1))
  /\ (exact_rmp 1 noisy_X both_y 1 1 (sv_lp one_column) /\ exact_pricing 1 noisy_X both_y 1 (sv_pricing one_column) /\ complete_ip 1 noisy_X both_y 1 1 (sv_ip one_column))
  /\ (exact_rmp 2 both_X both_y 1 1 (sv_lp both_solvers) /\ exact_pricing 2 both_X both_y 1 (sv_pricing both_solvers) /\ complete_ip 2 both_X both_y 1 1 (sv_ip both_solvers))
  /\ bdr_fit one_column (both_params None) (fun _ => 0%Q) noisy_X both_y 2 (new_estimator (bdr_init (both_params None))) = (s, Done tt) /\ f_optimal s = true
  /\ bdr_fit both_solvers (both_params (Some 2)) (fun _ => 0%Q) both_X both_y 3 (new_estimator (bdr_init (both_params (Some 2)))) = (s', Done tt) /\ f_optimal s' = true
  /\ (last_bound s == 1)%Q /\ (last_bound s' == 2 # 3)%Q.
Proof.
  intros s s'. split.
  { split; [apply (small_data noisy_X noisy_y); right; right; auto|]. split; [apply both_data|]. split; [intros; lia|].
    repeat constructor; intros j Hj; assert (j = 0) as -> by lia; reflexivity. }
  split; [apply one_column_ok|].
  split; [split; [apply both_exact_rmp|]; split; [apply by_enumeration_exact; [apply both_data|cbn; lia]|apply both_complete_ip]|].
  split; [unfold s; vm_compute; reflexivity|]. split; [unfold s; vm_compute; reflexivity|]. split; [unfold s'; vm_compute; reflexivity|].
  split; [unfold s'; vm_compute; reflexivity|]. split; [unfold s|unfold s']; vm_compute; reflexivity.
Qed.

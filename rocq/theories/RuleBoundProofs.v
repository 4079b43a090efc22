(** Proofs for C91: the clauses a training generates are short, and the last LP value is attained by them. *)
From Verif Require Import Base Lp LpProofs FitModel SpecFit FitProofs FitMainProofs FitHoareProofs FitInvProofs.
From Verif Require Import SpecDual DualProofs BdrModel SpecBdr BdrProofs BdrLpProofs BdrPricingProofs BdrSubmipProofs BdrRuleProofs BdrFitModel BdrRunProofs BdrCertProofs.
From Verif Require Import MoreRuleProofs.
Open Scope nat_scope.

Lemma inv_clauses X y C p K m : master_inv X y C p K m -> map snd (bm_dict m) = K.
Proof.
  intros I. rewrite (mi_dict _ _ _ _ _ _ I). generalize (length (positives X y)). induction K as [|k K IH]; intros s; cbn; auto. f_equal.
  clear -K. revert s. induction K as [|a K IH]; intros s; cbn; auto. f_equal. apply IH.
Qed.

Section Data.
Variables (n : nat) (X : matrix) (y : list nat).
Hypothesis HD : dataset n X y.
Variables (sv : solvers) (P : bparams) (clk : nat -> Q).
Notation C := (bp_C P).
Notation p := (bp_p P).
Notation E := (bdr_env sv P clk X y).
Variable tau : Q.
Hypothesis Ht : (tau <= eps)%Q.
Hypothesis HL : near_rmp n X y C p tau (sv_lp sv).
Hypothesis HP : complete_pricing n X y C (sv_pricing sv).
Hypothesis HI : complete_ip n X y C p (sv_ip sv).
Variable M : Z.
Hypothesis H0M : (0 <= M)%Z.
Hypothesis HCM : (C <= M)%Z.
Hypothesis HKM : forall K0, bp_heuristic P = Some K0 -> (Z.of_nat K0 <= M)%Z.

Definition brief (k : clause) : Prop := (Z.of_nat (length k) <= M)%Z.
Definition short (w : bworld) : Prop := Forall brief (map snd (bm_dict (bw_master w))).

Lemma exact_brief b d done w cols w' : J1 n X y sv P b d done w -> bdr_exact sv X y d w = Ok (cols, w') ->
  Forall brief cols /\ bw_master w' = bw_master w.
Proof.
  intros HJ. destruct (J1_signs n X y sv P tau HL _ _ _ _ HJ) as (Hl & Hm & Hn). destruct HJ as (K & t & pi & (I & PK & SI) & _).
  unfold bdr_exact. destruct d as [lam mu]. cbn [fst snd] in *.
  destruct (sub_generate_ok n X y HD C lam mu (bw_sub w) (sv_pricing sv (bw_calls w)) SI Hl Hm Hn) as (s1 & SI1 & _ & _ & SL & ->).
  destruct (HP (bw_calls w) (bs_lp s1) lam mu Hl Hm Hn SL) as (x & Ex & Fx). rewrite Ex.
  apply (same_ip_feasible _ _ _ SL) in Fx. destruct (Qle_bool _ _); cbn [bind]; intros H; injection H as <- <-; cbn [bw_master].
  - split; auto.
  - split; auto. constructor; auto. unfold brief. pose proof (selected_length n X y HD C lam mu Hn x Fx). lia.
Qed.

Lemma gen_brief b l i d done w cols w' : J1 n X y sv P b d done w -> c_generate E l i d w = Ok (cols, w') ->
  Forall brief cols /\ bw_master w' = bw_master w.
Proof.
  intros HJ. cbn. unfold bdr_generate. destruct (bp_heuristic P) as [K0|] eqn:EH; [|eapply exact_brief; eauto].
  destruct (l =? 0); [|eapply exact_brief; eauto]. destruct (J1_signs n X y sv P tau HL _ _ _ _ HJ) as (Hl & Hm & Hn).
  destruct d as [lam mu]. cbn [fst snd] in *. rewrite (heuristic_ok n X y HD K0 lam mu Hl Hm Hn). cbn [bind]. intros H. injection H as <- <-.
  split; auto. apply Forall_forall. intros k Hk. apply filter_In in Hk. destruct Hk as [Hk _]. apply candidates_In in Hk.
  destruct Hk as (_ & _ & Hlen). specialize (HKM _ eq_refl). unfold brief. lia.
Qed.

Lemma add_brief b d done li u c cols w r w' : J2 n X y sv P b d done li u (c :: cols) w -> short w -> brief c -> c_add E c w = Ok (r, w') -> short w'.
Proof.
  intros (K & (I & PK & SI) & HF & ND & Hu) HS Hc. inversion HF as [|? ? (Fi & Fo & Fe & Fn) HF']; subst.
  cbn. unfold bdr_add. destruct (add_column_ok n X y HD C p K c (bw_master w) I Fo Fe Fn) as (m & -> & I' & _).
  intros H. injection H as <- <-. unfold short in *. cbn [bw_master]. rewrite (inv_clauses _ _ _ _ _ _ I'). rewrite (inv_clauses _ _ _ _ _ _ I) in HS.
  apply Forall_app. auto.
Qed.

Lemma ip_brief w a w' : c_solve_ip E w = Ok (a, w') -> short w -> short w'.
Proof.
  cbn. unfold bdr_solve_ip. destruct (solve_ip _ _) as [m r] eqn:E0. apply ip_dict in E0. destruct r; [|discriminate].
  intros H. injection H as <- <-. unfold short. cbn [bw_master]. rewrite E0. auto.
Qed.
Lemma solve_brief w d w' : c_solve_rmp E w = Ok (d, w') -> short w -> short w'.
Proof.
  cbn. unfold bdr_solve_rmp. destruct (sv_lp _ _ _) as [x pi]. intros H. apply bind_ok in H. destruct H as (d0 & _ & H). injection H as <- <-. auto.
Qed.

Lemma bdr_fit_short fuel s' : bdr_fit sv P clk X y fuel (new_estimator (bdr_init P)) = (s', Done tt) -> f_optimal s' = true ->
  exists b d, J1 n X y sv P b d (all_subproblems (levels E)) (f_world s') /\ short (f_world s').
Proof.
  intros H HO. pose proof H as H'. unfold bdr_fit in H'. apply fit_spec in H'. destruct H' as (Hy & _).
  unfold bdr_fit in H. destruct (generate_mp_ok n X y HD C p) as (m & EG & I & _).
  destruct (fit_total E (fun b w => J0 n X y P b w /\ short w) (fun b d _ w => J1 n X y sv P b d [] w /\ short w)
     (fun b d done w => J1 n X y sv P b d done w /\ short w)
     (fun b d done li u cols w => J2 n X y sv P b d done li u cols w /\ short w /\ Forall brief cols) (fun _ => True))
    with (k := 2 ^ n - 1) (fuel := 2 ^ n) (y := map Z.of_nat y)
    (s := @new_estimator bworld (Q * list Q) clause (bdr_init P)) (w := mkBworld m (submip_init C) 0 (fun _ => 0%Q)) as (s2 & E1 & _ & _ & E3).
  - intros b w [H1 H2]. destruct (Hsolve n X y sv P clk b w H1) as (d & w' & A & B). exists d, w'. split; [exact A|]. split; [exact B|]. eapply solve_brief; eauto.
  - intros. cbn. eauto.
  - intros. cbn. auto.
  - intros. cbn. eauto.
  - auto.
  - intros b l i d done w HE [H1 H2]. destruct (Hgen n X y HD sv P clk tau Ht HL HP b l i d done w HE H1) as (cols & w' & A & B). exists cols, w'.
    split; [exact A|]. destruct (gen_brief _ _ _ _ _ _ _ _ H1 A) as [G1 G2]. split; [exact B|]. split; [|exact G1]. unfold short. rewrite G2. exact H2.
  - intros b d done li u c cols w (H1 & H2 & H3). inversion H3; subst. destruct (Hadd n X y HD sv P clk b d done li u c cols w H1) as (r & w' & A & B). exists r, w'.
    split; [exact A|]. split; [exact B|]. split; [|assumption]. eapply add_brief; eauto.
  - intros b d done li w (H1 & H2 & _). destruct (H2t n X y sv P b d done li w H1) as (b' & E2 & H3). eauto.
  - intros b d done li w (H1 & H2 & _). split; [|exact H2]. apply (H2f n X y sv P b d done li w H1).
  - intros b d done w (H1 & H2). split; [|exact H2]. apply (H10 n X y sv P b d done w H1).
  - intros _ b w (H1 & H2). destruct (Hip n X y sv P clk HI b w H1) as (w' & A & B & _ & D). exists w'. split; [exact A|].
    pose proof (ip_brief _ _ _ A H2) as H3. split; [auto|]. split; [auto|]. intros d done (H4 & _). split; [apply D; exact H4|exact H3].
  - auto.
  - cbn [f_world new_estimator c_generate_mp bdr_env]. unfold bdr_generate_mp, bdr_init. cbn [bw_master bw_sub bw_calls bw_last]. rewrite EG. reflexivity.
  - split.
    + exists [[]]. split.
      * split; auto. split; [|left; auto]. split; [left; auto|]. split; [constructor; [intros []|constructor]|]. split; repeat constructor.
      * cbn. lia.
    + unfold short. cbn [bw_master]. rewrite (inv_clauses _ _ _ _ _ _ I). constructor; auto.
  - assert (2 ^ n <> 0) by (apply Nat.pow_nonzero; lia). lia.
  - assert (s' = s2) as ->.
    { destruct (Nat.le_ge_cases fuel (2 ^ n)) as [L|L].
      - apply (fit_mono E fuel (2 ^ n) (map Z.of_nat y) (new_estimator (bdr_init P))) in L; [congruence|rewrite H; discriminate].
      - apply (fit_mono E (2 ^ n) fuel (map Z.of_nat y) (new_estimator (bdr_init P))) in L; [congruence|rewrite E1; discriminate]. }
    destruct (E3 HO) as (b & d & H1 & H2). eauto.
Qed.
End Data.

(** More budget and a smaller penalty. *)
Lemma feasible_more X y C C' xi K : (C <= C')%Z -> p1_feasible X y C xi K -> p1_feasible X y C' xi K.
Proof. intros HC (F1 & F2 & F3). split; auto. split; auto. eapply Qle_trans; [exact F3|]. rewrite <- Zle_Qle. auto. Qed.
Lemma penalties_pos X y C xi K : p1_feasible X y C xi K -> (0 <= qsum (fun q => q) xi)%Q.
Proof.
  intros (F1 & _). induction F1 as [|r q l l' [H _] F IH]; [cbn; lra|]. change (qsum (fun q => q) (q :: l')) with (q + qsum (fun q => q) l')%Q. lra.
Qed.
Lemma objective_less X y C p p' xi K : (p' <= p)%Q -> p1_feasible X y C xi K -> (p1_objective X y p' xi K <= p1_objective X y p xi K)%Q.
Proof.
  intros Hp F. unfold p1_objective. pose proof (Qmult_le_compat_r _ _ _ Hp (penalties_pos _ _ _ _ _ F)). lra.
Qed.
Lemma budget_pos X y C xi K : p1_feasible X y C xi K -> (0 <= C)%Z.
Proof.
  intros (_ & F2 & F3). rewrite Zle_Qle. eapply Qle_trans; [|exact F3]. apply qsum_nonneg. intros kw Hk. rewrite Forall_forall in F2. specialize (F2 _ Hk).
  apply Qmult_le_0_compat; auto. unfold qn. change 0%Q with (inject_Z 0). rewrite <- Zle_Qle. lia.
Qed.

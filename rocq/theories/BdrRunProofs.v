(** Complete runs of fit for the boolean rule classifiers. *)
From Verif Require Import Base Lp LpProofs FitModel SpecFit FitProofs FitRunProofs FitMainProofs FitHoareProofs.
From Verif Require Import SpecDual DualProofs BdrModel SpecBdr BdrProofs BdrLpProofs BdrPricingProofs BdrSubmipProofs BdrRuleProofs BdrFitModel.
From Coq Require Import Sorted.
Open Scope nat_scope.

(** All increasing clauses. *)
Fixpoint subsets (l : list nat) : list clause :=
  match l with [] => [[]] | x :: l' => map (cons x) (subsets l') ++ subsets l' end.
Lemma subsets_length l : length (subsets l) = 2 ^ length l.
Proof.
  induction l as [|x l IH]; [reflexivity|]. cbn [subsets]. rewrite app_length, map_length. unfold clause in *. rewrite IH. cbn. lia.
Qed.
Lemma subsets_In len : forall s k, In k (subsets (seq s len)) <-> increasing k /\ Forall (fun j => s <= j < s + len) k.
Proof.
  induction len as [|len IH]; intros s k; cbn [seq subsets].
  - split.
    + intros [<-|[]]. split; constructor.
    + intros [_ H]. destruct k as [|j k]; [left; auto|]. inversion H; lia.
  - rewrite in_app_iff, in_map_iff. split.
    + intros [(k' & <- & H)|H]; apply IH in H; destruct H as [H1 H2].
      * split; constructor; auto; try lia.
        -- rewrite Forall_forall in H2. apply Forall_forall. intros j Hj. specialize (H2 _ Hj). lia.
        -- eapply Forall_impl; [|exact H2]. cbn. intros; lia.
      * split; auto. eapply Forall_impl; [|exact H2]. cbn. intros; lia.
    + intros [H1 H2]. destruct k as [|j k].
      * right. apply IH. split; constructor.
      * inversion H1 as [|? ? H3 H4]; subst. inversion H2 as [|? ? H5 H6]; subst. rewrite Forall_forall in H4, H6.
        destruct (Nat.eq_dec j s) as [->|Hj].
        -- left. exists k. split; auto. apply IH. split; auto. apply Forall_forall. intros i Hi. specialize (H4 _ Hi). specialize (H6 _ Hi). lia.
        -- right. apply IH. split; auto. constructor; [lia|]. apply Forall_forall. intros i Hi. specialize (H4 _ Hi). specialize (H6 _ Hi). lia.
Qed.

Lemma pool_bound n K : clause_pool n K -> length K <= 2 ^ n.
Proof.
  intros (_ & ND & HI & HO). rewrite <- (seq_length n 0) at 1. rewrite <- subsets_length. apply NoDup_incl_length; auto.
  intros k Hk. rewrite Forall_forall in HI, HO. apply subsets_In. split; auto. eapply Forall_impl; [|apply HO; auto]. cbn. intros; lia.
Qed.

(** Sorting a clause and dropping repetitions. *)
Definition normal (n : nat) (k : clause) : clause := filter (fun j => memb j k) (seq 0 n).
Lemma normal_In n k j : clause_over n k -> In j (normal n k) <-> In j k.
Proof.
  intros H. unfold normal. rewrite filter_In, in_seq, memb_In. unfold clause_over in H. rewrite Forall_forall in H.
  split; [tauto|]. intros Hj. specialize (H _ Hj). split; auto. lia.
Qed.
Lemma normal_increasing n k : increasing (normal n k).
Proof. apply filter_increasing. Qed.
Lemma normal_over n k : clause_over n (normal n k).
Proof. apply Forall_forall. intros j Hj. unfold normal in Hj. apply filter_In in Hj. destruct Hj as [Hj _]. apply in_seq in Hj. lia. Qed.
Lemma normal_length n k : clause_over n k -> length (normal n k) <= length k.
Proof.
  intros H. apply NoDup_incl_length; [apply increasing_NoDup, normal_increasing|]. intros j Hj. apply normal_In in Hj; auto.
Qed.
Lemma normal_accepts n k r : clause_over n k -> accepts r (normal n k) = accepts r k.
Proof.
  intros H. apply Bool.eq_iff_eq_true. rewrite !accepts_In. split; intros HA j Hj; apply HA; [apply (normal_In n); auto|apply (normal_In n k) in Hj; auto].
Qed.
Lemma normal_cost n X y lam mu k : (0 <= lam)%Q -> clause_over n k ->
  (clause_cost X y lam mu (normal n k) <= clause_cost X y lam mu k)%Q.
Proof.
  intros Hl Hk. unfold clause_cost.
  assert (E1 : (qsum (fun rm => if accepts (fst rm) (normal n k) then snd rm else 0) (combine (positives X y) mu)
               == qsum (fun rm => if accepts (fst rm) k then snd rm else 0) (combine (positives X y) mu))%Q).
  { apply qsum_ext. intros rm _. rewrite normal_accepts by auto. reflexivity. }
  assert (E2 : false_positives X y (normal n k) = false_positives X y k).
  { unfold false_positives. f_equal. apply filter_ext. intros r. apply normal_accepts. auto. }
  rewrite E1, E2. assert (qn (complexity (normal n k)) <= qn (complexity k))%Q.
  { apply qn_le. unfold complexity. pose proof (normal_length n k Hk). lia. }
  assert (lam * qn (complexity (normal n k)) <= lam * qn (complexity k))%Q.
  { rewrite (Qmult_comm lam), (Qmult_comm lam). apply Qmult_le_compat_r; auto. }
  lra.
Qed.
Lemma clause_cost_lam X y lam lam' mu k : (lam == lam')%Q -> (clause_cost X y lam mu k == clause_cost X y lam' mu k)%Q.
Proof. intros E. unfold clause_cost. rewrite E. reflexivity. Qed.

Lemma nth_error_In_ex {A} (a : A) l : In a l -> exists i, nth_error l i = Some a.
Proof. apply In_nth_error. Qed.

Section Data.
Variables (n : nat) (X : matrix) (y : list nat).
Hypothesis HD : dataset n X y.
Variables (sv : solvers) (P : bparams) (clk : nat -> Q).
Notation np := (length (positives X y)).
Notation C := (bp_C P).
Notation p := (bp_p P).
Notation E := (bdr_env sv P clk X y).
Variable tau : Q.
Hypothesis Ht : (tau <= eps)%Q.
Hypothesis HL : near_rmp n X y C p tau (sv_lp sv).
Hypothesis HP : complete_pricing n X y C (sv_pricing sv).
Hypothesis HI : complete_ip n X y C p (sv_ip sv).

Definition holds (K : list clause) (w : bworld) : Prop :=
  master_inv X y C p K (bw_master w) /\ clause_pool n K /\ sub_inv n X y C (bw_sub w).

Definition exact_level : nat := match bp_heuristic P with None => 0 | Some _ => 1 end.
Definition priced_out (g lam : Q) (mu : list Q) : Prop :=
  forall k, increasing k -> clause_over n k -> (Z.of_nat (length k) <= C)%Z -> (- (eps + g) <= clause_cost X y lam mu k)%Q.

Definition J0 (b : nat) (w : bworld) : Prop := exists K, holds K w /\ 2 ^ n <= b + length K.
Definition J1 (b : nat) (d : Q * list Q) (done : list (nat * nat)) (w : bworld) : Prop :=
  exists K t pi, holds K w /\ 2 ^ n <= b + length K /\ sv_lp sv t (bm_lp (bw_master w)) = (bw_last w, pi)
    /\ fst d = Qabs (pi O) /\ snd d = mus X y pi
    /\ (forall g, near_pricing n X y C g (sv_pricing sv) -> In (exact_level, 0) done -> priced_out g (fst d) (snd d)).
Definition fresh (K : list clause) (k : clause) : Prop := increasing k /\ clause_over n k /\ k <> [] /\ ~ In k K.
Definition J2 (b : nat) (d : Q * list Q) (done : list (nat * nat)) (li : nat * nat) (u : bool) (cols : list clause) (w : bworld) : Prop :=
  exists K, holds K w /\ Forall (fresh K) cols /\ NoDup cols
    /\ (if u then 2 ^ n < b + length K else 2 ^ n <= b + length K /\ (cols = [] -> J1 b d (done ++ [li]) w)).
(** The explanation comes from a feasible (optimal) integer solution of the final master. *)
Definition explained (w : bworld) : Prop :=
  exists K x, holds K w /\ ip_feasible (problem1 X y C p K) x /\ (forall g, near_ip n X y C p g (sv_ip sv) -> near_optimal (problem1 X y C p K) x g)
    /\ bm_explanation (bw_master w) = Some (chosen X y K x).

Lemma solve_rmp_ok K s duals : master_inv X y C p K s -> solve_rmp duals s = Ok (Qabs (duals O), mus X y duals).
Proof.
  intros I. unfold solve_rmp. rewrite (mi_gen _ _ _ _ _ _ I). cbn [assert bind].
  rewrite (same_num_cons _ _ (mi_lp _ _ _ _ _ _ I)), problem1_num_cons, (mi_cs _ _ _ _ _ _ I), (mi_cc _ _ _ _ _ _ I).
  replace (S np - 1) with np by lia.
  assert (G : forall l, (forall i, In i l -> i < np) ->
    map_res (fun i => let* c := getitem (seq 1 np) i in Ok (duals c)) l = Ok (map (fun i => duals (S i)) l)).
  { induction l as [|i l IH]; intros H; cbn [map_res map]; auto. rewrite getitem_seq by (apply H; left; auto). cbn [bind].
    rewrite IH by (intros; apply H; right; auto). reflexivity. }
  rewrite G by (intros i Hi; apply in_seq in Hi; lia). reflexivity.
Qed.

Lemma Qabs_neg q : (q <= 0 -> Qabs q == - q)%Q.
Proof. apply Qabs_neg. Qed.

Lemma reported_near K t w x pi : holds K w -> sv_lp sv t (bm_lp (bw_master w)) = (x, pi) -> near_dual (problem1 X y C p K) pi tau.
Proof.
  intros (I & PK & _) Et. destruct (HL t _ K PK (mi_lp _ _ _ _ _ _ I)) as [ND _]. rewrite Et in ND. eapply same_near; [apply (mi_lp _ _ _ _ _ _ I)|exact ND].
Qed.
Lemma row_signs K t w x pi i : master_inv X y C p K (bw_master w) -> clause_pool n K -> sv_lp sv t (bm_lp (bw_master w)) = (x, pi) -> i < np -> (0 <= pi (S i))%Q.
Proof.
  intros I PK Et Hi. destruct (HL t _ K PK (mi_lp _ _ _ _ _ _ I)) as [_ HS]. rewrite Et in HS. apply HS.
  rewrite (same_num_cons _ _ (mi_lp _ _ _ _ _ _ I)), problem1_num_cons. lia.
Qed.
Lemma J1_signs b d done w : J1 b d done w -> (0 <= fst d)%Q /\ Forall (fun m => 0 <= m)%Q (snd d) /\ length (snd d) = np.
Proof.
  intros (K & t & pi & (I & PK & _) & _ & Et & -> & -> & _). split; [apply Qabs_nonneg|].
  unfold mus. rewrite map_length, seq_length. split; auto. apply Forall_forall. intros m Hm. apply in_map_iff in Hm.
  destruct Hm as (i & <- & Hi). apply in_seq in Hi. eapply row_signs; eauto. lia.
Qed.

(** Clauses of the master never price out. *)
Lemma clause_cost_le lam lam' mu k : (lam <= lam')%Q -> (clause_cost X y lam mu k <= clause_cost X y lam' mu k)%Q.
Proof.
  intros Hl. unfold clause_cost. assert (0 <= qn (complexity k))%Q by (unfold qn; change 0%Q with (inject_Z 0); rewrite <- Zle_Qle; lia).
  pose proof (Qmult_le_compat_r _ _ _ Hl H). lra.
Qed.
Lemma pool_cost K t w x pi lam mu k : holds K w -> sv_lp sv t (bm_lp (bw_master w)) = (x, pi) -> lam = Qabs (pi O) -> mu = mus X y pi -> In k K ->
  (- eps <= clause_cost X y lam mu k)%Q.
Proof.
  intros HK Et -> -> Hk. destruct (near_signs _ _ _ _ _ _ _ (reported_near _ _ _ _ _ HK Et)) as (_ & _ & S3). apply In_nth_error in Hk. destruct Hk as [i Hi].
  specialize (S3 _ _ Hi). pose proof (clause_cost_le (- pi O) (Qabs (pi O)) (mus X y pi) k) as H.
  assert (- pi O <= Qabs (pi O))%Q. { rewrite <- Qabs_opp. apply Qle_Qabs. }
  specialize (H H0). lra.
Qed.

Lemma eps_pos : (0 < eps)%Q. Proof. reflexivity. Qed.

Lemma Hsolve b w : J0 b w -> exists d w', c_solve_rmp E w = Ok (d, w') /\ J1 b d [] w'.
Proof.
  intros (K & (I & PK & SI) & Hb). cbn. unfold bdr_solve_rmp.
  destruct (sv_lp sv (bw_calls w) (bm_lp (bw_master w))) as [x pi] eqn:Ex. rewrite (solve_rmp_ok K _ _ I). cbn [bind].
  eexists _, _. split; [reflexivity|]. exists K, (bw_calls w), pi. cbn. split; [split; auto|]. split; auto. split; auto.
  split; auto. split; auto. intros g _ [].
Qed.

Lemma in_app_last {A} (x : A) l a : In x (l ++ [a]) -> In x l \/ x = a.
Proof. rewrite in_app_iff. cbn. intuition. Qed.

Lemma bdr_exact_ok b d done li w : J1 b d done w ->
  exists cols w', bdr_exact sv X y d w = Ok (cols, w') /\ J2 b d done li false cols w'.
Proof.
  intros HJ. destruct (J1_signs _ _ _ _ HJ) as (Hl & Hm & Hn). destruct HJ as (K & t & pi & (I & PK & SI) & Hb & KK & E1 & E2 & Hd).
  unfold bdr_exact. destruct d as [lam mu]. cbn [fst snd] in *.
  destruct (sub_generate_ok n X y HD C lam mu (bw_sub w) (sv_pricing sv (bw_calls w)) SI Hl Hm Hn) as (s1 & SI1 & _ & _ & SL & ->).
  destruct (HP (bw_calls w) (bs_lp s1) lam mu Hl Hm Hn SL) as (x & Ex & Fx). rewrite Ex.
  apply (same_ip_feasible _ _ _ SL) in Fx. pose proof (same_objective _ _ x SL) as EO.
  pose proof (feasible_lower n X y HD C lam mu Hn x Hm Fx) as LB.
  destruct (Qle_bool (- eps) (objective_value (bs_lp s1) x)) eqn:B.
  - apply Qle_bool_iff in B. cbn [bind]. eexists _, _. split; [reflexivity|]. exists K. cbn. split; [split; auto|].
    split; [constructor|]. split; [constructor|]. split; auto. intros _. exists K, t, pi. cbn. split; [split; auto|]. split; auto. split; auto.
    split; auto. split; auto. intros g HX _ k Hi Ho Hlen. destruct (HX (bw_calls w) (bs_lp s1) lam mu Hl Hm Hn SL) as (x' & Ex' & _ & Op).
    rewrite Ex in Ex'. injection Ex' as <-.
    assert (Fk : ip_feasible (bs_lp s1) (clause_point n X k)).
    { eapply same_ip_feasible; [apply same_lp_sym; exact SL|]. apply (clause_point_feasible n X y HD C lam mu Hn); auto. }
    specialize (Op _ Fk). destruct SL as (SL1 & SL2 & SL3 & SL4 & SL5). rewrite SL4 in Op. cbn in Op.
    assert (ED : (objective_value (bs_lp s1) (clause_point n X k) == clause_cost X y lam mu k)%Q).
    { rewrite (same_objective _ (problem2 n X y C lam mu)) by (split; auto). apply clause_point_objective; auto. }
    rewrite ED in Op. lra.
  - apply Qle_bool_false in B. cbn [bind]. eexists _, _. split; [reflexivity|]. exists K. cbn. split; [split; auto|].
    assert (Hneg : (clause_cost X y lam mu (selected n x) < - eps)%Q) by (rewrite EO in B; eapply Qle_lt_trans; [exact LB|exact B]).
    assert (Hnew : ~ In (selected n x) K).
    { intros Hin. pose proof (pool_cost K t w _ _ _ _ _ (conj I (conj PK SI)) KK E1 E2 Hin). lra. }
    split; [|split; [constructor; [intros []|constructor]|split; [auto|discriminate]]].
    constructor; [|constructor]. split; [apply selected_increasing|]. split; [apply selected_over|]. split; auto.
    intros E0. rewrite E0 in Hnew. apply Hnew. apply PK.
Qed.

Lemma heuristic_fresh b d done li K0 w : J1 b d done w -> li <> (exact_level, 0) ->
  exists cols, heuristic_generate_columns K0 X y d = Ok cols /\ J2 b d done li false cols w.
Proof.
  intros HJ Hli. pose proof HJ as HJ'. destruct (J1_signs _ _ _ _ HJ) as (Hl & Hm & Hn).
  destruct HJ as (K & t & pi & HK & Hb & KK & E1 & E2 & Hd). destruct d as [lam mu]. cbn [fst snd] in *.
  rewrite (heuristic_ok n X y HD K0 lam mu Hl Hm Hn). eexists. split; [reflexivity|]. exists K. split; auto. split.
  - apply Forall_forall. intros k Hk. apply filter_In in Hk. destruct Hk as [Hk Hc]. apply candidates_In in Hk.
    destruct Hk as (Hi & Ho & Hlen). apply Qltb_true in Hc. split; auto. split; auto. split; [intros ->; cbn in Hlen; lia|].
    intros Hin. pose proof (pool_cost _ _ _ _ _ _ _ _ HK KK E1 E2 Hin). lra.
  - split; [apply NoDup_filter; eapply sorted_NoDup; [|apply candidates_sorted]; intros a [H|[_ H]]; [lia|eapply lex_irrefl; eauto]|].
    split; auto. intros _. exists K, t, pi. split; auto. split; auto. split; auto. split; auto. split; auto.
    intros g HX Hin. apply in_app_last in Hin. destruct Hin as [Hin|Hin]; [|congruence]. auto.
Qed.

Lemma Hgen b l i d done w : exists_sub E l i -> J1 b d done w ->
  exists cols w', c_generate E l i d w = Ok (cols, w') /\ J2 b d done (l, i) false cols w'.
Proof.
  intros (k & Hk & Hi) HJ. cbn in Hk |- *. unfold bdr_generate. pose proof (fun K0 li => heuristic_fresh b d done li K0 w HJ) as HF.
  unfold exact_level in *. destruct (bp_heuristic P) as [K0|] eqn:EH.
  - destruct (Nat.eqb_spec l 0) as [->|Hl].
    + destruct (HF K0 (0, i)) as (cols & -> & H2); [congruence|]. exists cols, w. auto.
    + destruct (bdr_exact_ok b d done (l, i) w HJ) as (cols & w' & E1 & H2). exists cols, w'. auto.
  - destruct (bdr_exact_ok b d done (l, i) w HJ) as (cols & w' & E1 & H2). exists cols, w'. auto.
Qed.

Lemma Hadd b d done li u c cols w : J2 b d done li u (c :: cols) w ->
  exists r w', c_add E c w = Ok (r, w') /\ J2 b d done li (u || r) cols w'.
Proof.
  intros (K & (I & PK & SI) & HF & ND & Hu). inversion HF as [|? ? (Fi & Fo & Fe & Fn) HF']; subst. inversion ND as [|? ? Hc ND']; subst.
  cbn. unfold bdr_add. destruct (add_column_ok n X y HD C p K c (bw_master w) I Fo Fe Fn) as (m & -> & I' & _).
  eexists _, _. split; [reflexivity|]. rewrite Bool.orb_true_r. exists (K ++ [c]). split; [|split; [|split]]; auto.
  - split; auto. cbn. split; auto. destruct PK as (P1 & P2 & P3 & P4). split; [apply in_or_app; auto|]. split; [apply NoDup_snoc; auto|].
    split; apply Forall_app; auto.
  - rewrite Forall_forall in HF' |- *. intros k Hk. destruct (HF' _ Hk) as (Gi & Go & Ge & Gn). split; auto. split; auto. split; auto.
    rewrite in_app_iff. cbn. intros [?|[->|[]]]; auto.
  - rewrite app_length. cbn. destruct u; [lia|]. destruct Hu as [Hu _]. lia.
Qed.

Lemma H2t b d done li w : J2 b d done li true [] w -> exists b', b = S b' /\ J0 b' w.
Proof.
  intros (K & HK & _ & _ & Hu). pose proof HK as (_ & PK & _). pose proof (pool_bound n K PK). destruct b as [|b]; [lia|].
  exists b. split; auto. exists K. split; auto. lia.
Qed.
Lemma H2f b d done li w : J2 b d done li false [] w -> J1 b d (done ++ [li]) w.
Proof. intros (K & _ & _ & _ & _ & H). auto. Qed.
Lemma H10 b d done w : J1 b d done w -> J0 b w.
Proof. intros (K & t & pi & HK & Hb & _). exists K. auto. Qed.

Lemma with_explanation_inv K s e : master_inv X y C p K s -> master_inv X y C p K (with_explanation s e).
Proof. intros I. constructor; cbn; apply I. Qed.

Lemma Hip b w : J0 b w -> exists w', c_solve_ip E w = Ok (true, w') /\ J0 b w' /\ explained w'
  /\ forall d done, J1 b d done w -> J1 b d done w'.
Proof.
  intros (K & (I & PK & SI) & Hb). cbn. unfold bdr_solve_ip. pose proof (mi_lp _ _ _ _ _ _ I) as SL.
  destruct (HI (bw_calls w) _ K PK SL) as (x & Ex & Fx). rewrite Ex.
  rewrite (solve_ip_ok X y C p K _ x I). eexists. split; [reflexivity|].
  pose proof (with_explanation_inv K _ (chosen X y K x) I) as I'.
  split; [exists K; split; [split; auto|auto]|]. split.
  - exists K, x. split; [split; auto|]. split; [eapply same_ip_feasible; eauto|]. split; auto.
    intros g HX. destruct (HX (bw_calls w) _ K PK SL) as (x' & Ex' & _ & Op). rewrite Ex in Ex'. injection Ex' as <-.
    split; [eapply same_ip_feasible; eauto|]. intros x' Fx'. specialize (Op x' (same_ip_feasible _ _ _ (same_lp_sym _ _ SL) Fx')).
    pose proof SL as (_ & _ & _ & S4 & _). rewrite S4 in Op. cbn [problem1 lp_max] in Op |- *.
    rewrite (same_objective _ _ x SL), (same_objective _ _ x' SL) in Op. exact Op.
  - intros d done (K' & t & pi & (J1' & J2' & J3') & Hb' & HR). exists K', t, pi. split; [|split; auto]. split; [apply with_explanation_inv; auto|auto].
Qed.

Lemma all_levels : In (exact_level, 0) (all_subproblems (levels E)).
Proof. unfold exact_level. cbn. destruct (bp_heuristic P); cbn; auto. Qed.

(** Price all clauses, not only sorted ones. *)
Lemma priced_out_all g lam mu k : (0 <= lam)%Q -> priced_out g lam mu -> clause_over n k -> (Z.of_nat (length k) <= C)%Z ->
  (- (eps + g) <= clause_cost X y lam mu k)%Q.
Proof.
  intros Hl H Hk Hlen. eapply Qle_trans; [|apply normal_cost; eauto]. apply H; [apply normal_increasing|apply normal_over|].
  pose proof (normal_length n k Hk). lia.
Qed.

Lemma bdr_fit_ok fuel : 1 < distinct_labels (map Z.of_nat y) -> 2 ^ n <= fuel ->
  exists s', bdr_fit sv P clk X y fuel (new_estimator (bdr_init P)) = (s', Done tt) /\ explained (f_world s')
    /\ (f_optimal s' = true -> exists b d, J1 b d (all_subproblems (levels E)) (f_world s')).
Proof.
  intros Hy Hf. unfold bdr_fit. destruct (generate_mp_ok n X y HD C p) as (m & EG & I & _).
  destruct (fit_total E J0 (fun b d _ => J1 b d []) J1 J2 explained) with (k := 2 ^ n - 1) (fuel := fuel) (y := map Z.of_nat y)
    (s := @new_estimator bworld (Q * list Q) clause (bdr_init P)) (w := mkBworld m (submip_init C) 0 (fun _ => 0%Q)) as (s' & E1 & _ & E2 & E3).
  - apply Hsolve.
  - intros. cbn. eauto.
  - intros. cbn. auto.
  - intros. cbn. eauto.
  - auto.
  - intros. apply Hgen; auto.
  - intros. apply Hadd; auto.
  - apply H2t.
  - apply H2f.
  - apply H10.
  - intros _. apply Hip.
  - auto.
  - cbn [f_world new_estimator c_generate_mp bdr_env]. unfold bdr_generate_mp, bdr_init. cbn [bw_master bw_sub bw_calls bw_last]. rewrite EG. reflexivity.
  - exists [[]]. split.
    + split; auto. split; [|left; auto]. split; [left; auto|]. split; [constructor; [intros []|constructor]|].
      split; repeat constructor.
    + cbn. lia.
  - assert (2 ^ n <> 0) by (apply Nat.pow_nonzero; lia). lia.
  - exists s'. auto.
Qed.

(** Optimality certificate. *)
Lemma bdr_certificate g s' b d : (0 <= p)%Q -> (0 <= tau)%Q -> (0 <= g)%Q -> near_pricing n X y C g (sv_pricing sv) ->
  J1 b d (all_subproblems (levels E)) (f_world (s' : fstate bworld (Q * list Q) clause)) ->
  let m := bm_lp (bw_master (f_world s')) in
  exists t, fst (sv_lp sv t m) = bw_last (f_world s') /\
  forall xi K', p1_feasible X y C xi K' -> (forall k w, In (k, w) K' -> clause_over n k /\ (Z.of_nat (length k) <= C)%Z) ->
  (dual_value m (snd (sv_lp sv t m)) - (eps + g + tau) * inject_Z C - tau * qn np <= p1_objective X y p xi K')%Q.
Proof.
  intros Hp Ht0 Hg HX HJ m. destruct (J1_signs _ _ _ _ HJ) as (Hl & _). destruct HJ as (K & t & pi & HK0 & _ & Et & E1 & E2 & Hd).
  exists t. fold m in Et. rewrite Et. cbn [fst snd]. split; auto. intros xi K' F HK.
  pose proof HK0 as (I & PK & _). unfold m. rewrite (same_dual_value _ _ pi (mi_lp _ _ _ _ _ _ I)).
  apply (near_certificate X y C p K pi tau (eps + g) xi K'); auto.
  - eapply reported_near; eauto.
  - intros i Hi. eapply row_signs; eauto.
  - pose proof eps_pos. lra.
  - intros k w Hk. destruct (HK _ _ Hk). rewrite <- E2, <- E1. apply priced_out_all; auto.
    apply Hd; auto. apply all_levels.
Qed.
End Data.

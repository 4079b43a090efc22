(** Weak duality for duals with the right signs; the exact optimum as the special case. *)
From Verif Require Import Base Lp LpProofs SpecDual.
Open Scope Q_scope.

Lemma pushes_near max q lb ub v : pushes max q lb ub v -> near_sign max q lb ub 0.
Proof.
  intros [H1 H2]. split; intros E; apply Qnot_lt_le; intros H.
  - destruct H1 as (b & Eb & _); auto. congruence.
  - destruct H2 as (b & Eb & _); [destruct max; lra|congruence].
Qed.
Lemma kkt_near m x pi : lp_kkt m x pi -> near_dual m pi 0.
Proof. intros (_ & KV & KC). split; intros; eapply pushes_near; eauto. Qed.
Lemma near_weaken m pi tau tau' : tau <= tau' -> near_dual m pi tau -> near_dual m pi tau'.
Proof. intros H [A B]. split; intros i a Hi; [destruct (A i a Hi) as [P1 P2]|destruct (B i a Hi) as [P1 P2]]; split; intros E; [specialize (P1 E)|specialize (P2 E)|specialize (P1 E)|specialize (P2 E)]; lra. Qed.

Lemma pushes_bound max q lb ub v : pushes max q lb ub v -> q * v == q * bound_of max q lb ub.
Proof.
  intros [H1 H2]. unfold bound_of. destruct (Qltb 0 (if max then - q else q)) eqn:E.
  - apply Qltb_true in E. destruct (H1 E) as (b & -> & ->). reflexivity.
  - apply Qltb_false in E. destruct (Qlt_le_dec (if max then - q else q) 0) as [H|H].
    + destruct (H2 H) as (b & -> & ->). reflexivity.
    + assert (Z : q == 0) by (destruct max; lra). rewrite Z. lra.
Qed.
Lemma vars_indexed m (f : nat -> Q) : qsum f (seq 0 (num_vars m)) == qsum (fun jv => f (fst jv)) (combine (seq 0 (num_vars m)) (lp_vars m)).
Proof.
  unfold num_vars. generalize 0%nat. induction (lp_vars m) as [|v l IH]; intros n; [reflexivity|]. cbn [length seq combine]. rewrite !qsum_cons, IH. reflexivity.
Qed.

(** At an exact optimum the dual objective is the objective. *)
Lemma kkt_dual_value m x pi : lp_kkt m x pi -> objective_value m x == dual_value m pi.
Proof.
  intros (_ & KV & KC). rewrite (lagrangian m pi x). unfold dual_value, linear.
  apply Qplus_comp; [|reflexivity]. apply Qplus_comp.
  - rewrite vars_indexed. apply qsum_ext. intros [j v] Hj. apply in_combine_seq in Hj. rewrite Nat.sub_0_r in Hj. cbn [fst snd].
    eapply pushes_bound. apply KV. apply Hj.
  - apply qsum_ext. intros [c k] Hc. apply in_combine_seq in Hc. rewrite Nat.sub_0_r in Hc. cbn [fst snd]. eapply pushes_bound. apply KC. apply Hc.
Qed.

Lemma near_bound max q lb ub v : near_sign max q lb ub 0 -> in_bounds lb ub v ->
  0 <= (if max then - q else q) * (v - bound_of max q lb ub).
Proof.
  intros [N1 N2] [B1 B2]. unfold bound_of. set (q' := if max then - q else q) in *. destruct (Qltb 0 q') eqn:E.
  - apply Qltb_true in E. destruct lb as [b|]; [|specialize (N1 eq_refl); lra]. specialize (B1 _ eq_refl). apply Qmult_le_0_compat; lra.
  - apply Qltb_false in E. destruct ub as [b|].
    + specialize (B2 _ eq_refl). setoid_replace (q' * (v - b)) with ((- q') * (b - v)) by ring. apply Qmult_le_0_compat; lra.
    + specialize (N2 eq_refl). assert (Z : q' == 0) by lra. rewrite Z. lra.
Qed.
(** Duals with the right signs bound every feasible solution: no solution is better than their dual objective. *)
Theorem dual_value_bounds m pi x : near_dual m pi 0 -> lp_feasible m x -> as_good m (dual_value m pi) (objective_value m x).
Proof.
  intros [NV NC] [FV FC]. pose proof (lagrangian m pi x) as L.
  assert (E1 : 0 <= qsum (fun jv => (if lp_max m then - reduced_cost m pi (fst jv) else reduced_cost m pi (fst jv)) *
      (x (fst jv) - bound_of (lp_max m) (reduced_cost m pi (fst jv)) (v_lb (snd jv)) (v_ub (snd jv)))) (combine (seq 0 (num_vars m)) (lp_vars m))).
  { apply qsum_nonneg. intros [j v] Hj. apply in_combine_seq in Hj. rewrite Nat.sub_0_r in Hj. destruct Hj as [_ Hj]. cbn [fst snd].
    apply near_bound; [exact (NV j v Hj)|exact (FV j v Hj)]. }
  assert (E2 : 0 <= qsum (fun ck => (if lp_max m then - pi (fst ck) else pi (fst ck)) *
      (activity m (snd ck) x - bound_of (lp_max m) (pi (fst ck)) (c_lb (snd ck)) (c_ub (snd ck)))) (combine (seq 0 (num_cons m)) (lp_cons m))).
  { apply qsum_nonneg. intros [c k] Hc. apply in_combine_seq in Hc. rewrite Nat.sub_0_r in Hc. destruct Hc as [_ Hc]. cbn [fst snd].
    apply near_bound; [exact (NC c k Hc)|exact (FC c k Hc)]. }
  unfold linear in L. rewrite vars_indexed in L. unfold dual_value, as_good.
  set (fv := fun jv : nat * lpvar => reduced_cost m pi (fst jv) * x (fst jv)) in *.
  set (gv := fun jv : nat * lpvar => reduced_cost m pi (fst jv) * bound_of (lp_max m) (reduced_cost m pi (fst jv)) (v_lb (snd jv)) (v_ub (snd jv))) in *.
  set (fc := fun ck : nat * lpcon => pi (fst ck) * activity m (snd ck) x) in *.
  set (gc := fun ck : nat * lpcon => pi (fst ck) * bound_of (lp_max m) (pi (fst ck)) (c_lb (snd ck)) (c_ub (snd ck))) in *.
  assert (D1 : 0 <= (if lp_max m then -(1) else 1) * (qsum fv (combine (seq 0 (num_vars m)) (lp_vars m)) - qsum gv (combine (seq 0 (num_vars m)) (lp_vars m)))).
  { rewrite <- qsum_minus, <- qsum_scale. eapply Qle_trans; [exact E1|]. apply Qle_lteq. right. apply qsum_ext. intros jv _. unfold fv, gv. destruct (lp_max m); ring. }
  assert (D2 : 0 <= (if lp_max m then -(1) else 1) * (qsum fc (combine (seq 0 (num_cons m)) (lp_cons m)) - qsum gc (combine (seq 0 (num_cons m)) (lp_cons m)))).
  { rewrite <- qsum_minus, <- qsum_scale. eapply Qle_trans; [exact E2|]. apply Qle_lteq. right. apply qsum_ext. intros jv _. unfold fc, gc. destruct (lp_max m); ring. }
  destruct (lp_max m); lra.
Qed.

(** Exact integer solutions are the special case of near optimal ones. *)
Lemma optimal_near m x : ip_optimal m x -> near_optimal m x 0.
Proof. intros [F O]. split; auto. intros x' F'. specialize (O x' F'). unfold as_good in O. destruct (lp_max m); lra. Qed.
Lemma near_optimal_exact m x : near_optimal m x 0 -> ip_optimal m x.
Proof. intros [F O]. split; auto. intros x' F'. specialize (O x' F'). unfold as_good. destruct (lp_max m); lra. Qed.

(** The same problem has the same duals. *)
Lemma near_sign_eq max q q' lb ub tau : q == q' -> near_sign max q lb ub tau -> near_sign max q' lb ub tau.
Proof. intros Eq [H1 H2]. split; intros H; [specialize (H1 H)|specialize (H2 H)]; destruct max; lra. Qed.
Lemma same_near m m' pi tau : same_lp m m' -> near_dual m pi tau -> near_dual m' pi tau.
Proof.
  intros SL [NV NC]. pose proof SL as (A & _ & _ & D & _). split.
  - intros j v Hv. rewrite <- A in Hv. rewrite <- D. eapply near_sign_eq; [apply same_reduced_cost; eauto|exact (NV j v Hv)].
  - intros c k' Hk. pose proof (same_lp_sym _ _ SL) as (_ & _ & _ & _ & E'). destruct (Forall2_nth_error _ _ _ _ _ E' Hk) as (k & Hk' & B1 & B2 & _).
    rewrite <- D, B1, B2. exact (NC c k Hk').
Qed.
Lemma bound_of_eq max q q' lb ub : q == q' -> bound_of max q lb ub = bound_of max q' lb ub.
Proof.
  intros Eq. unfold bound_of. assert (Qltb 0 (if max then - q else q) = Qltb 0 (if max then - q' else q')) as ->; [|reflexivity].
  apply Bool.eq_iff_eq_true. rewrite !Qltb_true. destruct max; rewrite Eq; reflexivity.
Qed.
Lemma same_dual_value m m' pi : same_lp m m' -> dual_value m pi == dual_value m' pi.
Proof.
  intros SL. pose proof SL as (A & _ & C & D & E). unfold dual_value, num_vars, num_cons. rewrite <- A, <- D, C.
  apply Qplus_comp; [|reflexivity]. apply Qplus_comp.
  - apply qsum_ext. intros jv _. pose proof (same_reduced_cost m m' pi (fst jv) SL) as ER. rewrite (bound_of_eq _ _ _ _ _ ER), ER. reflexivity.
  - generalize 0%nat as s. generalize (lp_max m) as mx. intros mx. clear -E. induction E as [|k k' l l' (B1 & B2 & _) _ IH]; intros s; [reflexivity|].
    cbn [length seq combine]. rewrite !qsum_cons, IH. cbn [fst snd]. rewrite B1, B2. reflexivity.
Qed.

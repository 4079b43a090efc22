(** Rules as points of problem (1), and what a finished fit of the boolean rule classifiers guarantees. *)
From Verif Require Import Base Lp LpProofs FitModel SpecFit FitProofs FitRunProofs FitMainProofs FitHoareProofs.
From Verif Require Import SpecDual DualProofs BdrModel SpecBdr BdrProofs BdrLpProofs BdrPricingProofs BdrSubmipProofs BdrRuleProofs BdrFitModel BdrRunProofs.
From Coq Require Import Sorted.
Open Scope nat_scope.

Lemma Forall2_weaken {A B} (R R' : A -> B -> Prop) l m : (forall a b, R a b -> R' a b) -> Forall2 R l m -> Forall2 R' l m.
Proof. intros H F. induction F; constructor; auto. Qed.

Lemma map_snd_combine {A B} (l : list A) (m : list B) : length l = length m -> map snd (combine l m) = m.
Proof. revert m; induction l as [|a l IH]; intros [|b m] H; try discriminate; auto. cbn. f_equal. apply IH. cbn in H. congruence. Qed.

Section Rule.
Variables (n : nat) (X : matrix) (y : list nat).
Hypothesis HD : dataset n X y.
Variables (C : Z) (p : Q).
Notation np := (length (positives X y)).

Definition missed (rule : list clause) (r : list Q) : Q := if rule_accepts r rule then 0%Q else 1%Q.
Lemma missed_sum rule R : (qsum (fun q => q) (map (missed rule) R) == qn (length (filter (fun r => negb (rule_accepts r rule)) R)))%Q.
Proof.
  induction R as [|r R IH]; [reflexivity|]. cbn [map filter]. rewrite qsum_cons, IH. unfold missed. destruct (rule_accepts r rule); cbn [negb length].
  - lra.
  - unfold qn. rewrite <- (Nat.add_1_l (length _)), inject_nat_plus. reflexivity.
Qed.

Lemma covered_sum rule r : rule_accepts r rule = true -> (1 <= qsum (fun k => if accepts r k then 1 else 0) rule)%Q.
Proof.
  induction rule as [|k rule IH]; [discriminate|]. intros H. rewrite qsum_cons. cbn [rule_accepts existsb] in H.
  assert (0 <= qsum (fun k => if accepts r k then 1 else 0) rule)%Q by (apply qsum_nonneg; intros a _; destruct (accepts r a); lra).
  destruct (accepts r k); [lra|]. cbn [orb] in H. specialize (IH H). lra.
Qed.

Lemma rule_p1_feasible rule : (Z.of_nat (nsum complexity rule) <= C)%Z ->
  p1_feasible X y C (map (missed rule) (positives X y)) (map (fun k => (k, 1%Q)) rule)
  /\ (p1_objective X y p (map (missed rule) (positives X y)) (map (fun k => (k, 1%Q)) rule) == rule_cost X y p rule)%Q.
Proof.
  intros HC. split; [split; [|split]|].
  - induction (positives X y) as [|r R IH]; constructor; auto. rewrite qsum_map. cbn [fst snd]. unfold missed.
    destruct (rule_accepts r rule) eqn:A.
    + pose proof (covered_sum _ _ A). split; lra.
    + assert (0 <= qsum (fun k => if accepts r k then 1 else 0) rule)%Q by (apply qsum_nonneg; intros a _; destruct (accepts r a); lra).
      split; lra.
  - apply Forall_forall. intros kw H. apply in_map_iff in H. destruct H as (k & <- & _). cbn. lra.
  - rewrite qsum_map. cbn [fst snd]. rewrite (qsum_ext _ (fun k => qn (complexity k))) by (intros; lra).
    unfold qn. rewrite <- inject_nsum. rewrite <- Zle_Qle. auto.
  - unfold p1_objective, rule_cost. rewrite missed_sum, qsum_map. cbn [fst snd].
    rewrite (qsum_ext _ (fun k => qn (false_positives X y k))) by (intros; lra).
    unfold qn. rewrite <- inject_nsum. reflexivity.
Qed.

(** The point of the restricted master that takes exactly the clauses of [rule]. *)
Definition rule_point (K rule : list clause) (j : nat) : Q :=
  if j <? np then match nth_error (positives X y) j with Some r => missed rule r | None => 0%Q end
  else match nth_error K (j - np) with Some k => if in_dec clause_dec k rule then 1%Q else 0%Q | None => 0%Q end.
Lemma map_seq_nth {A} (f : A -> Q) (g : nat -> Q) l s : (forall i a, nth_error l i = Some a -> g (s + i) = f a) -> map g (seq s (length l)) = map f l.
Proof.
  revert s; induction l as [|a l IH]; intros s H; [reflexivity|]. cbn [length seq map]. f_equal.
  - rewrite <- (Nat.add_0_r s). apply H. reflexivity.
  - apply IH. intros i b Hi. replace (S s + i) with (s + S i) by lia. apply H. auto.
Qed.
Lemma rule_penalties K rule : penalties X y (rule_point K rule) = map (missed rule) (positives X y).
Proof.
  unfold penalties. apply map_seq_nth. intros i a Hi. cbn [Nat.add]. unfold rule_point.
  assert (i < np) by (apply nth_error_Some; congruence). destruct (Nat.ltb_spec i np); [|lia]. rewrite Hi. reflexivity.
Qed.
Lemma combine_map_r {A B} (f : A -> B) l : combine l (map f l) = map (fun a => (a, f a)) l.
Proof. induction l; cbn; congruence. Qed.
Lemma rule_weights K rule : weights X y K (rule_point K rule) = map (fun k => (k, if in_dec clause_dec k rule then 1%Q else 0%Q)) K.
Proof.
  unfold weights. rewrite (map_seq_nth (fun k : clause => if in_dec clause_dec k rule then 1%Q else 0%Q)).
  - apply combine_map_r.
  - intros i a Hi. unfold rule_point. destruct (Nat.ltb_spec (np + i) np); [lia|]. replace (np + i - np) with i by lia. rewrite Hi. reflexivity.
Qed.
Lemma weights_rule_sum (f : clause -> Q) K rule : NoDup K -> NoDup rule -> incl rule K ->
  (qsum (fun k => f k * (if in_dec clause_dec k rule then 1 else 0)) K == qsum f rule)%Q.
Proof.
  intros NK NR IR.
  rewrite (qsum_ext _ (fun k => if (if in_dec clause_dec k rule then true else false) then f k else 0)%Q)
    by (intros k _; destruct (in_dec clause_dec k rule); lra).
  rewrite <- (qsum_filter f (fun k => if in_dec clause_dec k rule then true else false)). apply qsum_perm. apply NoDup_Permutation; auto.
  - apply NoDup_filter; auto.
  - intros k. rewrite filter_In. destruct (in_dec clause_dec k rule) as [i|i]; [pose proof (IR k)|]; split; try tauto; intros [_ ?]; discriminate.
Qed.
Lemma rule_point_ok K rule : NoDup K -> NoDup rule -> incl rule K -> (Z.of_nat (nsum complexity rule) <= C)%Z ->
  ip_feasible (problem1 X y C p K) (rule_point K rule)
  /\ (objective_value (problem1 X y C p K) (rule_point K rule) == rule_cost X y p rule)%Q.
Proof.
  intros NK NR IR HC. destruct (rule_p1_feasible rule HC) as ((F1 & F2 & F3) & FO). split; [split|].
  - apply p1_feasible_iff. rewrite rule_penalties, rule_weights. split; [|split].
    + eapply Forall2_weaken; [|exact F1]. intros r q [H0 H1]. split; auto. rewrite qsum_map in H1 |- *. cbn [fst snd] in *.
      rewrite (qsum_ext _ (fun k => (if accepts r k then 1 else 0) * (if in_dec clause_dec k rule then 1 else 0))%Q)
        by (intros k _; destruct (accepts r k), (in_dec clause_dec k rule); lra).
      rewrite (weights_rule_sum (fun k => if accepts r k then 1 else 0)%Q) by auto. auto.
    + apply Forall_forall. intros kw H. apply in_map_iff in H. destruct H as (k & <- & _). cbn. destruct (in_dec clause_dec k rule); lra.
    + rewrite qsum_map. cbn [fst snd]. rewrite (weights_rule_sum (fun k => qn (complexity k))) by auto.
      unfold qn. rewrite <- inject_nsum, <- Zle_Qle. auto.
  - intros j v _ _. unfold rule_point. destruct (j <? np).
    + destruct (nth_error (positives X y) j) as [r|]; [|exists 0%Z; reflexivity]. unfold missed.
      destruct (rule_accepts r rule); [exists 0%Z|exists 1%Z]; reflexivity.
    + destruct (nth_error K (j - np)) as [k|]; [|exists 0%Z; reflexivity].
      destruct (in_dec clause_dec k rule); [exists 1%Z|exists 0%Z]; reflexivity.
  - rewrite p1_objective_value, rule_penalties, rule_weights. unfold p1_objective, rule_cost. rewrite missed_sum, qsum_map. cbn [fst snd].
    rewrite (weights_rule_sum (fun k => qn (false_positives X y k))) by auto. unfold qn. rewrite <- inject_nsum. reflexivity.
Qed.
End Rule.

(** Exact solvers are the special case. *)
Lemma exact_near_rmp n X y C p solve : exact_rmp n X y C p solve -> near_rmp n X y C p 0 solve.
Proof.
  intros H t m K PK SL. specialize (H t m K PK SL). split; [eapply kkt_near; eauto|]. intros c [Hc Hc'].
  rewrite (same_num_cons _ _ SL), problem1_num_cons in Hc'. apply (same_kkt _ _ _ _ SL) in H. destruct (kkt_signs _ _ _ _ _ _ _ H) as (_ & S2 & _).
  destruct c as [|i]; [lia|]. apply S2. lia.
Qed.
Lemma exact_near_pricing n X y D solve : exact_pricing n X y D solve -> near_pricing n X y D 0 solve.
Proof. intros H t m lam mu A B C0 D0. destruct (H t m lam mu A B C0 D0) as (x & E & O). exists x. split; auto. apply optimal_near; auto. Qed.
Lemma near_complete_pricing n X y D g solve : near_pricing n X y D g solve -> complete_pricing n X y D solve.
Proof. intros H t m lam mu A B C0 D0. destruct (H t m lam mu A B C0 D0) as (x & E & F & _). eauto. Qed.
Lemma exact_near_ip n X y C p solve : exact_ip n X y C p solve -> near_ip n X y C p 0 solve.
Proof. intros H t m K A B. destruct (H t m K A B) as (x & E & O). exists x. split; auto. apply optimal_near; auto. Qed.
Lemma near_complete_ip n X y C p g solve : near_ip n X y C p g solve -> complete_ip n X y C p solve.
Proof. intros H t m K A B. destruct (H t m K A B) as (x & E & F & _). eauto. Qed.

Lemma labels_distinct y : In 0 y -> In 1 y -> 1 < distinct_labels (map Z.of_nat y).
Proof.
  intros H0 H1. unfold distinct_labels. apply (in_map Z.of_nat) in H0, H1. apply (nodup_In Z.eq_dec) in H0, H1.
  set (l := nodup Z.eq_dec (map Z.of_nat y)) in *. destruct l as [|a [|b l]]; cbn in *; try tauto; try lia.
Qed.

Section Fit.
Variables (n : nat) (X : matrix) (y : list nat).
Hypothesis HD : dataset n X y.
Variables (sv : solvers) (P : bparams) (clk : nat -> Q).
Notation C := (bp_C P).
Notation p := (bp_p P).
Notation E := (bdr_env sv P clk X y).
Variable tau : Q.
Hypothesis Ht : (tau <= eps)%Q.
Hypothesis HL : near_rmp n X y C p tau (sv_lp sv).
Hypothesis HP : complete_pricing n X y C (sv_pricing sv).
Hypothesis HI : complete_ip n X y C p (sv_ip sv).

(** Whatever loop bound a finished run used. *)
Lemma bdr_fit_done fuel s' : bdr_fit sv P clk X y fuel (new_estimator (bdr_init P)) = (s', Done tt) ->
  explained n X y sv P (f_world s') /\ f_iter s' <= 2 ^ n
  /\ (f_optimal s' = true -> exists b d, J1 n X y sv P b d (all_subproblems (levels E)) (f_world s')).
Proof.
  intros H. pose proof H as H'. unfold bdr_fit in H'. apply fit_spec in H'. destruct H' as (Hy & _).
  destruct (bdr_fit_ok n X y HD sv P clk tau Ht HL HP HI (2 ^ n) Hy (le_n _)) as (s2 & E2 & EX & EO).
  assert (s' = s2) as <-.
  { unfold bdr_fit in *. destruct (Nat.le_ge_cases fuel (2 ^ n)) as [L|L].
    - apply (fit_mono E fuel (2 ^ n) (map Z.of_nat y) (new_estimator (bdr_init P))) in L; [congruence|rewrite H; discriminate].
    - apply (fit_mono E (2 ^ n) fuel (map Z.of_nat y) (new_estimator (bdr_init P))) in L; [congruence|rewrite E2; discriminate]. }
  split; auto. split; auto. unfold bdr_fit in E2. eapply fit_iters; eauto.
Qed.
End Fit.

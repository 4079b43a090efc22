(** Lemmas about prediction, clause enumeration, the integer master problem and its feasibility. *)
From Verif Require Import Base Lp LpProofs BdrModel SpecBdr BdrProofs BdrLpProofs BdrPricingProofs BdrSubmipProofs.
From Coq Require Import Sorted NArith Ndigits.
Open Scope nat_scope.
Local Arguments Nat.ltb _ _ : simpl never.
Local Arguments Nat.sub _ _ : simpl never.

Lemma map_nth_error_inv {A B} (f : A -> B) l i b : nth_error (map f l) i = Some b -> exists a, nth_error l i = Some a /\ b = f a.
Proof. rewrite nth_error_map. destruct (nth_error l i); cbn; [|discriminate]. intros H. injection H as <-. eauto. Qed.

(** * predict *)

Lemma any_clause_ok n r rule : length r = n -> Forall (clause_over n) rule ->
  any_clause r rule = Ok (if rule_accepts r rule then 1 else 0).
Proof.
  intros Hr HF. induction HF as [|k rule Hk HF IH]; auto. cbn [any_clause]. rewrite (satisfies_clause_ok n) by auto. cbn [bind].
  unfold rule_accepts. cbn [existsb]. destruct (accepts r k); cbn [Nat.eqb orb]; auto.
Qed.

Lemma predict_ok {L} n (l0 l1 : L) rest rule X : Forall (fun r => length r = n) X -> Forall (clause_over n) rule ->
  predict (l0 :: l1 :: rest) rule X = Ok (map (fun r => if rule_accepts r rule then l1 else l0) X).
Proof.
  intros HX HR. unfold predict.
  rewrite (map_res_ok _ (fun r => if rule_accepts r rule then 1 else 0)).
  - cbn [bind]. rewrite (map_res_ok _ (fun k => if k =? 0 then l0 else l1)).
    + rewrite map_map. f_equal. apply map_ext. intros r. destruct (rule_accepts r rule); auto.
    + intros k Hk. apply in_map_iff in Hk. destruct Hk as (r & <- & _). destruct (rule_accepts r rule); auto.
  - intros r Hr. rewrite Forall_forall in HX. rewrite (any_clause_ok n) by auto. auto.
Qed.

Lemma accepts_below r r' k : below r r' -> accepts r k = true -> accepts r' k = true.
Proof. intros HB H. rewrite accepts_In in *. auto. Qed.

Lemma rule_accepts_iff r rule : rule_accepts r rule = true <-> exists k, In k rule /\ accepts r k = true.
Proof. unfold rule_accepts. apply existsb_exists. Qed.

(** * Lexicographic clauses *)

Lemma pos_bits_testbit p : forall j, nth j (rev (pos_bits p)) false = Pos.testbit_nat p j.
Proof.
  induction p as [p IH|p IH|]; intros j; cbn [pos_bits].
  - rewrite rev_app_distr. cbn [rev app]. destruct j; cbn; auto.
  - rewrite rev_app_distr. cbn [rev app]. destruct j; cbn; auto.
  - destruct j as [|[|j]]; auto.
Qed.

Lemma int2ba_testbit i j : nth j (rev (int2ba i)) false = N.testbit_nat i j.
Proof.
  destruct i as [|p]; cbn [int2ba].
  - destruct j as [|[|j]]; reflexivity.
  - cbn [N.testbit_nat]. apply pos_bits_testbit.
Qed.

Lemma lexicographic_In i j : In j (generate_lexicographic_clause i) <-> N.testbit i (N.of_nat j) = true.
Proof.
  unfold generate_lexicographic_clause. rewrite filter_In, in_seq, int2ba_testbit, <- Ntestbit_Nbit.
  split; [tauto|]. intros H. split; auto. split; [lia|]. cbn [Nat.add].
  destruct (Nat.lt_ge_cases j (length (rev (int2ba i)))) as [|HG]; auto.
  exfalso. rewrite Ntestbit_Nbit, <- int2ba_testbit, nth_overflow in H by auto. discriminate.
Qed.

Lemma lexicographic_increasing i : increasing (generate_lexicographic_clause i).
Proof. apply filter_increasing. Qed.

Lemma lexicographic_inj i i' : generate_lexicographic_clause i = generate_lexicographic_clause i' -> i = i'.
Proof.
  intros H. apply N.bits_inj. intros j. rewrite <- (N2Nat.id j).
  pose proof (lexicographic_In i (N.to_nat j)) as H1. pose proof (lexicographic_In i' (N.to_nat j)) as H2. rewrite H in H1.
  destruct (N.testbit i _), (N.testbit i' _); auto; intuition congruence.
Qed.

Definition index_of (k : clause) : N := fold_right (fun j acc => N.setbit acc (N.of_nat j)) 0%N k.

Lemma index_of_bits k j : N.testbit (index_of k) (N.of_nat j) = true <-> In j k.
Proof.
  induction k as [|a k IH]; cbn [index_of fold_right].
  - rewrite N.bits_0. split; [discriminate|intros []].
  - fold (index_of k). destruct (Nat.eq_dec a j) as [->|Hne].
    + rewrite N.setbit_eq. split; auto. intros _. left; auto.
    + rewrite N.setbit_neq by lia. rewrite IH. cbn [In]. tauto.
Qed.

Lemma lexicographic_index k : increasing k -> generate_lexicographic_clause (index_of k) = k.
Proof.
  intros HK. apply increasing_ext; auto using lexicographic_increasing. intros j. rewrite lexicographic_In. apply index_of_bits.
Qed.

(** * Integer master problem *)

Section Data.
Variables (n : nat) (X : matrix) (y : list nat).
Hypothesis HD : dataset n X y.
Notation np := (length (positives X y)).

(** Clauses with a positive weight. *)
Definition chosen (K : list clause) (x : nat -> Q) : list clause := map fst (filter (fun kw => Qltb 0 (snd kw)) (weights X y K x)).

Lemma dict_get_combine (K : list clause) s i k : nth_error K i = Some k -> dict_get (combine (seq s (length K)) K) (s + i) = Ok k.
Proof.
  revert s i; induction K as [|a K IH]; intros s [|i] H; try discriminate; cbn [length seq combine dict_get]; cbn in H.
  - injection H as ->. rewrite Nat.add_0_r, Nat.eqb_refl. auto.
  - destruct (Nat.eqb_spec s (s + S i)); [lia|]. rewrite <- Nat.add_succ_comm. apply IH. auto.
Qed.

Lemma weights_snoc (K : list clause) k x : weights X y (K ++ [k]) x = weights X y K x ++ [(k, x (np + length K))].
Proof.
  unfold weights. rewrite app_length. cbn [length]. rewrite Nat.add_1_r, seq_S, map_app. cbn [map].
  assert (HL : length K = length (map x (seq np (length K)))) by (rewrite map_length, seq_length; auto).
  revert HL. generalize (map x (seq np (length K))). generalize (x (np + length K)). induction K as [|a K IH]; intros q [|b l] HL; try discriminate; auto.
  cbn [app combine]. f_equal. apply IH. cbn in HL. lia.
Qed.

Lemma solve_ip_ok C p K s x : master_inv X y C p K s -> 
  solve_ip (Some x) s = (with_explanation s (chosen K x), Ok true).
Proof.
  intros I. unfold solve_ip. rewrite (mi_gen _ _ _ _ _ _ I). cbn [negb].
  pose proof (same_num_vars _ _ (mi_lp _ _ _ _ _ _ I)) as NV. rewrite problem1_num_vars in NV.
  rewrite NV, (mi_xi _ _ _ _ _ _ I), (mi_vars _ _ _ _ _ _ I), (mi_dict _ _ _ _ _ _ I), !seq_length, Nat.eqb_refl. cbn [negb].
  replace (np + length K - np) with (length K) by lia.
  match goal with |- context [for_each ?l ?g []] => assert (E : for_each l g [] = Ok (chosen K x)) end; [|rewrite E; auto].
  assert (FM : forall {A B S} (h : A -> B) (l : list A) (f : B -> S -> res S) s, for_each (map h l) f s = for_each l (fun a => f (h a)) s).
  { intros A B S0 h l f. induction l as [|a l IH]; intros s0; cbn; auto. destruct (f (h a) s0); cbn; auto. }
  match goal with |- for_each _ ?g _ = _ => transitivity (for_each (map (fun i => np + i) (seq 0 (length K))) g []) end;
    [f_equal; symmetry; apply map_add_seq|].
  rewrite FM.
  set (P := fun i e => e = chosen (firstn i K) x).
  match goal with |- for_each (seq 0 (length K)) ?g ?s = _ => destruct (for_each_seq_inv P (length K) g s) as (e & -> & HP) end.
  - reflexivity.
  - intros i e Hi ->. destruct (nth_error_some_lt K i Hi) as (k & Hk). unfold P, chosen.
    rewrite (firstn_S_nth _ _ _ Hk), weights_snoc, firstn_length, Nat.min_l by lia. rewrite filter_app, map_app. cbn [filter snd].
    destruct (Qltb 0 (x (np + i))).
    + replace (np + i - np) with i by lia. rewrite getitem_seq by auto. cbn [bind]. rewrite (dict_get_combine _ _ _ _ Hk). cbn [bind].
      eexists. split; reflexivity.
    + eexists. split; [reflexivity|]. cbn [map]. rewrite app_nil_r. auto.
  - rewrite HP, firstn_all. auto.
Qed.

Lemma chosen_In K x k : In k (chosen K x) -> In k K.
Proof. unfold chosen, weights. intros H. apply in_map_iff in H. destruct H as ([k' w] & <- & H). apply filter_In in H. eapply in_combine_l; apply H. Qed.

Lemma NoDup_map_fst_filter {A B} (f : A * B -> bool) l : NoDup (map fst l) -> NoDup (map fst (filter f l)).
Proof.
  induction l as [|a l IH]; cbn; auto. intros H. inversion H as [|? ? Hn Hd]; subst. destruct (f a); cbn; auto. constructor; auto.
  intros Hi. apply Hn. apply in_map_iff in Hi. destruct Hi as (b & E & Hb). apply filter_In in Hb. apply in_map_iff. exists b. tauto.
Qed.

Lemma map_fst_combine {A B} (l : list A) (m : list B) : length l = length m -> map fst (combine l m) = l.
Proof. revert m; induction l as [|a l IH]; intros [|b m] H; try discriminate; cbn; auto. f_equal. apply IH. cbn in H. lia. Qed.

Lemma weights_fst K x : map fst (weights X y K x) = K.
Proof. unfold weights. apply map_fst_combine. rewrite map_length, seq_length. auto. Qed.

Lemma chosen_NoDup K x : NoDup K -> NoDup (chosen K x).
Proof. intros H. apply NoDup_map_fst_filter. rewrite weights_fst. auto. Qed.

Lemma weights_integral C p K x k w : ip_feasible (problem1 X y C p K) x -> In (k, w) (weights X y K x) -> (w == 0 \/ 1 <= w)%Q.
Proof.
  intros [[FV _] FI] H. unfold weights in H. apply in_combine_map in H. destruct H as (_ & j & Hj & ->). apply in_seq in Hj.
  assert (Hv := p1_var X y C p K j ltac:(lia)). destruct (FV _ _ Hv) as [H0 _]. specialize (H0 _ eq_refl).
  destruct (FI _ _ Hv eq_refl) as (z & Hz). rewrite Hz in *. change 0%Q with (inject_Z 0) in *. change 1%Q with (inject_Z 1).
  rewrite <- Zle_Qle in *. destruct (Z.eq_dec z 0) as [->|]; [left; reflexivity|right; lia].
Qed.

Lemma chosen_sum C p K x (f : clause -> Q) : ip_feasible (problem1 X y C p K) x -> (forall k, 0 <= f k)%Q ->
  (qsum f (chosen K x) <= qsum (fun kw => f (fst kw) * snd kw) (weights X y K x))%Q.
Proof.
  intros HF Hf. unfold chosen. rewrite qsum_map, (qsum_filter (fun a => f (fst a))). apply qsum_le. intros [k w] H. cbn [fst snd].
  specialize (Hf k). destruct (weights_integral C p K x k w HF H) as [E|E].
  - assert (Qltb 0 w = false) as -> by (apply Qltb_false; lra). rewrite E. lra.
  - assert (Qltb 0 w = true) as -> by (apply Qltb_true; lra). nra.
Qed.

Lemma chosen_complexity C p K x : ip_feasible (problem1 X y C p K) x ->
  (qn (nsum complexity (chosen K x)) <= inject_Z C)%Q.
Proof.
  intros HF. pose proof HF as [HL _]. apply p1_feasible_iff in HL. destruct HL as (_ & _ & HC).
  eapply Qle_trans; [|exact HC]. unfold qn at 1. rewrite inject_nsum. apply (chosen_sum C p K x (fun k => qn (complexity k)) HF).
  intros k. apply inject_nat_nonneg.
Qed.

Lemma qn_le a b : a <= b -> (qn a <= qn b)%Q.
Proof. intros H. unfold qn. rewrite <- Zle_Qle. lia. Qed.

Lemma count_le {A} (f : A -> bool) (l : list A) : (qn (length (filter f l)) == qsum (fun a => if f a then 1 else 0) l)%Q.
Proof. unfold qn. rewrite nsum_filter_length, inject_nsum. apply qsum_ext. intros a _. destruct (f a); reflexivity. Qed.

Lemma missed_le C p K x : ip_feasible (problem1 X y C p K) x ->
  (qn (length (filter (fun r => negb (rule_accepts r (chosen K x))) (positives X y))) <= qsum (fun q => q) (penalties X y x))%Q.
Proof.
  intros HF. pose proof HF as [HL _]. apply p1_feasible_iff in HL. destruct HL as (H1 & _ & _). rewrite count_le.
  assert (HW : forall k w, In (k, w) (weights X y K x) -> (w == 0 \/ 1 <= w)%Q) by (intros; eapply weights_integral; eauto).
  revert H1. generalize (penalties X y x) as xi. generalize (positives X y) as R. intros R xi H1. induction H1 as [|r q R xi [Hq Hc] H1 IH]; [cbn; lra|].
  rewrite !qsum_cons. destruct (rule_accepts r (chosen K x)) eqn:Ea; cbn [negb]; [lra|].
  rewrite (qsum_zero _ (weights X y K x)) in Hc; [lra|]. intros [k w] Hkw. cbn [fst snd]. destruct (accepts r k) eqn:Ek; [|reflexivity].
  destruct (HW k w Hkw) as [E|E]; auto. exfalso.
  assert (rule_accepts r (chosen K x) = true); [|congruence]. apply rule_accepts_iff. exists k. split; auto.
  unfold chosen. apply in_map_iff. exists (k, w). split; auto. apply filter_In. split; auto. apply Qltb_true. cbn. lra.
Qed.

Lemma union_bound (rule : list clause) (R : matrix) :
  length (filter (fun r => rule_accepts r rule) R) <= nsum (fun k => length (filter (fun r => accepts r k) R)) rule.
Proof.
  induction R as [|r R IH]; [cbn; lia|]. cbn [filter].
  assert (E : nsum (fun k => length (filter (fun r => accepts r k) (r :: R))) rule
      = nsum (fun k => if accepts r k then 1 else 0) rule + nsum (fun k => length (filter (fun r => accepts r k) R)) rule).
  { rewrite <- nsum_plus. apply nsum_ext. intros k _. cbn [filter]. destruct (accepts r k); auto. }
  cbn [filter] in E. rewrite E. destruct (rule_accepts r rule) eqn:Ea; [|lia]. cbn [length].
  apply rule_accepts_iff in Ea. destruct Ea as (k & Hk & Ek). apply in_split in Hk. destruct Hk as (l1 & l2 & ->).
  rewrite nsum_app. cbn [nsum fold_right]. rewrite Ek. lia.
Qed.

Lemma chosen_loss C p K x : (0 <= p)%Q -> ip_feasible (problem1 X y C p K) x ->
  (rule_loss X y p (chosen K x) <= objective_value (problem1 X y C p K) x)%Q.
Proof.
  intros Hp HF. rewrite p1_objective_value. unfold rule_loss, p1_objective.
  pose proof (missed_le C p K x HF) as HM.
  pose proof (chosen_sum C p K x (fun k => qn (false_positives X y k)) HF (fun k => inject_nat_nonneg _)) as HS.
  assert (HU : (qn (length (filter (fun r => rule_accepts r (chosen K x)) (negatives X y))) <= qsum (fun k => qn (false_positives X y k)) (chosen K x))%Q).
  { eapply Qle_trans; [apply qn_le, union_bound|]. unfold qn at 1. rewrite inject_nsum. apply Qle_refl. }
  assert (p * qn (length (filter (fun r => negb (rule_accepts r (chosen K x))) (positives X y))) <= p * qsum (fun q => q) (penalties X y x))%Q.
  { rewrite !(Qmult_comm p). apply Qmult_le_compat_r; auto. }
  cbv beta in HS. lra.
Qed.

(** * Feasibility *)

Definition zero_point (v : nat) : Q := if v <? np then 1%Q else 0%Q.

Lemma problem1_ip_feasible C p K : (0 <= C)%Z -> ip_feasible (problem1 X y C p K) zero_point.
Proof.
  intros HC. split.
  - apply p1_feasible_iff.
    assert (HW : forall k w, In (k, w) (weights X y K zero_point) -> w = 0%Q).
    { intros k w H. unfold weights in H. apply in_combine_map in H. destruct H as (_ & j & Hj & ->). apply in_seq in Hj.
      unfold zero_point. destruct (Nat.ltb_spec j np); [lia|auto]. }
    split; [|split].
    + apply Forall2_intro_nth; [unfold penalties; rewrite map_length, seq_length; auto|].
      intros i r q Hr Hq. unfold penalties in Hq. apply map_nth_error_inv in Hq. destruct Hq as (j & Hj & ->).
      apply nth_error_seq_Some in Hj. destruct Hj as [-> Hj]. unfold zero_point at 1 2. destruct (Nat.ltb_spec (0 + i) np); [|lia].
      rewrite qsum_zero; [lra|]. intros [k w] H'. rewrite (HW k w H'). cbn [fst snd]. destruct (accepts r k); reflexivity.
    + apply Forall_forall. intros [k w] H. rewrite (HW k w H). cbn. lra.
    + rewrite qsum_zero; [change 0%Q with (inject_Z 0); rewrite <- Zle_Qle; auto|]. intros [k w] H. rewrite (HW k w H). cbn [snd]. lra.
  - intros j v _ _. unfold zero_point. destruct (j <? np); [exists 1%Z|exists 0%Z]; reflexivity.
Qed.
End Data.

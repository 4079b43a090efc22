(** Facts about the solver object: construction steps, indistinguishable models, LP duality. *)
From Verif Require Import Base Lp.
Open Scope Q_scope.

Lemma map_nth_length {A} (f : A -> A) l i : length (map_nth f l i) = length l.
Proof. revert i; induction l as [|x l IH]; intros [|i]; simpl; auto. Qed.

Lemma map_nth_nth_error {A} (f : A -> A) l i j :
  nth_error (map_nth f l i) j = if (j =? i)%nat then option_map f (nth_error l j) else nth_error l j.
Proof.
  revert i j; induction l as [|x l IH]; intros [|i] [|j]; simpl; auto.
  - destruct (j =? i)%nat; reflexivity.
Qed.

Lemma map_nth_app_l {A} (f : A -> A) l m i : (i < length l)%nat -> map_nth f (l ++ m) i = map_nth f l i ++ m.
Proof. revert i; induction l as [|x l IH]; intros [|i] H; simpl in *; try lia; auto. rewrite IH by lia. auto. Qed.

Lemma map_nth_app_r {A} (f : A -> A) l m i : map_nth f (l ++ m) (length l + i) = l ++ map_nth f m i.
Proof. revert i; induction l as [|x l IH]; intros i; simpl; auto. rewrite IH. auto. Qed.

Lemma upd_same {A} (f : nat -> A) i a : upd f i a i = a.
Proof. unfold upd. rewrite Nat.eqb_refl. auto. Qed.
Lemma upd_other {A} (f : nat -> A) i a j : j <> i -> upd f i a j = f j.
Proof. unfold upd. intros H. destruct (Nat.eqb_spec j i); [contradiction|auto]. Qed.

Lemma linear_ext n f g x x' :
  (forall j, (j < n)%nat -> f j == g j) -> (forall j, (j < n)%nat -> x j == x' j) -> linear n f x == linear n g x'.
Proof.
  intros H H'. apply qsum_ext. intros j Hj. apply in_seq in Hj. rewrite H, H' by lia. reflexivity.
Qed.

Lemma linear_minus n f x x' : linear n f (fun j => x j - x' j) == linear n f x - linear n f x'.
Proof.
  unfold linear. rewrite <- qsum_minus. apply qsum_ext. intros. lra.
Qed.

Lemma seq_nth_error i n j : (j < n)%nat -> nth_error (seq i n) j = Some (i + j)%nat.
Proof.
  revert i j; induction n as [|n IH]; intros i j H; [lia|].
  destruct j as [|j]; simpl; [f_equal; lia|]. rewrite IH by lia. f_equal. lia.
Qed.

Lemma nth_error_seq_Some i n j v : nth_error (seq i n) j = Some v -> v = (i + j)%nat /\ (j < n)%nat.
Proof.
  intros H. assert (L : (j < n)%nat).
  { assert (H0 : nth_error (seq i n) j <> None) by congruence. apply nth_error_Some in H0. rewrite seq_length in H0; auto. }
  rewrite seq_nth_error in H by auto. inversion H; auto.
Qed.

(** * Indistinguishable models *)

Lemma same_con_refl k : same_con k k.
Proof. repeat split; reflexivity. Qed.
Lemma same_lp_refl m : same_lp m m.
Proof.
  repeat split; try reflexivity. induction (lp_cons m); constructor; auto using same_con_refl.
Qed.
Lemma same_con_sym k k' : same_con k k' -> same_con k' k.
Proof. intros (A & B & C). repeat split; auto. intros j. symmetry. auto. Qed.
Lemma same_lp_sym m m' : same_lp m m' -> same_lp m' m.
Proof.
  intros (A & B & C & D & E). repeat split; auto; try (intros; symmetry; auto).
  induction E; constructor; auto using same_con_sym.
Qed.
Lemma same_con_trans a b c : same_con a b -> same_con b c -> same_con a c.
Proof. intros (A & B & C) (A' & B' & C'). repeat split; try congruence. intros j. rewrite C, C'. reflexivity. Qed.
Lemma same_lp_trans a b c : same_lp a b -> same_lp b c -> same_lp a c.
Proof.
  intros (A & B & C & D & E) (A' & B' & C' & D' & E').
  split; [congruence|]. split; [intros j; rewrite B, B'; reflexivity|]. split; [rewrite C, C'; reflexivity|].
  split; [congruence|].
  revert E'. generalize (lp_cons c). induction E as [|x z l m Hx HE IH]; intros n HF; inversion HF; subst; constructor.
  - eapply same_con_trans; eauto.
  - auto.
Qed.

Lemma Forall2_nth_error {A B} (P : A -> B -> Prop) l m i a :
  Forall2 P l m -> nth_error l i = Some a -> exists b, nth_error m i = Some b /\ P a b.
Proof.
  intros H. revert i a. induction H; intros [|i] a Ha; simpl in *; try discriminate.
  - inversion Ha; subst. eauto.
  - eauto.
Qed.

Lemma Forall2_intro_nth {A B} (P : A -> B -> Prop) l m :
  length l = length m ->
  (forall i a b, nth_error l i = Some a -> nth_error m i = Some b -> P a b) -> Forall2 P l m.
Proof.
  revert m; induction l as [|a l IH]; intros [|b m] H HP; simpl in *; try discriminate; constructor.
  - apply (HP 0%nat); auto.
  - apply IH; [lia|]. intros i. apply (HP (S i)).
Qed.

Lemma same_num_vars m m' : same_lp m m' -> num_vars m = num_vars m'.
Proof. intros (A & _). unfold num_vars. rewrite A. auto. Qed.
Lemma same_num_cons m m' : same_lp m m' -> num_cons m = num_cons m'.
Proof. intros (_ & _ & _ & _ & E). unfold num_cons. induction E; simpl; auto. Qed.

Lemma in_bounds_eq lb ub a b : a == b -> in_bounds lb ub a -> in_bounds lb ub b.
Proof.
  intros E [H1 H2]. split; intros q Hq; [specialize (H1 _ Hq)|specialize (H2 _ Hq)]; lra.
Qed.

Lemma same_activity m m' k k' x : same_lp m m' -> same_con k k' -> activity m k x == activity m' k' x.
Proof.
  intros H (_ & _ & C). unfold activity. rewrite (same_num_vars _ _ H). apply linear_ext; intros; [apply C|reflexivity].
Qed.

Lemma same_feasible m m' x : same_lp m m' -> lp_feasible m x -> lp_feasible m' x.
Proof.
  intros S [FV FC]. split.
  - destruct S as (A & _). rewrite <- A. auto.
  - intros c k' Hk. pose proof S as (_ & _ & _ & _ & E). apply same_lp_sym in S.
    assert (E' : Forall2 same_con (lp_cons m') (lp_cons m)) by (destruct S as (_ & _ & _ & _ & E'); exact E').
    destruct (Forall2_nth_error _ _ _ _ _ E' Hk) as (k & Hk' & Sk).
    specialize (FC _ _ Hk'). destruct Sk as (B1 & B2 & B3). rewrite B1, B2.
    eapply in_bounds_eq; [|exact FC]. symmetry. apply same_activity; auto. repeat split; auto.
Qed.

Lemma same_objective m m' x : same_lp m m' -> objective_value m x == objective_value m' x.
Proof.
  intros S. unfold objective_value. rewrite (same_num_vars _ _ S). destruct S as (_ & B & C & _).
  rewrite C. assert (linear (num_vars m') (lp_obj m) x == linear (num_vars m') (lp_obj m') x).
  { apply linear_ext; intros; [apply B|reflexivity]. }
  lra.
Qed.

Lemma same_ip_feasible m m' x : same_lp m m' -> ip_feasible m x -> ip_feasible m' x.
Proof.
  intros S [F I]. split; [eapply same_feasible; eauto|]. destruct S as (A & _). rewrite <- A. auto.
Qed.

Lemma dual_activity_cons l k pi j n :
  qsum (fun ck => pi (fst ck) * c_coef (snd ck) j) (combine (seq n (length (k :: l))) (k :: l))
  == pi n * c_coef k j + qsum (fun ck => pi (fst ck) * c_coef (snd ck) j) (combine (seq (S n) (length l)) l).
Proof. simpl. reflexivity. Qed.

Lemma same_dual_activity m m' pi j : same_lp m m' -> dual_activity m pi j == dual_activity m' pi j.
Proof.
  intros (_ & _ & _ & _ & E). unfold dual_activity, num_cons. generalize 0%nat.
  induction E as [|k k' l l' Hk HE IH]; intros n; [reflexivity|].
  simpl. rewrite IH. destruct Hk as (_ & _ & H). rewrite H. reflexivity.
Qed.

Lemma same_reduced_cost m m' pi j : same_lp m m' -> reduced_cost m pi j == reduced_cost m' pi j.
Proof.
  intros S. unfold reduced_cost. rewrite (same_dual_activity _ _ _ _ S). destruct S as (_ & B & _). rewrite B. reflexivity.
Qed.

Lemma pushes_eq max q q' lb ub v v' : q == q' -> v == v' -> pushes max q lb ub v -> pushes max q' lb ub v'.
Proof.
  intros Eq Ev [H1 H2]. split; intros H.
  - destruct H1 as (b & -> & Hb); [destruct max; lra|]. exists b. split; auto. lra.
  - destruct H2 as (b & -> & Hb); [destruct max; lra|]. exists b. split; auto. lra.
Qed.

Lemma same_kkt m m' x pi : same_lp m m' -> lp_kkt m x pi -> lp_kkt m' x pi.
Proof.
  intros S (F & KV & KC). pose proof S as (A & B & C & D & E). split; [eapply same_feasible; eauto|]. split.
  - intros j v Hv. rewrite <- A in Hv. rewrite <- D. eapply pushes_eq; [apply same_reduced_cost; eauto|reflexivity|auto].
  - intros c k' Hk. pose proof (same_lp_sym _ _ S) as (_ & _ & _ & _ & E').
    destruct (Forall2_nth_error _ _ _ _ _ E' Hk) as (k & Hk' & Sk). rewrite <- D.
    pose proof Sk as (B1 & B2 & B3). rewrite B1, B2.
    eapply pushes_eq; [reflexivity| |apply KC; eauto].
    symmetry. apply same_activity; auto using same_lp_sym.
Qed.

(** * Duality *)

Lemma qsum_const_mul {A} c (f : A -> Q) l : c * qsum f l == qsum (fun a => c * f a) l.
Proof. symmetry. apply qsum_scale. Qed.

(** The objective as reduced costs plus priced activities. *)
Lemma lagrangian m pi x :
  objective_value m x == linear (num_vars m) (reduced_cost m pi) x
    + qsum (fun ck => pi (fst ck) * activity m (snd ck) x) (combine (seq 0 (num_cons m)) (lp_cons m)) + lp_off m.
Proof.
  unfold objective_value, linear, activity, linear.
  assert (H : qsum (fun ck => pi (fst ck) * qsum (fun j => c_coef (snd ck) j * x j) (seq 0 (num_vars m)))
                (combine (seq 0 (num_cons m)) (lp_cons m))
              == qsum (fun j => dual_activity m pi j * x j) (seq 0 (num_vars m))).
  { transitivity (qsum (fun ck => qsum (fun j => pi (fst ck) * c_coef (snd ck) j * x j) (seq 0 (num_vars m)))
                (combine (seq 0 (num_cons m)) (lp_cons m))).
    - apply qsum_ext. intros ck _. rewrite qsum_const_mul. apply qsum_ext. intros. lra.
    - rewrite qsum_swap. apply qsum_ext. intros j _. unfold dual_activity. rewrite <- qsum_scale_r. reflexivity. }
  rewrite H. rewrite <- qsum_plus.
  assert (E : qsum (fun j => lp_obj m j * x j) (seq 0 (num_vars m))
     == qsum (fun j => reduced_cost m pi j * x j + dual_activity m pi j * x j) (seq 0 (num_vars m))).
  { apply qsum_ext. intros j _. unfold reduced_cost. lra. }
  rewrite E. reflexivity.
Qed.

Lemma in_combine_seq {A} (l : list A) n c k : In (c, k) (combine (seq n (length l)) l) ->
  (n <= c)%nat /\ nth_error l (c - n) = Some k.
Proof.
  revert n; induction l as [|a l IH]; intros n H; simpl in H; [contradiction|].
  destruct H as [H|H].
  - inversion H; subst. rewrite Nat.sub_diag. auto.
  - apply IH in H. destruct H as [H1 H2]. split; [lia|]. replace (c - n)%nat with (S (c - S n)) by lia. auto.
Qed.

Lemma nth_error_some_lt {A} (l : list A) i : (i < length l)%nat -> exists a, nth_error l i = Some a.
Proof. intros H. destruct (nth_error l i) eqn:E; eauto. apply nth_error_None in E. lia. Qed.

Lemma pushes_sign max q lb ub v v' : pushes max q lb ub v -> in_bounds lb ub v' ->
  0 <= (if max then - q else q) * (v' - v).
Proof.
  intros [H1 H2] [L U]. set (r := if max then - q else q) in *.
  destruct (Qlt_le_dec 0 r) as [Hr|Hr].
  - destruct (H1 Hr) as (b & -> & E). specialize (L _ eq_refl).
    setoid_replace 0 with (r * 0) by lra. apply Qmult_le_l; lra.
  - destruct (Qlt_le_dec r 0) as [Hn|Hn].
    + destruct (H2 Hn) as (b & -> & E). specialize (U _ eq_refl).
      setoid_replace (r * (v' - v)) with ((- r) * (v - v')) by lra.
      setoid_replace 0 with ((- r) * 0) by lra. apply Qmult_le_l; lra.
    + assert (r == 0) by lra. rewrite H. lra.
Qed.

(** A certified point is optimal. *)
Theorem kkt_optimal m x pi : lp_kkt m x pi -> lp_optimal m x.
Proof.
  intros (F & KV & KC). split; auto. intros x' [FV FC].
  assert (D1 : 0 <= qsum (fun j => (if lp_max m then - reduced_cost m pi j else reduced_cost m pi j) * (x' j - x j)) (seq 0 (num_vars m))).
  { apply qsum_nonneg. intros j Hj. apply in_seq in Hj.
    destruct (nth_error_some_lt (lp_vars m) j) as [v Hv]; [unfold num_vars in Hj; lia|].
    eapply pushes_sign; eauto. }
  assert (D2 : 0 <= qsum (fun ck => (if lp_max m then - pi (fst ck) else pi (fst ck)) * (activity m (snd ck) x' - activity m (snd ck) x))
                  (combine (seq 0 (num_cons m)) (lp_cons m))).
  { apply qsum_nonneg. intros [c k] Hk. apply in_combine_seq in Hk. rewrite Nat.sub_0_r in Hk. destruct Hk as [_ Hk].
    cbn [fst snd]. eapply pushes_sign; eauto. }
  pose proof (lagrangian m pi x) as L. pose proof (lagrangian m pi x') as L'.
  assert (E1 : qsum (fun j => (if lp_max m then - reduced_cost m pi j else reduced_cost m pi j) * (x' j - x j)) (seq 0 (num_vars m))
     == (if lp_max m then -(1) else 1) * (linear (num_vars m) (reduced_cost m pi) x' - linear (num_vars m) (reduced_cost m pi) x)).
  { unfold linear. rewrite <- qsum_minus, <- qsum_scale. apply qsum_ext. intros j _. destruct (lp_max m); lra. }
  assert (E2 : qsum (fun ck => (if lp_max m then - pi (fst ck) else pi (fst ck)) * (activity m (snd ck) x' - activity m (snd ck) x))
                  (combine (seq 0 (num_cons m)) (lp_cons m))
     == (if lp_max m then -(1) else 1) * (qsum (fun ck => pi (fst ck) * activity m (snd ck) x') (combine (seq 0 (num_cons m)) (lp_cons m))
         - qsum (fun ck => pi (fst ck) * activity m (snd ck) x) (combine (seq 0 (num_cons m)) (lp_cons m)))).
  { rewrite <- qsum_minus, <- qsum_scale. apply qsum_ext. intros j _. destruct (lp_max m); lra. }
  unfold as_good. destruct (lp_max m); lra.
Qed.

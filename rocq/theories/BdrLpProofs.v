(** Meaning of the boolean rule master model: feasibility, objective, reduced costs, duality. *)
From Verif Require Import Base Lp LpProofs SpecDual DualProofs BdrModel SpecBdr BdrProofs.
Open Scope nat_scope.
Local Arguments Nat.ltb _ _ : simpl never.
Local Arguments Nat.sub _ _ : simpl never.

Lemma clause_sum {A} (f : A -> Q) (K : list A) (x : nat -> Q) s :
  (qsum (fun j => (match nth_error K (j - s) with Some k => f k | None => 0 end) * x j) (seq s (length K))
   == qsum (fun kw => f (fst kw) * snd kw) (combine K (map x (seq s (length K)))))%Q.
Proof.
  revert s; induction K as [|k K IH]; intros s; [reflexivity|].
  cbn [length seq map combine qsum fold_right]. rewrite Nat.sub_diag. cbn [nth_error fst snd].
  assert (E : (qsum (fun j => (match nth_error (k :: K) (j - s) with Some k => f k | None => 0 end) * x j) (seq (S s) (length K))
    == qsum (fun kw => f (fst kw) * snd kw) (combine K (map x (seq (S s) (length K)))))%Q).
  { rewrite <- IH. apply qsum_ext. intros j Hj. apply in_seq in Hj. replace (j - s) with (S (j - S s)) by lia. reflexivity. }
  unfold qsum in E. rewrite E. reflexivity.
Qed.

Lemma qsum_single (x : nat -> Q) i k s : s <= i < s + k -> (qsum (fun j => (if j =? i then 1 else 0) * x j) (seq s k) == x i)%Q.
Proof.
  revert s; induction k as [|k IH]; intros s H; [lia|]. cbn [seq qsum fold_right].
  change (fold_right _ 0%Q (seq (S s) k)) with (qsum (fun j => (if j =? i then 1 else 0) * x j)%Q (seq (S s) k)).
  destruct (Nat.eqb_spec s i) as [->|Hs].
  - rewrite qsum_zero; [lra|]. intros j Hj. apply in_seq in Hj. destruct (Nat.eqb_spec j i); [lia|lra].
  - rewrite IH by lia. lra.
Qed.

Lemma qsum_zero_coef {A} (f x : A -> Q) l : (forall a, In a l -> f a == 0)%Q -> (qsum (fun a => f a * x a) l == 0)%Q.
Proof. intros H. apply qsum_zero. intros a Ha. rewrite H by auto. lra. Qed.

Lemma in_combine_map {A B} (K : list A) (g : nat -> B) l k w :
  In (k, w) (combine K (map g l)) -> In k K /\ exists j, In j l /\ w = g j.
Proof.
  intros H. split; [eapply in_combine_l; eauto|]. apply in_combine_r in H. apply in_map_iff in H. destruct H as (j & <- & H). eauto.
Qed.

Section Data.
Variables (X : matrix) (y : list nat) (C : Z) (p : Q).
Notation np := (length (positives X y)).
Notation P1 := (problem1 X y C p).
Definition weights (K : list clause) (x : nat -> Q) : list (clause * Q) := combine K (map x (seq np (length K))).
Definition penalties (x : nat -> Q) : list Q := map x (seq 0 np).

Lemma linear_split (K : list clause) (a b : nat -> Q) x :
  (linear (np + length K) (fun j => if j <? np then a j else b j) x
   == qsum (fun j => a j * x j) (seq 0 np) + qsum (fun j => b j * x j) (seq np (length K)))%Q.
Proof.
  unfold linear. rewrite seq_app, qsum_app. rewrite Nat.add_0_l.
  assert (E1 : (qsum (fun j => (if j <? np then a j else b j) * x j) (seq 0 np) == qsum (fun j => a j * x j) (seq 0 np))%Q).
  { apply qsum_ext. intros j Hj. apply in_seq in Hj. destruct (Nat.ltb_spec j np); [reflexivity|lia]. }
  assert (E2 : (qsum (fun j => (if j <? np then a j else b j) * x j) (seq np (length K)) == qsum (fun j => b j * x j) (seq np (length K)))%Q).
  { apply qsum_ext. intros j Hj. apply in_seq in Hj. destruct (Nat.ltb_spec j np); [lia|reflexivity]. }
  rewrite E1, E2. reflexivity.
Qed.

Lemma p1_objective_value K x : (objective_value (P1 K) x == p1_objective X y p (penalties x) (weights K x))%Q.
Proof.
  unfold objective_value. rewrite problem1_num_vars. unfold problem1 at 1. cbn [lp_obj lp_off].
  rewrite linear_split. unfold p1_objective, weights.
  rewrite (clause_sum (fun k => qn (false_positives X y k)) K x np).
  unfold penalties. rewrite qsum_map. unfold problem1. cbn [lp_off].
  assert (E : (qsum (fun j => p * x j) (seq 0 np) == p * qsum (fun a => x a) (seq 0 np))%Q) by (rewrite qsum_scale; reflexivity).
  rewrite E. lra.
Qed.

Lemma complexity_activity K x k : nth_error (lp_cons (P1 K)) 0 = Some k ->
  (activity (P1 K) k x == qsum (fun kw => qn (complexity (fst kw)) * snd kw) (weights K x))%Q.
Proof.
  rewrite problem1_cons. intros H. inversion H; subst; clear H. unfold activity. rewrite problem1_num_vars. cbn [c_coef].
  rewrite linear_split. rewrite (clause_sum (fun k => qn (complexity k)) K x np).
  rewrite qsum_zero_coef by (intros; reflexivity). unfold weights. lra.
Qed.

Lemma accept_sum r (K : list (clause * Q)) :
  (qsum (fun kw => qn (if accepts r (fst kw) then 1 else 0) * snd kw) K
   == qsum (fun kw => if accepts r (fst kw) then snd kw else 0) K)%Q.
Proof. apply qsum_ext. intros kw _. destruct (accepts r (fst kw)); [change (qn 1) with 1%Q|change (qn 0) with 0%Q]; lra. Qed.

Lemma satisfaction_activity K x i r k : nth_error (positives X y) i = Some r -> nth_error (lp_cons (P1 K)) (S i) = Some k ->
  (activity (P1 K) k x == x i + qsum (fun kw => if accepts r (fst kw) then snd kw else 0) (weights K x))%Q.
Proof.
  intros Hr. rewrite problem1_cons, Hr. cbn [option_map]. intros H. inversion H; subst; clear H.
  unfold activity. rewrite problem1_num_vars. cbn [c_coef]. rewrite linear_split.
  rewrite (clause_sum (fun k => qn (if accepts r k then 1 else 0)) K x np).
  assert (Hi : i < np) by (assert (HN : nth_error (positives X y) i <> None) by congruence; apply nth_error_Some in HN; auto).
  rewrite qsum_single by lia. fold (weights K x). rewrite accept_sum. reflexivity.
Qed.

Lemma p1_var K j : j < np + length K -> nth_error (lp_vars (P1 K)) j = Some (mkVar (Some 0%Q) None true).
Proof.
  intros H. unfold problem1. cbn [lp_vars]. rewrite nth_error_repeat; auto.
Qed.

Lemma p1_feasible_iff K x : lp_feasible (P1 K) x <-> p1_feasible X y C (penalties x) (weights K x).
Proof.
  split.
  - intros [FV FC]. assert (HX : forall j, j < np + length K -> (0 <= x j)%Q).
    { intros j Hj. specialize (FV _ _ (p1_var K j Hj)). apply FV. reflexivity. }
    split; [|split].
    + unfold penalties. apply Forall2_intro_nth; [rewrite map_length, seq_length; auto|].
      intros i r q Hr Hq. rewrite nth_error_map in Hq. destruct (nth_error (seq 0 np) i) eqn:E; [|discriminate].
      apply nth_error_seq_Some in E. cbn in E. destruct E as [-> Hi]. cbn in Hq. inversion Hq; subst. split; [apply HX; lia|].
      pose proof (problem1_cons X y C p K (S i)) as HC. cbv iota in HC. rewrite Hr in HC. cbn [option_map] in HC.
      specialize (FC _ _ HC). destruct FC as [L _]. specialize (L _ eq_refl).
      rewrite (satisfaction_activity K x i r _ Hr HC) in L. exact L.
    + apply Forall_forall. intros [k w] H. apply in_combine_map in H. destruct H as (_ & j & Hj & ->). apply in_seq in Hj.
      apply HX. lia.
    + pose proof (problem1_cons X y C p K 0) as HC. cbv iota in HC. specialize (FC _ _ HC). destruct FC as [_ U]. specialize (U _ eq_refl).
      rewrite (complexity_activity K x _ HC) in U. exact U.
  - intros (F1 & F2 & F3). split.
    + intros j v Hv. assert (Hj : j < np + length K).
      { assert (HN : nth_error (lp_vars (P1 K)) j <> None) by congruence. apply nth_error_Some in HN.
        rewrite <- (problem1_num_vars X y C p K). exact HN. }
      rewrite p1_var in Hv by auto. inversion Hv; subst. cbn. split; [|discriminate]. intros b Hb. inversion Hb; subst.
      destruct (Nat.ltb_spec j np) as [H|H].
      * destruct (nth_error_some_lt (positives X y) j H) as (r & Hr).
        destruct (Forall2_nth_error _ _ _ _ _ F1 Hr) as (q & Hq & H0 & _). unfold penalties in Hq.
        rewrite nth_error_map, seq_nth_error in Hq by auto. cbn in Hq. inversion Hq; subst. auto.
      * rewrite Forall_forall in F2. destruct (nth_error_some_lt K (j - np) ltac:(lia)) as (k & Hk).
        apply (F2 (k, x j)). apply (nth_error_In _ (j - np)). unfold weights.
        assert (G : forall (A B : Type) (l : list A) (m : list B) i a b, nth_error l i = Some a -> nth_error m i = Some b ->
           nth_error (combine l m) i = Some (a, b)).
        { clear. induction l as [|a l IH]; intros [|b m] [|i] a' b' H1 H2; cbn in *; try discriminate; auto. congruence. }
        apply G; auto. rewrite nth_error_map, seq_nth_error by lia. cbn. do 2 f_equal. lia.
    + intros c k Hk. destruct c as [|i].
      * pose proof Hk as Hk'. rewrite problem1_cons in Hk'. inversion Hk'; subst; clear Hk'. split; cbn; [discriminate|].
        intros b Hb. inversion Hb; subst. rewrite (complexity_activity K x _ Hk). exact F3.
      * pose proof Hk as Hk'. rewrite problem1_cons in Hk'. destruct (nth_error (positives X y) i) as [r|] eqn:Hr; [|discriminate].
        cbn in Hk'. inversion Hk'; subst; clear Hk'. split; cbn; [|discriminate].
        intros b Hb. inversion Hb; subst. rewrite (satisfaction_activity K x i r _ Hr Hk).
        destruct (Forall2_nth_error _ _ _ _ _ F1 Hr) as (q & Hq & _ & H1). unfold penalties in Hq.
        assert (Hi : i < np) by (assert (HN : nth_error (positives X y) i <> None) by congruence; apply nth_error_Some in HN; auto).
        rewrite nth_error_map, seq_nth_error in Hq by auto. cbn in Hq. inversion Hq; subst. auto.
Qed.

(** Multipliers of the satisfaction rows. *)
Definition mus (pi : nat -> Q) : list Q := map (fun i => pi (S i)) (seq 0 np).

Lemma sum_rows (f : nat -> list Q -> Q) s (R : matrix) :
  qsum (fun ck => f (fst ck) (snd ck)) (combine (seq s (length R)) R)
  = qsum (fun ir => f (fst ir) (snd ir)) (combine (seq s (length R)) R).
Proof. reflexivity. Qed.


Lemma combine_map_seq {A B} (g : nat -> B) (R : list A) s (h : A -> B -> Q) :
  (qsum (fun ir => h (snd ir) (g (fst ir))) (combine (seq s (length R)) R)
   == qsum (fun rm => h (fst rm) (snd rm)) (combine R (map g (seq s (length R)))))%Q.
Proof.
  revert s; induction R as [|r R IH]; intros s; [reflexivity|]. cbn [length seq combine map qsum fold_right fst snd].
  specialize (IH (S s)). unfold qsum in IH. rewrite IH. reflexivity.
Qed.

(** Dual value of a variable's column: the two kinds of variables. *)
Lemma cons_sum (f : nat -> lpcon -> Q) K :
  (qsum (fun ck => f (fst ck) (snd ck)) (combine (seq 0 (num_cons (P1 K))) (lp_cons (P1 K)))
   == f O (mkCon None (Some (inject_Z C)) (fun j => if j <? np then 0%Q else
                 match nth_error K (j - np) with Some k => qn (complexity k) | None => 0%Q end))
    + qsum (fun ir => f (S (fst ir)) (mkCon (Some 1%Q) None (fun j => if j <? np then (if j =? fst ir then 1%Q else 0%Q)
             else match nth_error K (j - np) with Some k => qn (if accepts (snd ir) k then 1 else 0) | None => 0%Q end)))
        (combine (seq 0 np) (positives X y)))%Q.
Proof.
  rewrite problem1_num_cons. unfold problem1. cbn [lp_cons seq combine qsum fold_right fst snd].
  match goal with |- (_ + ?a == _ + ?b)%Q => assert (E : (a == b)%Q); [|rewrite E; reflexivity] end.
  set (F := fun ir : nat * list Q => mkCon (Some 1%Q) None (fun j => if j <? np then (if j =? fst ir then 1%Q else 0%Q)
             else match nth_error K (j - np) with Some k => qn (if accepts (snd ir) k then 1 else 0) | None => 0%Q end)).
  change (qsum (fun ck => f (fst ck) (snd ck)) (combine (seq 1 np) (map F (combine (seq 0 np) (positives X y))))
     == qsum (fun ir => f (S (fst ir)) (F ir)) (combine (seq 0 np) (positives X y)))%Q.
  clearbody F. generalize 0 as s. generalize (positives X y) as R.
  induction R as [|r R IH]; intros s; [reflexivity|]. cbn [length seq combine map qsum fold_right fst snd].
  specialize (IH (S s)). unfold qsum in IH. rewrite IH. reflexivity.
Qed.

Lemma clause_reduced_cost K pi i k : nth_error K i = Some k ->
  (reduced_cost (P1 K) pi (np + i) == clause_cost X y (- pi O) (mus pi) k)%Q.
Proof.
  intros Hk. unfold reduced_cost, dual_activity.
  rewrite (cons_sum (fun c k => pi c * c_coef k (np + i))%Q). cbn [c_coef].
  destruct (Nat.ltb_spec (np + i) np); [lia|]. replace (np + i - np) with i by lia. rewrite Hk.
  unfold problem1 at 1. cbn [lp_obj]. destruct (Nat.ltb_spec (np + i) np); [lia|]. replace (np + i - np) with i by lia. rewrite Hk.
  unfold clause_cost, mus.
  rewrite <- (combine_map_seq (fun i => pi (S i)) (positives X y) 0 (fun r q => if accepts r k then q else 0%Q)).
  assert (E : (qsum (fun ir => pi (S (fst ir)) * qn (if accepts (snd ir) k then 1 else 0)) (combine (seq 0 np) (positives X y))
     == qsum (fun ir => if accepts (snd ir) k then pi (S (fst ir)) else 0) (combine (seq 0 np) (positives X y)))%Q).
  { apply qsum_ext. intros ir _. destruct (accepts (snd ir) k); [change (qn 1) with 1%Q|change (qn 0) with 0%Q]; lra. }
  rewrite E. lra.
Qed.

Lemma xi_reduced_cost K pi i : i < np -> (reduced_cost (P1 K) pi i == p - pi (S i))%Q.
Proof.
  intros Hi. unfold reduced_cost, dual_activity.
  rewrite (cons_sum (fun c k => pi c * c_coef k i)%Q). cbn [c_coef].
  unfold problem1 at 1. cbn [lp_obj]. apply Nat.ltb_lt in Hi as Hi'. rewrite Hi'.
  assert (E : (qsum (fun ir => pi (S (fst ir)) * (if i =? fst ir then 1 else 0)) (combine (seq 0 np) (positives X y)) == pi (S i))%Q).
  { rewrite (combine_map_seq (fun j => j) (positives X y) 0 (fun _ j => pi (S j) * (if i =? j then 1 else 0))%Q).
    rewrite map_id.
    assert (G : forall (R : matrix) s, s <= i < s + length R ->
      (qsum (fun rm : list Q * nat => pi (S (snd rm)) * (if i =? snd rm then 1 else 0)) (combine R (seq s (length R))) == pi (S i))%Q).
    { clear. induction R as [|r R IH]; intros s H; [cbn in H; lia|]. cbn [length seq combine qsum fold_right snd] in *.
      change (fold_right _ 0%Q (combine R (seq (S s) (length R)))) with
        (qsum (fun rm : list Q * nat => pi (S (snd rm)) * (if i =? snd rm then 1 else 0))%Q (combine R (seq (S s) (length R)))).
      destruct (Nat.eqb_spec i s) as [->|Hs].
      - rewrite qsum_zero; [lra|]. intros [r' j] Hj. apply in_combine_r in Hj. apply in_seq in Hj. cbn [snd].
        destruct (Nat.eqb_spec s j); [lia|lra].
      - rewrite IH by lia. lra. }
    apply G. lia. }
  rewrite E. lra.
Qed.

(** * The certificate *)

Lemma near_signs K pi tau : near_dual (P1 K) pi tau ->
  (pi O <= tau)%Q /\ (forall i, i < np -> (pi (S i) <= p + tau)%Q)
  /\ (forall i k, nth_error K i = Some k -> (- tau <= clause_cost X y (- pi O) (mus pi) k)%Q).
Proof.
  intros [NV NC]. assert (RC : forall j, j < np + length K -> (- tau <= reduced_cost (P1 K) pi j)%Q).
  { intros j Hj. specialize (NV _ _ (p1_var K j Hj)). apply NV. reflexivity. }
  split; [|split].
  - pose proof (problem1_cons X y C p K 0) as H0. cbv iota in H0. specialize (NC _ _ H0). apply NC. reflexivity.
  - intros i Hi. specialize (RC i ltac:(lia)). rewrite xi_reduced_cost in RC by auto. lra.
  - intros i k Hk. rewrite <- (clause_reduced_cost K pi i k Hk). apply RC.
    assert (HN : nth_error K i <> None) by congruence. apply nth_error_Some in HN. lia.
Qed.

Lemma plain_bound q : (q * bound_of false q (Some 0) None == 0)%Q.
Proof. unfold bound_of. destruct (Qltb 0 q); lra. Qed.
Lemma sum_mus pi : (qsum (fun ir : nat * list Q => pi (S (fst ir))) (combine (seq 0 np) (positives X y)) == qsum (fun m => m) (mus pi))%Q.
Proof.
  unfold mus. rewrite qsum_map. rewrite (combine_map_seq (fun j => j) (positives X y) 0 (fun _ j => pi (S j))%Q). rewrite map_id.
  generalize 0 as s. generalize (positives X y) as R. induction R as [|r R IH]; intros s; [reflexivity|].
  cbn [length seq combine qsum fold_right snd]. specialize (IH (S s)). unfold qsum in IH. rewrite IH. lra.
Qed.
(** The dual objective of problem (1). *)
Lemma p1_dual_value K pi : (forall i, i < np -> (0 <= pi (S i))%Q) ->
  (dual_value (P1 K) pi == qsum (fun m => m) (mus pi) + (if Qltb 0 (pi O) then 0 else pi O * inject_Z C))%Q.
Proof.
  intros HP. unfold dual_value. rewrite qsum_zero.
  2:{ intros [j v] Hj. apply in_combine_seq in Hj. rewrite Nat.sub_0_r in Hj. destruct Hj as [_ Hj]. cbn [fst snd].
      assert (Hl : j < np + length K).
      { assert (HN : nth_error (lp_vars (P1 K)) j <> None) by congruence. apply nth_error_Some in HN. rewrite <- (problem1_num_vars X y C p K). exact HN. }
      rewrite p1_var in Hj by auto. injection Hj as <-. cbn [v_lb v_ub problem1 lp_max]. apply plain_bound. }
  rewrite (cons_sum (fun c k => pi c * bound_of (lp_max (P1 K)) (pi c) (c_lb k) (c_ub k))%Q). cbn [c_lb c_ub problem1 lp_max lp_off].
  assert (E : (qsum (fun ir : nat * list Q => pi (S (fst ir)) * bound_of false (pi (S (fst ir))) (Some 1) None) (combine (seq 0 np) (positives X y))
     == qsum (fun m => m) (mus pi))%Q).
  { rewrite <- sum_mus. apply qsum_ext. intros [i r] Hi. apply in_combine_l in Hi. apply in_seq in Hi. cbn [fst]. specialize (HP i ltac:(lia)).
    unfold bound_of. destruct (Qltb 0 (pi (S i))) eqn:B; [lra|]. apply Qltb_false in B. lra. }
  rewrite E. unfold bound_of. destruct (Qltb 0 (pi O)); lra.
Qed.

Lemma kkt_signs K x pi : lp_kkt (P1 K) x pi ->
  (pi O <= 0)%Q /\ (forall i, i < np -> (0 <= pi (S i) <= p)%Q)
  /\ (forall i k, nth_error K i = Some k -> (0 <= clause_cost X y (- pi O) (mus pi) k)%Q).
Proof.
  intros (F & KV & KC). cbn [lp_max problem1] in KV, KC.
  assert (RC : forall j, j < np + length K -> (0 <= reduced_cost (P1 K) pi j)%Q).
  { intros j Hj. specialize (KV _ _ (p1_var K j Hj)). destruct KV as [_ H2].
    destruct (Qlt_le_dec (reduced_cost (P1 K) pi j) 0) as [H|H]; auto.
    destruct (H2 H) as (b & Hb & _). discriminate. }
  split; [|split].
  - pose proof (problem1_cons X y C p K 0) as H0. cbv iota in H0. specialize (KC _ _ H0). destruct KC as [H1 _].
    destruct (Qlt_le_dec 0 (pi O)) as [H|H]; auto. destruct (H1 H) as (b & Hb & _). discriminate.
  - intros i Hi. split.
    + destruct (nth_error_some_lt (positives X y) i Hi) as (r & Hr).
      pose proof (problem1_cons X y C p K (S i)) as H0. cbv iota in H0. rewrite Hr in H0. cbn [option_map] in H0.
      specialize (KC _ _ H0). destruct KC as [_ H2].
      destruct (Qlt_le_dec (pi (S i)) 0) as [H|H]; auto. destruct (H2 H) as (b & Hb & _). discriminate.
    + specialize (RC i ltac:(lia)). rewrite xi_reduced_cost in RC by auto. lra.
  - intros i k Hk. rewrite <- (clause_reduced_cost K pi i k Hk). apply RC.
    assert (HN : nth_error K i <> None) by congruence. apply nth_error_Some in HN. lia.
Qed.

Lemma Qmult_0_cases (q v b : Q) : (v == b)%Q -> (q * v == q * b)%Q.
Proof. intros ->. reflexivity. Qed.

(** Strong duality at a certified point. *)
Lemma kkt_value K x pi : lp_kkt (P1 K) x pi ->
  (objective_value (P1 K) x == inject_Z C * pi O + qsum (fun m => m) (mus pi))%Q.
Proof.
  intros KK. pose proof KK as (F & KV & KC). rewrite (lagrangian (P1 K) pi x).
  assert (E1 : (linear (num_vars (P1 K)) (reduced_cost (P1 K) pi) x == 0)%Q).
  { unfold linear. rewrite problem1_num_vars. apply qsum_zero. intros j Hj. apply in_seq in Hj.
    specialize (KV _ _ (p1_var K j ltac:(lia))). destruct KV as [H1 H2]. cbn [lp_max problem1 v_lb v_ub] in H1, H2.
    destruct (Qlt_le_dec 0 (reduced_cost (P1 K) pi j)) as [H|H].
    - destruct (H1 H) as (b & Hb & E). inversion Hb; subst. rewrite E. lra.
    - destruct (Qlt_le_dec (reduced_cost (P1 K) pi j) 0) as [H'|H'].
      + destruct (H2 H') as (b & Hb & _). discriminate.
      + assert (E : (reduced_cost (P1 K) pi j == 0)%Q) by lra. rewrite E. lra. }
  rewrite E1.
  assert (E2 : (qsum (fun ck => pi (fst ck) * activity (P1 K) (snd ck) x) (combine (seq 0 (num_cons (P1 K))) (lp_cons (P1 K)))
     == qsum (fun ck => pi (fst ck) * (match fst ck with O => inject_Z C | S _ => 1 end)) (combine (seq 0 (num_cons (P1 K))) (lp_cons (P1 K))))%Q).
  { apply qsum_ext. intros [c k] Hck. apply in_combine_seq in Hck. rewrite Nat.sub_0_r in Hck. destruct Hck as [_ Hk].
    cbn [fst snd]. specialize (KC _ _ Hk). rewrite problem1_cons in Hk. destruct KC as [H1 H2]. cbn [lp_max problem1] in H1, H2.
    destruct c as [|i].
    - inversion Hk; subst; clear Hk. cbn [c_lb c_ub] in H1, H2.
      destruct (Qlt_le_dec 0 (pi O)) as [H|H]; [destruct (H1 H) as (b & Hb & _); discriminate|].
      destruct (Qlt_le_dec (pi O) 0) as [H'|H'].
      + destruct (H2 H') as (b & Hb & E). inversion Hb; subst. apply Qmult_0_cases. auto.
      + assert (E : (pi O == 0)%Q) by lra. rewrite E. lra.
    - destruct (nth_error (positives X y) i) as [r|]; [|discriminate]. inversion Hk; subst; clear Hk. cbn [c_lb c_ub] in H1, H2.
      destruct (Qlt_le_dec (pi (S i)) 0) as [H|H]; [destruct (H2 H) as (b & Hb & _); discriminate|].
      destruct (Qlt_le_dec 0 (pi (S i))) as [H'|H'].
      + destruct (H1 H') as (b & Hb & E). inversion Hb; subst. apply Qmult_0_cases. auto.
      + assert (E : (pi (S i) == 0)%Q) by lra. rewrite E. lra. }
  rewrite E2. rewrite (cons_sum (fun c _ => pi c * match c with O => inject_Z C | S _ => 1 end)%Q).
  unfold problem1. cbn [lp_off].
  assert (E3 : (qsum (fun ir : nat * list Q => pi (S (fst ir)) * 1) (combine (seq 0 np) (positives X y)) == qsum (fun m => m) (mus pi))%Q).
  { unfold mus. rewrite qsum_map. rewrite (combine_map_seq (fun j => j) (positives X y) 0 (fun _ j => pi (S j) * 1)%Q). rewrite map_id.
    generalize 0 as s. generalize (positives X y) as R. induction R as [|r R IH]; intros s; [reflexivity|].
    cbn [length seq combine qsum fold_right snd]. specialize (IH (S s)). unfold qsum in IH. rewrite IH. lra. }
  rewrite E3. lra.
Qed.

(** Lower bound from multipliers: any solution of problem (1), over any clauses, costs at least the dual value plus its
    weighted reduced costs. *)
Lemma weak_duality lam mu xi (K : list (clause * Q)) :
  (0 <= lam)%Q -> Forall (fun m => 0 <= m <= p)%Q mu -> length mu = np -> p1_feasible X y C xi K ->
  (qsum (fun m => m) mu - lam * inject_Z C + qsum (fun kw => clause_cost X y lam mu (fst kw) * snd kw) K
   <= p1_objective X y p xi K)%Q.
Proof.
  intros Hl Hm HL (F1 & F2 & F3). unfold p1_objective.
  (* split the reduced costs *)
  assert (E1 : (qsum (fun kw => clause_cost X y lam mu (fst kw) * snd kw) K ==
     lam * qsum (fun kw => qn (complexity (fst kw)) * snd kw) K
     - qsum (fun rm => snd rm * qsum (fun kw => if accepts (fst rm) (fst kw) then snd kw else 0) K) (combine (positives X y) mu)
     + qsum (fun kw => qn (false_positives X y (fst kw)) * snd kw) K)%Q).
  { rewrite <- qsum_scale.
    assert (S1 : (qsum (fun rm => snd rm * qsum (fun kw => if accepts (fst rm) (fst kw) then snd kw else 0) K) (combine (positives X y) mu)
       == qsum (fun kw => qsum (fun rm => if accepts (fst rm) (fst kw) then snd rm else 0) (combine (positives X y) mu) * snd kw) K)%Q).
    { transitivity (qsum (fun rm => qsum (fun kw => (if accepts (fst rm) (fst kw) then snd rm else 0) * snd kw) K) (combine (positives X y) mu))%Q.
      - apply qsum_ext. intros rm _. rewrite qsum_const_mul. apply qsum_ext. intros kw _. destruct (accepts _ _); lra.
      - rewrite qsum_swap. apply qsum_ext. intros kw _. rewrite qsum_scale_r. reflexivity. }
    rewrite S1. rewrite <- qsum_minus, <- qsum_plus. apply qsum_ext. intros kw _. unfold clause_cost. lra. }
  rewrite E1.
  (* rows *)
  assert (E2 : (qsum (fun m => m) mu <= p * qsum (fun q => q) xi
     + qsum (fun rm => snd rm * qsum (fun kw => if accepts (fst rm) (fst kw) then snd kw else 0) K) (combine (positives X y) mu))%Q).
  { clear E1 F3 F2. revert mu Hm HL. induction F1 as [|r q R xs [Hq1 Hq2] HF IH]; intros [|m mu] Hm HL; cbn in HL; try discriminate.
    - cbn. lra.
    - inversion Hm as [|? ? [Hm1 Hm2] Hm']; subst. cbn [combine]. rewrite !qsum_cons. cbn [fst snd].
      specialize (IH mu Hm' ltac:(lia)).
      set (A := qsum (fun kw : clause * Q => if accepts r (fst kw) then snd kw else 0%Q) K) in *.
      assert (H1 : (m * 1 <= m * (q + A))%Q) by (rewrite (Qmult_comm m 1), (Qmult_comm m (q + A)); apply Qmult_le_compat_r; auto).
      assert (H2 : (m * q <= p * q)%Q) by (apply Qmult_le_compat_r; auto).
      lra. }
  assert (E3 : (lam * qsum (fun kw => qn (complexity (fst kw)) * snd kw) K <= lam * inject_Z C)%Q).
  { rewrite (Qmult_comm lam), (Qmult_comm lam). apply Qmult_le_compat_r; auto. }
  lra.
Qed.

(** Total weight of a solution. *)
Lemma total_weight xi (K : list (clause * Q)) : p1_feasible X y C xi K -> (0 <= qsum snd K <= inject_Z C)%Q.
Proof.
  intros (_ & F2 & F3). rewrite Forall_forall in F2. split; [apply qsum_nonneg; auto|].
  eapply Qle_trans; [|exact F3]. apply qsum_le. intros kw Hk. specialize (F2 _ Hk).
  assert (1 <= qn (complexity (fst kw)))%Q.
  { unfold qn, complexity. change 1%Q with (inject_Z 1). rewrite <- Zle_Qle. lia. }
  assert (1 * snd kw <= qn (complexity (fst kw)) * snd kw)%Q by (apply Qmult_le_compat_r; auto). lra.
Qed.

(** If no clause of a solution prices below [-e], its objective is at least the certified RMP value minus [e * C]. *)
Lemma certificate K x pi e xi (K' : list (clause * Q)) : lp_kkt (P1 K) x pi -> (0 <= e)%Q ->
  p1_feasible X y C xi K' ->
  (forall k w, In (k, w) K' -> (- e <= clause_cost X y (- pi O) (mus pi) k)%Q) ->
  (objective_value (P1 K) x - e * inject_Z C <= p1_objective X y p xi K')%Q.
Proof.
  intros KK He F HC. destruct (kkt_signs _ _ _ KK) as (S1 & S2 & _).
  assert (Hm : Forall (fun m => 0 <= m <= p)%Q (mus pi)).
  { unfold mus. apply Forall_forall. intros m Hm. apply in_map_iff in Hm. destruct Hm as (i & <- & Hi). apply in_seq in Hi. apply S2. lia. }
  pose proof (weak_duality (- pi O) (mus pi) xi K' ltac:(lra) Hm ltac:(unfold mus; rewrite map_length, seq_length; auto) F) as WD.
  rewrite (kkt_value _ _ _ KK). pose proof (total_weight _ _ F) as [TW0 TW].
  assert (B : (- e * qsum snd K' <= qsum (fun kw => clause_cost X y (- pi O) (mus pi) (fst kw) * snd kw) K')%Q).
  { rewrite <- qsum_scale. apply qsum_le. intros [k w] Hk. cbn [fst snd]. specialize (HC _ _ Hk).
    destruct F as (_ & F2 & _). rewrite Forall_forall in F2. specialize (F2 _ Hk). cbn in F2.
    apply Qmult_le_compat_r; auto. }
  assert (e * qsum snd K' <= e * inject_Z C)%Q by (rewrite (Qmult_comm e), (Qmult_comm e); apply Qmult_le_compat_r; auto).
  lra.
Qed.

(** The certificate for duals that are right up to [tau]: cap the multipliers at [p]. *)
Definition capped (mu : list Q) : list Q := map (fun m => if Qle_bool m p then m else p) mu.
Lemma capped_props tau mu : (0 <= p)%Q -> Forall (fun m => 0 <= m <= p + tau)%Q mu -> (0 <= tau)%Q ->
  Forall (fun m => 0 <= m <= p)%Q (capped mu) /\ (qsum (fun m => m) mu - tau * qn (length mu) <= qsum (fun m => m) (capped mu))%Q.
Proof.
  intros Hp H Ht. unfold capped. induction H as [|m mu [H1 H2] _ [I1 I2]]; [split; [apply Forall_nil|cbn [map length]; change (qn 0) with 0%Q; unfold qsum; cbn [fold_right]; lra]|].
  cbn [map length]. rewrite !qsum_cons. replace (S (length mu)) with (1 + length mu) by lia. unfold qn in *. rewrite inject_nat_plus. change (inject_Z (Z.of_nat 1)) with 1%Q.
  destruct (Qle_bool m p) eqn:B; [apply Qle_bool_iff in B|apply Qle_bool_false in B]; (split; [constructor; [lra|auto]|lra]).
Qed.
Lemma capped_cost lam mu k : (clause_cost X y lam mu k <= clause_cost X y lam (capped mu) k)%Q.
Proof.
  unfold clause_cost, capped.
  assert (E : (qsum (fun rm => if accepts (fst rm) k then snd rm else 0) (combine (positives X y) (map (fun m => if Qle_bool m p then m else p) mu))
     <= qsum (fun rm => if accepts (fst rm) k then snd rm else 0) (combine (positives X y) mu))%Q).
  { generalize (positives X y) as R. induction mu as [|m mu IH]; intros [|r R]; cbn [map combine]; try apply Qle_refl.
    rewrite !qsum_cons. cbn [fst snd]. specialize (IH R). destruct (accepts r k); [|lra].
    destruct (Qle_bool m p) eqn:B; [lra|]. apply Qle_bool_false in B. lra. }
  lra.
Qed.
Lemma near_certificate K pi tau e xi (K' : list (clause * Q)) : (0 <= p)%Q -> (0 <= tau)%Q -> near_dual (P1 K) pi tau ->
  (forall i, i < np -> (0 <= pi (S i))%Q) -> (0 <= e)%Q -> p1_feasible X y C xi K' ->
  (forall k w, In (k, w) K' -> (- e <= clause_cost X y (Qabs (pi O)) (mus pi) k)%Q) ->
  (dual_value (P1 K) pi - (e + tau) * inject_Z C - tau * qn np <= p1_objective X y p xi K')%Q.
Proof.
  intros Hp Ht ND HS He F HC. destruct (near_signs _ _ _ ND) as (S1 & S2 & _).
  assert (Hlen : length (mus pi) = np) by (unfold mus; rewrite map_length, seq_length; auto).
  assert (Hm : Forall (fun m => 0 <= m <= p + tau)%Q (mus pi)).
  { unfold mus. apply Forall_forall. intros m Hm. apply in_map_iff in Hm. destruct Hm as (i & <- & Hi). apply in_seq in Hi.
    split; [apply HS; lia|apply S2; lia]. }
  destruct (capped_props tau (mus pi) Hp Hm Ht) as [Hc Hsum]. rewrite Hlen in Hsum.
  pose proof (weak_duality (Qabs (pi O)) (capped (mus pi)) xi K' (Qabs_nonneg _) Hc ltac:(unfold capped; rewrite map_length; auto) F) as WD.
  rewrite (p1_dual_value K pi HS). pose proof (total_weight _ _ F) as [TW0 TW].
  assert (B : (- e * qsum snd K' <= qsum (fun kw => clause_cost X y (Qabs (pi O)) (capped (mus pi)) (fst kw) * snd kw) K')%Q).
  { rewrite <- qsum_scale. apply qsum_le. intros [k w] Hk. cbn [fst snd]. specialize (HC _ _ Hk).
    destruct F as (_ & F2 & _). rewrite Forall_forall in F2. specialize (F2 _ Hk). cbn in F2.
    apply Qmult_le_compat_r; auto. eapply Qle_trans; [exact HC|apply capped_cost]. }
  assert (e * qsum snd K' <= e * inject_Z C)%Q by (rewrite (Qmult_comm e), (Qmult_comm e); apply Qmult_le_compat_r; auto).
  assert (HC0 : (0 <= inject_Z C)%Q) by lra. assert (0 <= tau * inject_Z C)%Q by (apply Qmult_le_0_compat; auto).
  destruct (Qltb 0 (pi O)) eqn:B0.
  - apply Qltb_true in B0. rewrite Qabs_pos in * by lra.
    assert (pi O * inject_Z C <= tau * inject_Z C)%Q by (apply Qmult_le_compat_r; auto). lra.
  - apply Qltb_false in B0. rewrite Qabs_neg in * by lra. lra.
Qed.
End Data.

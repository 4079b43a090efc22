(** Executable checks of feasibility and optimality certificates (used by the examples). *)
From Verif Require Import Base Lp LpProofs SpecDual.
From Coq Require Import Qround.
Open Scope Q_scope.

Definition in_boundsb (lb ub : option Q) (q : Q) : bool :=
  (match lb with Some b => Qle_bool b q | None => true end) && (match ub with Some b => Qle_bool q b | None => true end).
Definition pushesb (max : bool) (q : Q) (lb ub : option Q) (v : Q) : bool :=
  let r := if max then - q else q in
  (if Qltb 0 r then match lb with Some b => Qeq_bool v b | None => false end else true) &&
  (if Qltb r 0 then match ub with Some b => Qeq_bool v b | None => false end else true).
Definition indexed {A} (l : list A) : list (nat * A) := combine (seq 0 (length l)) l.
Definition feasibleb (m : lp) (x : nat -> Q) : bool :=
  forallb (fun jv => in_boundsb (v_lb (snd jv)) (v_ub (snd jv)) (x (fst jv))) (indexed (lp_vars m)) &&
  forallb (fun k => in_boundsb (c_lb k) (c_ub k) (activity m k x)) (lp_cons m).
Definition kktb (m : lp) (x pi : nat -> Q) : bool :=
  feasibleb m x &&
  forallb (fun jv => pushesb (lp_max m) (reduced_cost m pi (fst jv)) (v_lb (snd jv)) (v_ub (snd jv)) (x (fst jv))) (indexed (lp_vars m)) &&
  forallb (fun ck => pushesb (lp_max m) (pi (fst ck)) (c_lb (snd ck)) (c_ub (snd ck)) (activity m (snd ck) x)) (indexed (lp_cons m)).
Definition integralb (q : Q) : bool := Qeq_bool q (inject_Z (Qfloor q)).
Definition ip_feasibleb (m : lp) (x : nat -> Q) : bool :=
  feasibleb m x && forallb (fun jv => implb (v_int (snd jv)) (integralb (x (fst jv)))) (indexed (lp_vars m)).

Lemma in_boundsb_ok lb ub q : in_boundsb lb ub q = true -> in_bounds lb ub q.
Proof.
  unfold in_boundsb. intros H. apply andb_true_iff in H. destruct H as [H1 H2]. split; intros b E; subst; apply Qle_bool_iff; auto.
Qed.
Lemma pushesb_ok max q lb ub v : pushesb max q lb ub v = true -> pushes max q lb ub v.
Proof.
  unfold pushesb, pushes. set (r := if max then - q else q). intros H. apply andb_true_iff in H. destruct H as [H1 H2]. split; intros Hr.
  - apply Qltb_true in Hr. rewrite Hr in H1. destruct lb as [b|]; [|discriminate]. exists b. split; auto. apply Qeq_bool_iff. auto.
  - apply Qltb_true in Hr. rewrite Hr in H2. destruct ub as [b|]; [|discriminate]. exists b. split; auto. apply Qeq_bool_iff. auto.
Qed.
Lemma indexed_In {A} (l : list A) j a : nth_error l j = Some a -> In (j, a) (indexed l).
Proof.
  unfold indexed. intros H. assert (G : forall s, In ((s + j)%nat, a) (combine (seq s (length l)) l)); [|apply (G 0%nat)].
  revert j H. induction l as [|b l IH]; intros [|j] H s; cbn in *; try discriminate.
  - injection H as ->. rewrite Nat.add_0_r. auto.
  - right. rewrite <- Nat.add_succ_comm. apply IH. auto.
Qed.
Lemma feasibleb_ok m x : feasibleb m x = true -> lp_feasible m x.
Proof.
  unfold feasibleb. intros H. apply andb_true_iff in H. destruct H as [H1 H2]. rewrite forallb_forall in H1, H2. split.
  - intros j v Hv. apply in_boundsb_ok. apply (H1 (j, v)). apply indexed_In. auto.
  - intros c k Hk. apply in_boundsb_ok. apply H2. eapply nth_error_In; eauto.
Qed.
Lemma kktb_ok m x pi : kktb m x pi = true -> lp_kkt m x pi.
Proof.
  unfold kktb. intros H. apply andb_true_iff in H. destruct H as [H H3]. apply andb_true_iff in H. destruct H as [H1 H2].
  rewrite forallb_forall in H2, H3. split; [apply feasibleb_ok; auto|]. split.
  - intros j v Hv. apply pushesb_ok. apply (H2 (j, v)). apply indexed_In. auto.
  - intros j v Hv. apply pushesb_ok. apply (H3 (j, v)). apply indexed_In. auto.
Qed.
Lemma ip_feasibleb_ok m x : ip_feasibleb m x = true -> ip_feasible m x.
Proof.
  unfold ip_feasibleb. intros H. apply andb_true_iff in H. destruct H as [H1 H2]. rewrite forallb_forall in H2. split; [apply feasibleb_ok; auto|].
  intros j v Hv Hi. specialize (H2 (j, v) (indexed_In _ _ _ Hv)). cbn in H2. rewrite Hi in H2. cbn in H2.
  exists (Qfloor (x j)). apply Qeq_bool_iff. exact H2.
Qed.
(** An integral certified point solves the integer program. *)
Lemma kkt_ip_optimal m x pi : lp_kkt m x pi -> ip_feasible m x -> ip_optimal m x.
Proof. intros K F. split; auto. intros x' [F' _]. apply (kkt_optimal _ _ _ K). auto. Qed.

(** Duals right up to [tau]. *)
Definition near_signb (max : bool) (q : Q) (lb ub : option Q) (tau : Q) : bool :=
  let r := if max then - q else q in
  (match lb with None => Qle_bool r tau | Some _ => true end) && (match ub with None => Qle_bool (- tau) r | Some _ => true end).
Definition near_dualb (m : lp) (pi : nat -> Q) (tau : Q) : bool :=
  forallb (fun jv => near_signb (lp_max m) (reduced_cost m pi (fst jv)) (v_lb (snd jv)) (v_ub (snd jv)) tau) (indexed (lp_vars m)) &&
  forallb (fun ck => near_signb (lp_max m) (pi (fst ck)) (c_lb (snd ck)) (c_ub (snd ck)) tau) (indexed (lp_cons m)).
Lemma near_signb_ok max q lb ub tau : near_signb max q lb ub tau = true -> near_sign max q lb ub tau.
Proof.
  unfold near_signb. intros H. apply andb_true_iff in H. destruct H as [H1 H2]. split; intros ->; apply Qle_bool_iff; auto.
Qed.
Lemma near_dualb_ok m pi tau : near_dualb m pi tau = true -> near_dual m pi tau.
Proof.
  unfold near_dualb. intros H. apply andb_true_iff in H. destruct H as [H1 H2]. rewrite forallb_forall in H1, H2. split.
  - intros j v Hv. apply near_signb_ok. apply (H1 (j, v)). apply indexed_In. auto.
  - intros j v Hv. apply near_signb_ok. apply (H2 (j, v)). apply indexed_In. auto.
Qed.

(** Solvers that meet the hypotheses about solvers (used by the examples). *)
From Verif Require Import Base Lp LpProofs SpecDual DualProofs FitModel BdrModel SpecBdr BdrProofs BdrLpProofs BdrPricingProofs BdrSubmipProofs BdrRuleProofs BdrFitModel BdrRunProofs LpCheck.
From Coq Require Import Sorted.
Open Scope nat_scope.

(** A complete, exact pricing solver for every data set: try all clauses. *)
Definition by_enumeration (n : nat) (X : matrix) (D : Z) (m : lp) : option (nat -> Q) :=
  let ks := filter (fun k => (Z.of_nat (length k) <=? D)%Z) (subsets (seq 0 n)) in
  Some (clause_point n X (fold_right (fun k best =>
    if Qltb (objective_value m (clause_point n X k)) (objective_value m (clause_point n X best)) then k else best) [] ks)).
Lemma by_enumeration_exact n X y D : dataset n X y -> (0 <= D)%Z ->
  exact_pricing n X y D (fun _ => by_enumeration n X D).
Proof.
  intros HD HD0 t m lam mu Hl Hm Hn SL. eexists. split; [reflexivity|].
  set (ks := filter _ _). set (g := fun k best => _). 
  assert (FK : forall k, In k ks <-> increasing k /\ clause_over n k /\ (Z.of_nat (length k) <= D)%Z).
  { intros k. unfold ks. rewrite filter_In, subsets_In, Z.leb_le. unfold clause_over. split.
    - intros [[A B] C]. split; auto. split; auto. eapply Forall_impl; [|exact B]. cbn. intros; lia.
    - intros (A & B & C). split; auto. split; auto. eapply Forall_impl; [|exact B]. cbn. intros; lia. }
  assert (G : forall l, (forall k, In k l -> In k ks) ->
     let b := fold_right g [] l in In b ks /\ forall k, In k l -> (objective_value m (clause_point n X b) <= objective_value m (clause_point n X k))%Q).
  { induction l as [|k l IH]; intros Hsub; cbn [fold_right].
    - split; [|intros k []]. apply FK. split; [constructor|]. split; [constructor|cbn; lia].
    - destruct IH as [I1 I2]; [intros; apply Hsub; right; auto|]. set (b' := fold_right g [] l) in *.
      assert (Eg : g k b' = k /\ (objective_value m (clause_point n X k) <= objective_value m (clause_point n X b'))%Q
                \/ g k b' = b' /\ (objective_value m (clause_point n X b') <= objective_value m (clause_point n X k))%Q).
      { unfold g. destruct (Qltb _ _) eqn:B; [left|right]; (split; [auto|]).
        - apply Qltb_true in B. apply Qlt_le_weak. auto.
        - apply Qltb_false in B. auto. }
      cbv zeta. destruct Eg as [[-> Hg]|[-> Hg]].
      + split; [apply Hsub; left; auto|]. intros k' [<-|Hk]; [apply Qle_refl|]. eapply Qle_trans; [exact Hg|auto].
      + split; auto. intros k' [<-|Hk]; auto. }
  destruct (G ks (fun k H => H)) as [G1 G2]. apply FK in G1. destruct G1 as (K1 & K2 & K3).
  pose proof (clause_point_feasible n X y HD D lam mu Hn _ K1 K2 K3) as F.
  split; [eapply same_ip_feasible; [apply same_lp_sym; exact SL|exact F]|].
  intros x' Fx'. apply (same_ip_feasible _ _ _ SL) in Fx'. unfold as_good. pose proof SL as (_ & _ & _ & SM & _). rewrite SM. cbn [problem2 lp_max].
  assert (HS : In (selected n x') ks).
  { apply FK. split; [apply selected_increasing|]. split; [apply selected_over|]. eapply selected_length; eauto. }
  specialize (G2 _ HS). eapply Qle_trans; [exact G2|]. rewrite (same_objective _ _ _ SL), (same_objective _ _ x' SL).
  rewrite clause_point_objective by (auto using selected_increasing, selected_over). apply feasible_lower; auto.
Qed.

(** A data set with one feature, the same samples with exchanged labels, and solvers for every model that fit can build for
    them. *)
Definition tiny_X : matrix := [[1]; [0]]%Q.
Definition tiny_y : list nat := [1; 0].
Definition tiny_y' : list nat := [0; 1].
Lemma tiny_data : dataset 1 tiny_X tiny_y.
Proof. split; [discriminate|]. split; [reflexivity|]. split; repeat (constructor; auto). Qed.
Lemma tiny_data' : dataset 1 tiny_X tiny_y'.
Proof. split; [discriminate|]. split; [reflexivity|]. split; repeat (constructor; auto). Qed.
Definition unit_at (i j : nat) : Q := if j =? i then 1%Q else 0%Q.
(** The clause [0] is variable 1 or 2 if it is there: its complexity is 2.  It is worth taking if it accepts no negative. *)
Definition tiny_lp (m : lp) : (nat -> Q) * (nat -> Q) :=
  let k := nth 0 (lp_cons m) (mkCon None None (fun _ => 0%Q)) in
  if Qeq_bool (c_coef k 1) 2 && Qeq_bool (lp_obj m 1) 0 then (unit_at 1, fun _ => 0%Q)
  else if Qeq_bool (c_coef k 2) 2 && Qeq_bool (lp_obj m 2) 0 then (unit_at 2, fun _ => 0%Q)
  else (unit_at 0, unit_at 1).
Definition tiny_solvers : solvers :=
  mkSolvers (fun _ => tiny_lp) (fun _ => by_enumeration 1 tiny_X 2) (fun _ m => Some (fst (tiny_lp m))).
Definition tiny_params (h : option nat) : bparams := mkBparams 2 1 (-1) (-1) h.

Lemma tiny_pool K : clause_pool 1 K -> K = [[]] \/ K = [[]; [0]] \/ K = [[0]; []].
Proof.
  intros (H1 & H2 & H3 & H4).
  assert (G : forall k, In k K -> k = [] \/ k = [0]).
  { intros k Hk. rewrite Forall_forall in H3, H4. specialize (H3 _ Hk). specialize (H4 _ Hk).
    destruct k as [|a k]; auto. inversion H4 as [|? ? Ha Hk']; subst. destruct k as [|b k].
    - right. f_equal. lia.
    - inversion H3 as [|? ? _ Hab]; subst. inversion Hab; subst. inversion Hk'; subst. lia. }
  destruct K as [|a K]; [destruct H1|]. inversion H2 as [|? ? Ha H2']; subst. destruct K as [|b K].
  - left. destruct H1 as [->|[]]. auto.
  - inversion H2' as [|? ? Hb H2'']; subst. destruct K as [|c K].
    + right. destruct (G a) as [->| ->]; [left; auto| |]; (destruct (G b) as [->| ->]; [right; left; auto| |]); auto;
        exfalso; try (apply Ha; left; reflexivity).
    + exfalso. inversion H2'' as [|? ? Hc _]; subst. cbn in Ha, Hb. 
      destruct (G a) as [->| ->]; [left; auto| |]; (destruct (G b) as [->| ->]; [right; left; auto| |]);
      (destruct (G c) as [->| ->]; [right; right; left; auto| |]); tauto.
Qed.

Lemma tiny_lp_same m m' : same_lp m m' -> tiny_lp m = tiny_lp m'.
Proof.
  intros (_ & HO & _ & _ & H). unfold tiny_lp.
  assert (E : forall j, (c_coef (nth 0 (lp_cons m) (mkCon None None (fun _ => 0))) j == c_coef (nth 0 (lp_cons m') (mkCon None None (fun _ => 0))) j)%Q).
  { intros j. destruct H as [|k k' l l' (_ & _ & Hk) _]; cbn; [reflexivity|apply Hk]. }
  rewrite !E, !HO. reflexivity.
Qed.

Lemma tiny_certified y K : y = tiny_y \/ y = tiny_y' -> clause_pool 1 K ->
  let m := problem1 tiny_X y 2 1 K in
  kktb m (fst (tiny_lp m)) (snd (tiny_lp m)) = true /\ ip_feasibleb m (fst (tiny_lp m)) = true.
Proof. intros [->| ->] H; (destruct (tiny_pool K H) as [->|[->| ->]]; vm_compute; auto). Qed.

Lemma tiny_exact_rmp y h : y = tiny_y \/ y = tiny_y' ->
  exact_rmp 1 tiny_X y (bp_C (tiny_params h)) (bp_p (tiny_params h)) (sv_lp tiny_solvers).
Proof.
  intros Hy t m K PK SL. cbn [sv_lp tiny_solvers]. rewrite (tiny_lp_same _ _ SL). eapply same_kkt; [apply same_lp_sym; exact SL|].
  apply kktb_ok. apply (tiny_certified y K Hy PK).
Qed.
Lemma tiny_exact_pricing y h : y = tiny_y \/ y = tiny_y' -> exact_pricing 1 tiny_X y (bp_C (tiny_params h)) (sv_pricing tiny_solvers).
Proof. intros [->| ->]; (apply by_enumeration_exact; [first [apply tiny_data|apply tiny_data']|cbn; lia]). Qed.
Lemma exact_complete_pricing n X y D f : exact_pricing n X y D f -> complete_pricing n X y D f.
Proof. intros H t m lam mu A B C0 D0. destruct (H t m lam mu A B C0 D0) as (x & E & F & _). eauto. Qed.
Lemma exact_complete_ip n X y C p f : exact_ip n X y C p f -> complete_ip n X y C p f.
Proof. intros H t m K A B. destruct (H t m K A B) as (x & E & F & _). eauto. Qed.
Lemma tiny_exact_ip y h : y = tiny_y \/ y = tiny_y' ->
  exact_ip 1 tiny_X y (bp_C (tiny_params h)) (bp_p (tiny_params h)) (sv_ip tiny_solvers).
Proof.
  intros Hy t m K PK SL. cbn [sv_ip tiny_solvers]. eexists. split; [reflexivity|]. rewrite (tiny_lp_same _ _ SL).
  destruct (tiny_certified y K Hy PK) as [A B]. apply kktb_ok in A. apply ip_feasibleb_ok in B. pose proof (kkt_ip_optimal _ _ _ A B) as [F Op].
  split; [eapply same_ip_feasible; [apply same_lp_sym; exact SL|exact F]|]. intros x' F'. specialize (Op x' (same_ip_feasible _ _ _ SL F')).
  unfold as_good in *. pose proof SL as (_ & _ & _ & SM & _). rewrite SM. cbn [problem1 lp_max] in *.
  rewrite (same_objective _ _ _ SL), (same_objective _ _ x' SL). exact Op.
Qed.

(** The same LP solver, except that it reports [- tau] instead of 0 for the dual of the positive sample. *)
Definition shaken_lp (tau : Q) (m : lp) : (nat -> Q) * (nat -> Q) :=
  (fst (tiny_lp m), fun c => if (c =? 1) && Qeq_bool (snd (tiny_lp m) 1) 0 then (- tau)%Q else snd (tiny_lp m) c).
Definition shaken_solvers (tau : Q) : solvers :=
  mkSolvers (fun _ => shaken_lp tau) (sv_pricing tiny_solvers) (sv_ip tiny_solvers).
Lemma shaken_near tau t m c : (0 <= tau)%Q ->
  (snd (tiny_lp m) c - tau <= snd (sv_lp (shaken_solvers tau) t m) c <= snd (tiny_lp m) c + tau)%Q.
Proof.
  intros Ht. cbn [sv_lp shaken_solvers shaken_lp snd]. destruct (Nat.eqb_spec c 1) as [->|]; cbn [andb]; [|lra].
  destruct (Qeq_bool (snd (tiny_lp m) 1) 0) eqn:E; [apply Qeq_bool_iff in E; lra|lra].
Qed.
Lemma shaken_raises tau : (0 < tau)%Q ->
  snd (bdr_fit (shaken_solvers tau) (tiny_params None) (fun _ => 0%Q) tiny_X tiny_y 2 (new_estimator (bdr_init (tiny_params None)))) = Raised AssertionError.
Proof. intros Ht. destruct tau as [[|a|a] b]; [discriminate Ht| |discriminate Ht]. clear Ht. lazy. reflexivity. Qed.
(** With the opposite sign its duals are wrong by [tau], but not negative. *)
Lemma lifted_near_rmp : near_rmp 1 tiny_X tiny_y 2 1 (1 # 10000000) (sv_lp (shaken_solvers (- (1 # 10000000)))).
Proof.
  intros t m K PK SL. cbn [sv_lp shaken_solvers shaken_lp snd]. unfold shaken_lp. rewrite (tiny_lp_same _ _ SL). cbn [snd].
  rewrite (same_num_cons _ _ SL), problem1_num_cons. split.
  - eapply same_near; [apply same_lp_sym; exact SL|]. apply near_dualb_ok. destruct (tiny_pool K PK) as [->|[->| ->]]; vm_compute; reflexivity.
  - change (length (positives tiny_X tiny_y)) with 1. intros c Hc. assert (c = 1) as -> by lia.
    destruct (tiny_pool K PK) as [->|[->| ->]]; vm_compute; discriminate.
Qed.

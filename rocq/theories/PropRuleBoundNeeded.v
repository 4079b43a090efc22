(** Claim C91: the limit on the clauses of the heuristic is needed. *)
From Verif Require Import Base Lp LpProofs FitModel SpecFit FitProofs FitMainProofs FitHoareProofs FitInvProofs.
From Verif Require Import SpecDual DualProofs BdrModel SpecBdr BdrProofs BdrLpProofs BdrPricingProofs BdrSubmipProofs BdrRuleProofs BdrFitModel BdrRunProofs BdrCertProofs.
From Verif Require Import LpCheck BdrWitness PropBdr PropBdrRun.
Open Scope nat_scope.

(** One positive sample with both features and two negative ones with one feature each. *)
Definition both_X : matrix := [[1; 1]; [1; 0]; [0; 1]]%Q.
Definition both_y : list nat := [1; 0; 0].
Lemma both_data : dataset 2 both_X both_y.
Proof. split; [discriminate|]. split; [reflexivity|]. split; repeat (constructor; auto). Qed.

(** All lists without repetition of elements of [U]. *)
Fixpoint arrangements (fuel : nat) (U : list clause) : list (list clause) :=
  match fuel with
  | O => [[]]
  | S f => [] :: flat_map (fun a => map (cons a) (arrangements f (remove clause_dec a U))) U
  end.
Lemma arrangements_In f : forall U K, length K <= f -> NoDup K -> incl K U -> In K (arrangements f U).
Proof.
  induction f as [|f IH]; intros U K HL ND HI; destruct K as [|a K]; cbn in HL |- *; auto; [lia|].
  right. apply in_flat_map. exists a. split; [apply HI; left; auto|]. apply in_map. inversion ND; subst. apply IH; [lia|auto|].
  intros k Hk. apply in_in_remove; [intros ->; auto|apply HI; right; auto].
Qed.
Lemma both_pool K : clause_pool 2 K -> In K (arrangements 4 [[]; [0]; [1]; [0; 1]]).
Proof.
  intros (H1 & H2 & H3 & H4).
  assert (G : incl K [[]; [0]; [1]; [0; 1]]).
  { intros k Hk. rewrite Forall_forall in H3, H4. specialize (H3 _ Hk). specialize (H4 _ Hk).
    destruct k as [|a k]; [left; auto|]. inversion H4 as [|? ? Ha H5]; subst. destruct k as [|b k].
    - destruct a as [|[|a]]; [right; left; auto|right; right; left; auto|lia].
    - inversion H3 as [|? ? G6 G7]; subst. inversion G7 as [|? ? Hab]; subst. inversion H5 as [|? ? Hb G8]; subst. destruct k as [|c k].
      + assert (a = 0) as -> by lia. assert (b = 1) as -> by lia. right. right. right. left. auto.
      + inversion G6 as [|? ? _ G9]; subst. inversion G9; subst. inversion G8; subst. lia. }
  apply arrangements_In; auto. apply (NoDup_incl_length H2 G).
Qed.

(** The clause [0; 1] is the variable with complexity 3.  A third of it fits into the budget 1. *)
Definition third_at (i j : nat) : Q := if j =? 0 then (2 # 3)%Q else if j =? i then (1 # 3)%Q else 0%Q.
Definition third_duals (c : nat) : Q := match c with O => (- (1 # 3))%Q | S O => 1%Q | _ => 0%Q end.
Definition both_lp (m : lp) : (nat -> Q) * (nat -> Q) :=
  let k := nth 0 (lp_cons m) (mkCon None None (fun _ => 0%Q)) in
  match find (fun j => Qeq_bool (c_coef k j) 3) [1; 2; 3; 4] with
  | Some j => (third_at j, third_duals)
  | None => (unit_at 0, unit_at 1)
  end.
Definition both_solvers : solvers :=
  mkSolvers (fun _ => both_lp) (fun _ => by_enumeration 2 both_X 1) (fun _ _ => Some (unit_at 0)).
Definition both_params (h : option nat) : bparams := mkBparams 1 1 (-1) (-1) h.

Definition has_empty (K : list clause) : bool := if in_dec clause_dec [] K then true else false.
Lemma both_certified : forallb (fun K => negb (has_empty K)
    || (let m := problem1 both_X both_y 1 1 K in kktb m (fst (both_lp m)) (snd (both_lp m)) && ip_feasibleb m (unit_at 0)))
  (arrangements 4 [[]; [0]; [1]; [0; 1]]) = true.
Proof. vm_compute. reflexivity. Qed.
Lemma both_ok K : clause_pool 2 K -> let m := problem1 both_X both_y 1 1 K in
  kktb m (fst (both_lp m)) (snd (both_lp m)) = true /\ ip_feasibleb m (unit_at 0) = true.
Proof.
  intros PK. pose proof both_certified as H. rewrite forallb_forall in H. specialize (H K (both_pool K PK)). destruct PK as (H1 & _).
  unfold has_empty in H. destruct (in_dec clause_dec [] K); [|contradiction]. cbn [negb orb] in H. apply Bool.andb_true_iff in H. exact H.
Qed.
Lemma both_exact_rmp : exact_rmp 2 both_X both_y 1 1 (sv_lp both_solvers).
Proof.
  intros t m K PK SL. cbn [sv_lp both_solvers].
  assert (E0 : both_lp m = both_lp (problem1 both_X both_y 1 1 K)).
  { destruct SL as (_ & _ & _ & _ & H). unfold both_lp.
    assert (E : forall j, (c_coef (nth 0 (lp_cons m) (mkCon None None (fun _ => 0))) j
        == c_coef (nth 0 (lp_cons (problem1 both_X both_y 1 1 K)) (mkCon None None (fun _ => 0))) j)%Q).
    { intros j. destruct H as [|k k' l l' (_ & _ & Hk) _]; cbn; [reflexivity|apply Hk]. }
    cbn [find]. rewrite !E. reflexivity. }
  rewrite E0. eapply same_kkt; [apply same_lp_sym; exact SL|]. apply kktb_ok. apply (both_ok K PK).
Qed.
Lemma both_complete_ip : complete_ip 2 both_X both_y 1 1 (sv_ip both_solvers).
Proof.
  intros t m K PK SL. exists (unit_at 0). split; [reflexivity|]. eapply same_ip_feasible; [apply same_lp_sym; exact SL|].
  apply ip_feasibleb_ok. apply (both_ok K PK).
Qed.

(** With a heuristic that builds clauses of two features and the budget 1, which allows the exact pricing only clauses of one
    feature, the same exact solvers end with optimality and the bounds 2/3 and 1. *)
Theorem C91_heuristic_size_needed : exists n X y sv P P' clk s s', dataset n X y
  /\ exact_rmp n X y (bp_C P) (bp_p P) (sv_lp sv) /\ exact_pricing n X y (bp_C P) (sv_pricing sv) /\ complete_ip n X y (bp_C P) (bp_p P) (sv_ip sv)
  /\ bp_C P' = bp_C P /\ bp_p P' = bp_p P /\ bp_heuristic P = Some 2 /\ bp_heuristic P' = None /\ bp_C P = 1%Z
  /\ bdr_fit sv P clk X y 3 (new_estimator (bdr_init P)) = (s, Done tt) /\ f_optimal s = true
  /\ bdr_fit sv P' clk X y 3 (new_estimator (bdr_init P')) = (s', Done tt) /\ f_optimal s' = true
  /\ (last_bound s == 2 # 3)%Q /\ (last_bound s' == 1)%Q.
Proof.
  exists 2, both_X, both_y, both_solvers, (both_params (Some 2)), (both_params None), (fun _ => 0%Q).
  exists (fst (bdr_fit both_solvers (both_params (Some 2)) (fun _ => 0%Q) both_X both_y 3 (new_estimator (bdr_init (both_params (Some 2)))))),
    (fst (bdr_fit both_solvers (both_params None) (fun _ => 0%Q) both_X both_y 3 (new_estimator (bdr_init (both_params None))))).
  split; [apply both_data|]. split; [apply both_exact_rmp|].
  split; [apply by_enumeration_exact; [apply both_data|cbn; lia]|]. split; [apply both_complete_ip|].
  do 5 (split; [reflexivity|]). do 4 (split; [vm_compute; reflexivity|]). split; vm_compute; reflexivity.
Qed.
Print Assumptions C91_heuristic_size_needed.

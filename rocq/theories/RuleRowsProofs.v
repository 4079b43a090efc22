(** Proofs for C93. *)
From Verif Require Import Base Lp LpProofs FitModel SpecFit FitProofs FitMainProofs FitHoareProofs FitInvProofs.
From Verif Require Import SpecDual DualProofs BdrModel SpecBdr BdrProofs BdrLpProofs BdrPricingProofs BdrSubmipProofs BdrRuleProofs BdrFitModel BdrRunProofs BdrCertProofs.
From Verif Require Import LpCheck BdrWitness PropBdr PropBdrRun RuleBoundProofs.
From Verif Require Import SpecRuleRows.
From Coq Require Import Permutation.
Open Scope nat_scope.

(** The bound of a finished training is the value of a solution of problem (1) with short clauses. *)
Lemma attained n X y sv P clk fuel s M : dataset n X y ->
  exact_rmp n X y (bp_C P) (bp_p P) (sv_lp sv) -> exact_pricing n X y (bp_C P) (sv_pricing sv) -> complete_ip n X y (bp_C P) (bp_p P) (sv_ip sv) ->
  bdr_fit sv P clk X y fuel (new_estimator (bdr_init P)) = (s, Done tt) -> f_optimal s = true ->
  (bp_C P <= M)%Z -> (forall size, bp_heuristic P = Some size -> (Z.of_nat size <= M)%Z) ->
  exists xi K, p1_feasible X y (bp_C P) xi K /\ (last_bound s == p1_objective X y (bp_p P) xi K)%Q
    /\ forall k w, In (k, w) K -> clause_over n k /\ (Z.of_nat (length k) <= M)%Z.
Proof.
  intros HD HL HX HI HF HO HC HK. pose proof (exact_complete_pricing _ _ _ _ _ HX) as HP. assert (H0 : (0 <= eps)%Q) by (unfold eps; lra).
  destruct (bdr_fit_done n X y HD sv P clk 0%Q H0 (exact_near_rmp _ _ _ _ _ _ HL) HP HI fuel s HF) as (_ & _ & HJ). destruct (HJ HO) as (b & d & J).
  destruct J as (K & t & pi & (I & PK & HS) & _ & Et & _).
  pose proof (HL t _ K PK (mi_lp _ _ _ _ _ _ I)) as KK. rewrite Et in KK. cbn [fst snd] in KK.
  apply (same_kkt _ _ _ _ (mi_lp _ _ _ _ _ _ I)) in KK. destruct KK as (KF & _). apply p1_feasible_iff in KF.
  pose proof (budget_pos _ _ _ _ _ KF) as HC0. assert (HM : (0 <= M)%Z) by lia.
  exists (penalties X y (bw_last (f_world s))), (weights X y K (bw_last (f_world s))). split; [exact KF|].
  split; [unfold last_bound; rewrite (same_objective _ _ _ (mi_lp _ _ _ _ _ _ I)); apply p1_objective_value|].
  intros k w Hk. unfold weights in Hk. apply in_combine_l in Hk. split.
  - destruct PK as (_ & _ & _ & PO). rewrite Forall_forall in PO. auto.
  - destruct (bdr_fit_short n X y HD sv P clk 0%Q H0 (exact_near_rmp _ _ _ _ _ _ HL) HP HI M HM HC HK fuel s HF HO) as (_ & _ & _ & Sh).
    unfold short in Sh. rewrite (inv_clauses _ _ _ _ _ _ I) in Sh. rewrite Forall_forall in Sh. apply Sh. auto.
Qed.

Definition same_row (r r' : list Q) : Prop := forall j, has r j = has r' j.
Lemma accepts_same r r' k : same_row r r' -> accepts r k = accepts r' k.
Proof. intros H. unfold accepts. induction k as [|j k IH]; cbn; auto. rewrite H, IH. reflexivity. Qed.

Lemma filter_same t rows rows' : Forall2 same_sample rows rows' ->
  Forall2 same_row (map fst (filter (fun s => snd s =? t) rows)) (map fst (filter (fun s => snd s =? t) rows')).
Proof.
  induction 1 as [|a b l l' [H1 H2] F IH]; cbn [filter map]; auto. rewrite H1. destruct (snd b =? t); cbn [map]; auto.
Qed.
Lemma filter_perm {A} (f : A -> bool) l l' : Permutation l l' -> Permutation (filter f l) (filter f l').
Proof.
  induction 1 as [| |a b l|]; cbn [filter]; auto.
  - destruct (f x); auto.
  - destruct (f a), (f b); auto using perm_swap.
  - etransitivity; eauto.
Qed.

(** The rows of one label: those of the smaller set, similar ones in the larger set, and the rest. *)
Lemma label_rows X' y' X y t : rows_among X' y' X y -> exists more rows,
  Permutation rows (map fst (filter (fun s => snd s =? t) (combine X y)))
  /\ Forall2 same_row (map fst (filter (fun s => snd s =? t) (combine X' y')) ++ more) rows.
Proof.
  intros (more & rows & HP & HF). exists (map fst (filter (fun s => snd s =? t) more)), (map fst (filter (fun s => snd s =? t) rows)).
  split; [apply Permutation_map, filter_perm, HP|]. rewrite <- map_app, <- filter_app. apply filter_same, HF.
Qed.

Lemma accepted_same k l l' : Forall2 same_row l l' -> length (filter (fun r => accepts r k) l) = length (filter (fun r => accepts r k) l').
Proof. induction 1 as [|a b l l' H F IH]; cbn [filter]; auto. rewrite (accepts_same _ _ k H). destruct (accepts b k); cbn; auto. Qed.
Lemma false_positives_among X' y' X y k : rows_among X' y' X y -> false_positives X' y' k <= false_positives X y k.
Proof.
  intros H. destruct (label_rows _ _ _ _ 0 H) as (more & rows & HP & HF). unfold false_positives, negatives.
  rewrite <- (Permutation_length (filter_perm (fun r => accepts r k) _ _ HP)), <- (accepted_same _ _ _ HF), filter_app, app_length. lia.
Qed.

Definition pays (K : list (clause * Q)) (r : list Q) (q : Q) : Prop :=
  (0 <= q /\ 1 <= q + qsum (fun kw => if accepts r (fst kw) then snd kw else 0) K)%Q.
Lemma pays_same K r r' q : same_row r r' -> pays K r' q -> pays K r q.
Proof.
  intros H [H1 H2]. split; auto. rewrite (qsum_ext _ (fun kw => if accepts r' (fst kw) then snd kw else 0)%Q); auto.
  intros kw _. rewrite (accepts_same _ _ _ H). reflexivity.
Qed.
Lemma pays_among K l l' xi : Forall2 same_row l l' -> Forall2 (pays K) l' xi -> Forall2 (pays K) l xi.
Proof. intros F. revert xi. induction F; intros xi G; inversion G; subst; constructor; eauto using pays_same. Qed.

(** A solution for a data set gives one for every smaller data set that costs no more. *)
Lemma among_solution X' y' X y C p xi K : (0 <= p)%Q -> rows_among X' y' X y -> p1_feasible X y C xi K ->
  exists xi', p1_feasible X' y' C xi' K /\ (p1_objective X' y' p xi' K <= p1_objective X y p xi K)%Q.
Proof.
  intros Hp H (F1 & F2 & F3). destruct (label_rows _ _ _ _ 1 H) as (more & rows & HP & HF).
  destruct (Permutation_Forall2 (Permutation_sym HP) F1) as (xi1 & PX & G). apply (pays_among K _ _ _ HF) in G.
  apply Forall2_app_inv_l in G. destruct G as (xi' & xe & G1 & G2 & ->). exists xi'. split; [split; [exact G1|auto]|].
  assert (HX : (qsum (fun q => q) xi' <= qsum (fun q => q) xi)%Q).
  { rewrite (qsum_perm (fun q => q) _ _ PX), qsum_app.
    assert (0 <= qsum (fun q => q) xe)%Q; [|lra]. apply qsum_nonneg. clear -G2. induction G2 as [|r q l l' [H _] F IH]; intros a; [intros []|]. intros [<-|Ha]; auto. }
  unfold p1_objective. assert (HN : (qsum (fun kw => qn (false_positives X' y' (fst kw)) * snd kw) K <= qsum (fun kw => qn (false_positives X y (fst kw)) * snd kw) K)%Q).
  { apply qsum_le. intros kw Hk. rewrite Forall_forall in F2. specialize (F2 _ Hk). apply Qmult_le_compat_r; auto. unfold qn. rewrite <- Zle_Qle.
    pose proof (false_positives_among _ _ _ _ (fst kw) H). lia. }
  pose proof (Qmult_le_compat_r _ _ p HX Hp). rewrite (Qmult_comm p (qsum (fun q => q) xi')), (Qmult_comm p (qsum (fun q => q) xi)). lra.
Qed.

(** Clauses carried over to other columns. *)
Section Features.
Variables (n n' : nat) (f : nat -> nat).
Definition kept (r r' : list Q) : Prop := forall j, j < n -> has r' (f j) = has r j.
Definition carry (kw : clause * Q) : clause * Q := (map f (fst kw), snd kw).
Lemma accepts_carry r r' k : kept r r' -> clause_over n k -> accepts r' (map f k) = accepts r k.
Proof. intros H Ho. unfold accepts. induction Ho as [|j k Hj Ho IH]; cbn; auto. rewrite (H j Hj), IH. reflexivity. Qed.
Lemma filter_kept X X' y t : Forall2 kept X X' ->
  Forall2 kept (map fst (filter (fun s => snd s =? t) (combine X y))) (map fst (filter (fun s => snd s =? t) (combine X' y))).
Proof.
  intros F. revert y. induction F as [|a b l l' H F IH]; intros [|c y]; cbn [combine filter map]; auto. cbn [snd]. destruct (c =? t); cbn [map fst]; auto.
Qed.
Lemma false_positives_carry X X' y k : Forall2 kept X X' -> clause_over n k -> false_positives X' y (map f k) = false_positives X y k.
Proof.
  intros F Ho. unfold false_positives, negatives. induction (filter_kept X X' y 0 F) as [|a b l l' H G IH]; cbn [filter]; auto.
  rewrite (accepts_carry _ _ k H Ho). destruct (accepts a k); cbn; auto.
Qed.
Lemma carry_solution X X' y C p xi K : Forall2 kept X X' -> (forall k w, In (k, w) K -> clause_over n k) -> p1_feasible X y C xi K ->
  p1_feasible X' y C xi (map carry K) /\ (p1_objective X' y p xi (map carry K) == p1_objective X y p xi K)%Q.
Proof.
  intros F HK (F1 & F2 & F3). split; [split; [|split]|].
  - pose proof (filter_kept X X' y 1 F) as G. fold (positives X y) in G. fold (positives X' y) in G.
    revert xi F1. induction G as [|a b l l' H G IH]; intros xi F1; inversion F1 as [|? q ? ? [H1 H2] F1']; subst; constructor; auto.
    split; auto. rewrite qsum_map. rewrite (qsum_ext _ (fun kw => if accepts a (fst kw) then snd kw else 0)%Q); auto.
    intros [k w] Hk. unfold carry. cbn [fst snd]. rewrite (accepts_carry _ _ k H (HK _ _ Hk)). reflexivity.
  - apply Forall_map. eapply Forall_impl; [|exact F2]. auto.
  - rewrite qsum_map. rewrite (qsum_ext _ (fun kw => qn (complexity (fst kw)) * snd kw)%Q); auto.
    intros [k w] Hk. unfold carry, complexity. cbn [fst snd]. rewrite map_length. reflexivity.
  - unfold p1_objective. rewrite qsum_map. rewrite (qsum_ext (fun a => qn (false_positives X' y (fst (carry a))) * snd (carry a))%Q (fun kw => qn (false_positives X y (fst kw)) * snd kw)%Q); [reflexivity|].
    intros [k w] Hk. unfold carry. cbn [fst snd]. rewrite (false_positives_carry X X' y k F (HK _ _ Hk)). reflexivity.
Qed.
End Features.

(** Lemmas about a whole training run of the decision tree estimator: the solver is asked for the final model, CP-SAT runs
    are scored, reachable master problems are feasible. *)
From Verif Require Import Base Lp FitModel FitMainProofs SpecTuner TunerModel TunerObs TunerProofs TunerRunProofs SolveModel SolveObs SolveProofs TreeModel TreePricingModel TreeFitModel
  SpecTree SpecTreeRun SpecTreeLp SpecTreePrice SpecTreeMip SpecTreeFit SpecTreeTrain TreeInvProofs TreeOpProofs TreeRunProofs TreeMasterProofs TreeFedProofs
  PropTreeLp PropTreeMaster.
Open Scope nat_scope.

Lemma two_labels y : (exists a b, In a y /\ In b y /\ a <> b) -> 1 < distinct_labels (map Z.of_nat y).
Proof.
  intros (a & b & Ha & Hb & Hab). unfold distinct_labels.
  assert (H : NoDup [Z.of_nat a; Z.of_nat b]) by (constructor; [|constructor; [auto|constructor]]; intros [E|[]]; apply Nat2Z.inj in E; congruence).
  change 1 with (pred (length [Z.of_nat a; Z.of_nat b])). enough (length [Z.of_nat a; Z.of_nat b] <= length (nodup Z.eq_dec (map Z.of_nat y))) by (cbn in *; lia).
  apply NoDup_incl_length; auto. intros z Hz. apply nodup_In. apply in_map_iff. destruct Hz as [<-|[<-|[]]]; eauto.
Qed.

(** ** The answer is one for the final model *)
Definition asked (sv : tsolvers) (s : tmaster) : Prop := exists i, tv_lp sv i (tm_lp s) = tm_answer s.
Lemma cut_rounds_asked sv n : forall s new c s', cut_rounds sv n s new = Ok (c, s') -> asked sv s -> asked sv s'.
Proof.
  induction n as [|n IH]; intros s new c s' E H; cbn [cut_rounds] in E; [injection E as _ <-; auto|].
  destruct (tm_answer s) as [[x pi]|] eqn:Ea; [|injection E as _ <-; exact H].
  destruct (if tm_beta_cuts _ then _ else _) as [[num s2]|] eqn:E1; [|discriminate]. cbn [bind] in E.
  destruct (if tm_gen_cuts s2 && _ then _ else _) as [[cuts s3]|] eqn:E2; [|discriminate]. cbn [bind] in E.
  assert (A2 : tm_answer s2 = tm_answer s /\ (num = 0 -> tm_lp s2 = tm_lp s)).
  { destruct (tm_beta_cuts (store_lp_solution x s)); [apply add_beta_cuts_same in E1; exact E1|injection E1 as _ <-; auto]. }
  assert (A3 : tm_answer s3 = tm_answer s2 /\ (cuts = [] -> s3 = s2)).
  { destruct (tm_gen_cuts s2 && (num =? 0)); [apply add_cuts_same in E2; exact E2|injection E2 as _ <-; auto]. }
  destruct ((0 <? length cuts) || (0 <? num)) eqn:Eo.
  - eapply IH; [exact E|]. eexists. reflexivity.
  - injection E as _ <-. apply orb_false_iff in Eo. rewrite !Nat.ltb_ge in Eo. destruct cuts; [|cbn in Eo; lia]. assert (num = 0) by lia.
    destruct A2 as [A2 B2], A3 as [A3 B3]. rewrite (B3 eq_refl) in *. unfold asked in *. cbn [add_total tm_lp tm_answer]. rewrite B2, A2 by auto. exact H.
Qed.
Lemma solve_asked sv s dl s' : solve_rmp sv s = Ok (dl, s') -> asked sv s'.
Proof.
  unfold solve_rmp. destruct (assert _); [|discriminate]. cbn [bind]. set (s1 := solve_lp sv (start_iter s)).
  assert (H1 : asked sv s1) by (eexists; reflexivity).
  destruct (if _ =? 0 then _ else _) as [[new s2]|] eqn:E2; [|discriminate]. cbn [bind].
  assert (H2 : asked sv s2).
  { destruct (_ =? 0); [eapply cut_rounds_asked; eauto|injection E2 as _ <-; auto]. }
  destruct (tm_answer s2) as [[x pi]|] eqn:Ea.
  - destruct (read_duals _ _ _); [|discriminate]. cbn [bind]. intros E. injection E as _ <-. exact H2.
  - intros E. injection E as _ <-. exact H2.
Qed.

(** ** Scoring of CP-SAT runs *)
Definition tuned_param (p : param) : Prop := exists cr cur, TunerProofs.tinv (3 # 10) p cr cur /\ pm_values p <> [].
Definition tuned (s : subproblem) : Prop := tuned_param (sub_presolve s) /\ tuned_param (sub_probing s) /\ tuned_param (sub_lns s).
Lemma tuned_best rng p : tuned_param p -> exists v p', get_best_value rng p = Ok (v, p') /\ tuned_param p' /\
  forall q, exists p2, adjust_score p' q None = Ok p2 /\ tuned_param p2.
Proof.
  intros (cr & cur & I & Hv). destruct (best_ok _ _ _ _ rng I Hv) as (v & p' & E & Hn & Ev & _ & _ & Hlt & I'). exists v, p'. split; auto.
  split; [exists cr, (pm_cur p'); split; auto; congruence|]. intros q. pose proof (adjust_spec _ _ _ _ q None I') as Ha. cbv zeta in Ha.
  destruct (adjust_score p' q None) as [p2|e]; [|lia]. destruct Ha as (_ & I2 & Ev2 & _). exists p2. split; auto. eexists _, _. split; [exact I2|]. congruence.
Qed.
Lemma tuned_solve rs solver s : tuned s -> (forall st, ~ zero_gap_failure (solver st)) ->
  exists s' st, solve_model rs solver 2 s = (s', Ok st) /\ tuned s'.
Proof.
  intros (H1 & H2 & H3) Hg. unfold solve_model.
  destruct (tuned_best (rng_lns rs) _ H3) as (l & pl & El & Tl & Al). rewrite El. cbn [sub_presolve sub_probing sub_lns sub_times sub_gaps].
  destruct (tuned_best (rng_probing rs) _ H2) as (q & pq & Eq & Tq & Aq). rewrite Eq. cbn [sub_presolve sub_probing sub_lns sub_times sub_gaps].
  destruct (tuned_best (rng_presolve rs) _ H1) as (z & pz & Ez & Tz & Az). rewrite Ez. cbn [sub_presolve sub_probing sub_lns sub_times sub_gaps].
  pose proof (solve_scores_spec 2 (solver (mkSettings l q z)) eq_refl) as Hs.
  destruct (solve_scores 2 _) as [[t g]|e]; [|destruct Hs as [_ Hs]; destruct (Hg _ Hs)].
  destruct (Az (- (t + g))%Q) as (p1 & E1 & T1). rewrite E1. destruct (Aq (- (t + g))%Q) as (p2 & E2 & T2). rewrite E2.
  destruct (Al (- (t + g))%Q) as (p3 & E3 & T3). rewrite E3. eexists _, _. split; [reflexivity|]. repeat split; auto.
Qed.
Lemma tuned_init : tuned sub_init.
Proof.
  set (rs := mkStreams (fun k => k) (fun k => k) (fun k => k)). destruct (sub_hist_init rs) as [E1 E2 E3 _ _ _].
  split; [|split]; [rewrite E1|rewrite E2|rewrite E3]; (eexists _, _; split; [apply state_inv|rewrite state_values; cbn; discriminate]).
Qed.

(** ** Reachable master problems are feasible *)
Section Feasible.
Variable u : setup.
Hypothesis V : valid_setup u.
Variables (tree : nat -> nat) (sel : list path).
Hypothesis Hin : incl sel (su_paths u).
Hypothesis Hp : proper_paths u (su_paths u).
Hypothesis Ht : forms_tree u tree sel.
Lemma copies (P Q : list path) : Forall2 (fun p q => q = with_id p (p_id q)) P Q -> forall l, incl l P ->
  exists l', incl l' Q /\ Forall2 (fun p q => q = with_id p (p_id q)) l l'.
Proof.
  intros F. induction l as [|a l IH]; intros Hl; [exists []; split; [intros a []|constructor]|].
  destruct IH as (l' & I' & F'); [intros b Hb; apply Hl; cbn; auto|]. destruct (Forall2_In_l _ _ _ a F) as (b & Hb & E); [apply Hl; cbn; auto|].
  exists (b :: l'). split; [|constructor; auto]. intros c [<-|Hc]; auto.
Qed.
Lemma reachable_feasible ops cuts s : after u ops cuts s -> exists x, ip_feasible (tm_lp s) x.
Proof.
  intros H. destruct (after_inv _ _ _ _ V H) as (kinds & _ & _ & _ & _ & _ & F & _).
  destruct (copies _ _ F sel) as (sel' & I' & F'); [intros p Hp'; apply in_or_app; left; auto|].
  destruct Ht as (T1 & T2 & T3).
  assert (G : Forall (tree_path (su_depth u) (su_splits u)) sel' /\ map p_leaf sel' = map p_leaf sel /\ Forall (agrees tree) sel').
  { assert (Hs : Forall (tree_path (su_depth u) (su_splits u)) sel).
    { apply Forall_forall. intros p Hps. unfold proper_paths in Hp. rewrite Forall_forall in Hp. apply Hp, Hin, Hps. }
    clear - F' T3 Hs. induction F' as [|p q l l' E F IH]; [repeat split; auto|]. inversion T3; subst. inversion Hs; subst.
    destruct (IH H2 H4) as (G1 & G2 & G3). rewrite E. split; [constructor; auto|]. split; [cbn; rewrite G2; reflexivity|constructor; auto]. }
  destruct G as (G1 & G2 & G3). destruct (C37_all_trees u ops cuts s tree sel' V H I' G1) as (x & Hx & _); [|eauto].
  split; auto. split; auto. rewrite G2. exact T2.
Qed.
End Feasible.

(** Claims C08-C18 and C59: the column generation loop [fit] of ColGenClassifier. *)
From Verif Require Import Base FitModel SpecFit FitProofs FitRunProofs FitMainProofs FitTimeProofs FitTraceProofs.
Open Scope Q_scope.

(** A small estimator used to show that the hypotheses below are met: two levels (one and two subproblems); the world is
    the number of columns the master will still accept; subproblem (0,0) only proposes column 7, which is always
    rejected, (1,0) proposes nothing and (1,1) proposes two columns. *)
Definition toy_env (max : Z) (limit : Q) (clk : nat -> Q) (ip_ok : bool) : env nat nat nat :=
  mkEnv nat nat nat max limit [1%nat; 2%nat] true clk (fun w => Ok w) (fun w => Ok (w, w)) (fun w => Ok ((1 <? w)%nat, w))
    (fun w => (false, w)) (fun _ _ _ w => Ok w)
    (fun l i _ w => Ok (if (l =? 0)%nat then [7%nat] else if (i =? 0)%nat then [] else [1%nat; 2%nat], w))
    (fun c w => if (c =? 7)%nat then Ok (false, w) else if (0 <? w)%nat then Ok (true, pred w) else Ok (false, w))
    (fun w => Ok (ip_ok, w)).
Definition seconds (n : nat) : Q := inject_Z (Z.of_nat n).
Definition toy := toy_env 0 0 seconds true.
Definition toy_run := fit toy 10 [0; 1; 1]%Z (new_estimator 3%nat).

Example toy_done : snd toy_run = Done tt. Proof. vm_compute. reflexivity. Qed.

(** C08 *)
Theorem C08_iteration_cap : forall W D C (E : env W D C) fuel y s t,
  f_trace (fst (fit E fuel y s)) = f_trace s ++ t ->
  ((0 < max_iterations E)%Z -> (Z.of_nat (count is_solve t) <= max_iterations E)%Z)
  /\ (snd (fit E fuel y s) = Done tt ->
      f_iter (fst (fit E fuel y s)) = count is_solve t
      /\ ((max_iterations E <= 0)%Z -> f_optimal (fst (fit E fuel y s)) = true \/ f_tlr (fst (fit E fuel y s)) = true)).
Proof.
  intros W D C E fuel y s t Ht. split; [intros Hm; exact (fit_solves E fuel y s t Hm Ht)|].
  intros Hd. destruct (fit E fuel y s) as [s' o] eqn:EF. cbn in *. subst o.
  destruct (fit_spec E _ _ _ _ _ EF) as (_ & t' & e & T & (evs & L & ->) & I & _ & _ & O & TL & _).
  rewrite T in Ht. apply app_inv_head in Ht. subst t. split; [exact I|].
  intros Hm. destruct (loop_facts _ _ _ _ _ _ L) as (_ & F & _). specialize (F Hm).
  destruct e; [contradiction F; reflexivity|left; exact O|right; exact TL].
Qed.
Print Assumptions C08_iteration_cap.
Example C08_case :
  f_iter (fst toy_run) = 3%nat /\
  (let r := fit (toy_env 2 0 seconds true) 10 [0; 1]%Z (new_estimator 3%nat) in
   f_iter (fst r) = 2%nat /\ snd r = Done tt /\ f_optimal (fst r) = false).
Proof. vm_compute. auto. Qed.

(** C09 *)
Theorem C09_mp_optimal : forall W D C (E : env W D C) fuel y s s' u t,
  fit E fuel y s = (s', Done u) -> f_trace s' = f_trace s ++ t ->
  (f_optimal s' = true <->
   exists d body, last_iteration t = Some (d, body)
     /\ asked body = map (fun li => (li, d)) (all_subproblems (levels E))
     /\ (forall x, In x body -> is_added x = false)
     /\ (forall x, In x body -> ~ late (time_limit E) x))
  /\ (f_optimal s' = false ->
        f_tlr s' = true \/ (0 < max_iterations E)%Z /\ Z.of_nat (f_iter s') = max_iterations E)
  /\ (f_optimal s' = true -> f_tlr s' = false).
Proof.
  intros W D C E fuel y s s' u t EF Ht.
  destruct (fit_spec E _ _ _ _ _ EF) as (_ & t' & e & T & (evs & L & ->) & I & _ & _ & O & TL & _).
  rewrite T in Ht. apply app_inv_head in Ht. subst t.
  assert (HA : forall b : list (event D C), (forall x, In x b -> is_added x = false) -> count is_added b = 0%nat)
    by (intros; apply count_zero; auto).
  assert (HA' : forall b : list (event D C), count is_added b = 0%nat -> forall x, In x b -> is_added x = false).
  { intros b Hb x Hx. destruct (is_added x) eqn:Ex; auto. unfold count in Hb.
    assert (HF : In x (filter is_added b)) by (apply filter_In; auto). destruct (filter is_added b); [contradiction|discriminate]. }
  assert (HL : last_iteration (EvGenerateMp :: evs ++ (if rmp_is_ip E then [EvSolveIp true] else [])) =
     match last_iteration evs with
     | Some (d, b) => Some (d, b ++ (if rmp_is_ip E then [EvSolveIp true] else []))
     | None => None end).
  { cbn [last_iteration]. rewrite last_iteration_app by (destruct (rmp_is_ip E); reflexivity).
    destruct (last_iteration evs) as [[d b]|]; reflexivity. }
  set (ip := if rmp_is_ip E then [EvSolveIp true] else []) in *.
  assert (Hip : forall x, In x ip -> is_added x = false /\ ~ late (time_limit E) x).
  { intros x Hx. unfold ip in Hx. destruct (rmp_is_ip E); [destruct Hx as [<-|[]]|contradiction]. cbn. auto. }
  assert (Aip : asked ip = []) by (unfold ip; destruct (rmp_is_ip E); reflexivity).
  pose proof (loop_last _ _ _ _ _ _ L) as LL. rewrite HL.
  split; [|split].
  - rewrite O. destruct (last_iteration evs) as [[d body]|] eqn:EL.
    + destruct LL as (v & Hb & ->).
      destruct (iteration_body_facts _ _ _ _ _ Hb) as (F1 & F2 & F3 & (k & F4 & F4') & F5 & _).
      split.
      * intros Hv. exists d, (body ++ ip). split; [reflexivity|].
        destruct v; try discriminate.
        split. { unfold asked in *. rewrite flat_map_app, F4, (F4' eq_refl), Aip. apply app_nil_r. }
        split.
        -- intros x Hx. apply in_app_iff in Hx. destruct Hx as [Hx|Hx]; [|apply Hip; auto].
           apply (HA' body); auto. apply F2. discriminate.
        -- intros x Hx Hl. apply in_app_iff in Hx. destruct Hx as [Hx|Hx]; [|apply Hip in Hx; tauto].
           enough (Exhausted = TimedOut) by discriminate. apply F5. eauto.
      * intros (d' & body' & Eq & A & Na & Nl). inversion Eq; subst; clear Eq.
        destruct v; auto.
        -- exfalso. destruct F5 as [F5 _]. destruct (F5 eq_refl) as (x & Hx & Hl).
           apply (Nl x); auto. apply in_app_iff. auto.
        -- exfalso. specialize (F3 eq_refl). rewrite HA in F3; [lia|].
           intros x Hx. apply Na. apply in_app_iff. auto.
    + destruct LL as (_ & ->). split; [discriminate|]. intros (d & b & Eq & _). discriminate.
  - rewrite O, TL, I. destruct e; intros He; try discriminate; auto. right.
    destruct (loop_capped_count _ _ _ _ _ _ L eq_refl) as (C1 & C2). split; auto.
    rewrite count_cons, count_app. cbn [is_solve]. specialize (C2 ltac:(lia)).
    assert (count is_solve ip = 0%nat) by (unfold ip; destruct (rmp_is_ip E); reflexivity). lia.
  - rewrite O, TL. destruct e; intros; congruence.
Qed.
Print Assumptions C09_mp_optimal.
Example C09_case : f_optimal (fst toy_run) = true
  /\ f_optimal (fst (fit (toy_env 0 (1#2) seconds true) 10 [0; 1]%Z (new_estimator 3%nat))) = false.
Proof. vm_compute. auto. Qed.

(** C10 *)
Theorem C10_call_protocol : forall W D C (E : env W D C) fuel y s s' u,
  fit E fuel y s = (s', Done u) ->
  exists t e, f_trace s' = f_trace s ++ t
    /\ fit_trace (max_iterations E) (time_limit E) (levels E) (rmp_is_ip E) t e.
Proof.
  intros W D C E fuel y s s' u EF. destruct (fit_spec E _ _ _ _ _ EF) as (_ & t & e & T & F & _). eauto.
Qed.
Print Assumptions C10_call_protocol.
Example C10_case : without_times (firstn 13 (f_trace (fst toy_run))) =
  [EvGenerateMp; EvSolveRmp 3%nat; EvImproved true; EvUpdate 0 0 3%nat; EvUpdate 1 0 3%nat; EvUpdate 1 1 3%nat;
   EvCheck 0 0 0; EvGenerate 0 0 3%nat [7%nat]; EvAdd 0 0 7%nat false;
   EvCheck 1 0 0; EvGenerate 1 0 3%nat []; EvCheck 1 1 0; EvGenerate 1 1 3%nat [1%nat; 2%nat]].
Proof. vm_compute. reflexivity. Qed.

(** C11 *)
Theorem C11_column_accounting : forall W D C (E : env W D C) fuel y s s' u t,
  fit E fuel y s = (s', Done u) -> f_trace s' = f_trace s ++ t ->
  map (@length nat) (f_cols s') = levels E
  /\ (forall l i, nth i (nth l (f_cols s') []) 0%nat = count (is_add l i) t)
  /\ (forall j1 j2 l1 i1 c1 l2 i2 c2,
        nth_error t j1 = Some (EvAdd l1 i1 c1 true) -> nth_error t j2 = Some (EvAdd l2 i2 c2 true) ->
        count is_solve (firstn j1 t) = count is_solve (firstn j2 t) -> (l1, i1) = (l2, i2)).
Proof.
  intros W D C E fuel y s s' u t EF Ht.
  destruct (fit_spec E _ _ _ _ _ EF) as (_ & t' & e & T & (evs & L & ->) & I & _ & _ & O & TL & Sh & Co & _).
  rewrite T in Ht. apply app_inv_head in Ht. subst t. split; [exact Sh|]. split; [exact Co|].
  intros j1 j2 l1 i1 c1 l2 i2 c2 H1 H2 Hc.
  assert (HS : forall j l i c, nth_error (EvGenerateMp :: evs ++ (if rmp_is_ip E then [EvSolveIp true] else [])) j
                 = Some (EvAdd l i c true) ->
      nth_error evs (j - 1) = Some (EvAdd l i c true)
      /\ count is_solve (firstn j (EvGenerateMp :: evs ++ (if rmp_is_ip E then [EvSolveIp true] else [])))
         = count is_solve (firstn (j - 1) evs)).
  { intros [|j] l i c Hj; [discriminate|]. cbn [nth_error] in Hj. replace (S j - 1)%nat with j by lia.
    destruct (Nat.lt_ge_cases j (length evs)) as [Hl|Hl].
    - rewrite nth_error_app1 in Hj by auto. split; auto. cbn [firstn]. rewrite count_cons. cbn [is_solve].
      rewrite firstn_app. replace (j - length evs)%nat with 0%nat by lia. cbn [firstn]. rewrite app_nil_r. reflexivity.
    - rewrite nth_error_app2 in Hj by auto. destruct (rmp_is_ip E); destruct (j - length evs)%nat as [|[|?]]; discriminate. }
  apply HS in H1, H2. destruct H1 as [N1 K1], H2 as [N2 K2]. rewrite K1, K2 in Hc.
  destruct (loop_one_source _ _ _ _ _ _ L _ _ _ _ _ _ _ _ N1 N2 Hc). congruence.
Qed.
Print Assumptions C11_column_accounting.
Example C11_case : f_cols (fst toy_run) = [[0%nat]; [0%nat; 3%nat]]. Proof. vm_compute. reflexivity. Qed.

(** C12 *)
Theorem C12_time_limit : forall W D C (E : env W D C) fuel y s s' u t,
  fit E fuel y s = (s', Done u) -> f_trace s' = f_trace s ++ t ->
  (* every request directly follows a passed check *)
  (forall j l i d cols, nth_error t j = Some (EvGenerate l i d cols) ->
     exists j' e, j = S j' /\ nth_error t j' = Some (EvCheck l i e) /\ ~ (0 < time_limit E /\ time_limit E < e))
  (* the checks read the elapsed time *)
  /\ (forall l i e, In (EvCheck l i e) t ->
        exists k0 k, (f_tick s <= k0)%nat /\ (f_tick s <= k)%nat /\ e = clock E k - clock E k0
          /\ (count is_reset t = 0%nat -> k0 = f_tick s))
  (* the first failed check ends the loop *)
  /\ (f_tlr s' = true <-> exists x, In x t /\ late (time_limit E) x)
  /\ (f_tlr s' = true -> f_optimal s' = false /\
        exists pre x, t = pre ++ x :: (if rmp_is_ip E then [EvSolveIp true] else [])
          /\ late (time_limit E) x /\ forall z, In z pre -> ~ late (time_limit E) z).
Proof.
  intros W D C E fuel y s s' u t EF Ht.
  pose proof (fit_reads E _ _ _ _ _ _ EF Ht) as RD.
  destruct (fit_spec E _ _ _ _ _ EF) as (_ & t' & e & T & (evs & L & ->) & I & _ & _ & O & TL & _).
  rewrite T in Ht. apply app_inv_head in Ht. subst t.
  split; [|split; [exact RD|]].
  - change (checked (time_limit E) ([EvGenerateMp] ++ evs ++ (if rmp_is_ip E then [EvSolveIp true] else []))).
    apply checked_app; [|apply checked_app; [eapply loop_checked; eauto|]]; apply checked_none.
    + intros x [<-|[]]. exact Logic.I.
    + intros x Hx. destruct (rmp_is_ip E); [destruct Hx as [<-|[]]; exact Logic.I|contradiction].
  - pose proof (loop_late _ _ _ _ _ _ L) as LL. rewrite TL, O.
    assert (HN : forall x, In x (EvGenerateMp :: evs ++ (if rmp_is_ip E then [EvSolveIp true] else [])) ->
                   late (time_limit E) x -> In x evs).
    { intros x [<-|Hx] Hl; [contradiction|]. apply in_app_iff in Hx. destruct Hx as [Hx|Hx]; auto.
      destruct (rmp_is_ip E); [destruct Hx as [<-|[]]|]; contradiction. }
    destruct e.
    + split; [|discriminate]. split; [discriminate|]. intros (x & Hx & Hl). exfalso. eapply LL; eauto.
    + split; [|discriminate]. split; [discriminate|]. intros (x & Hx & Hl). exfalso. eapply LL; eauto.
    + destruct LL as (pre & x & -> & Hx & Hp). split.
      * split; [intros _|auto]. exists x. split; auto. right. apply in_app_iff. left. apply in_app_iff. cbn. auto.
      * intros _. split; auto. exists (EvGenerateMp :: pre), x. split; [cbn; rewrite <- app_assoc; reflexivity|].
        split; auto. intros z [<-|Hz]; auto.
Qed.
Print Assumptions C12_time_limit.

Theorem C12_no_limit_no_clock_influence : forall W D C (E : env W D C) other_clock fuel y s,
  time_limit E <= 0 ->
  let r1 := fit E fuel y s in let r2 := fit (with_clock E other_clock) fuel y s in
  without_times (f_trace (fst r1)) = without_times (f_trace (fst r2))
  /\ snd r1 = snd r2 /\ f_world (fst r1) = f_world (fst r2)
  /\ f_iter (fst r1) = f_iter (fst r2) /\ f_optimal (fst r1) = f_optimal (fst r2) /\ f_cols (fst r1) = f_cols (fst r2)
  /\ f_fitted (fst r1) = f_fitted (fst r2).
Proof.
  intros W D C E c2 fuel y s Hl r1 r2.
  destruct (sim_fit E c2 Hl fuel y s s) as [(S1 & S2 & S3 & S4 & S5 & S6 & S7 & S8 & S9 & S10) SO].
  { unfold sim. repeat split. }
  subst r1 r2. repeat split; auto.
  destruct (snd (fit E fuel y s)) as [[]|e|], (snd (fit (with_clock E c2) fuel y s)) as [[]|e'|]; cbn in SO; try contradiction; congruence.
Qed.
Print Assumptions C12_no_limit_no_clock_influence.
Example C12_case :
  let E := toy_env 0 30 seconds true in let r := fit E 10 [0; 1]%Z (new_estimator 3%nat) in
  snd r = Done tt /\ f_tlr (fst r) = true /\ f_iter (fst r) = 2%nat /\ f_optimal (fst r) = false.
Proof. vm_compute. auto. Qed.

(** C13 *)
Theorem C13_end_of_fit : forall W D C (E : env W D C) fuel y s s' u,
  fit E fuel y s = (s', Done u) ->
  f_fitted s' = true /\
  exists t, f_trace s' = f_trace s ++ t ++ (if rmp_is_ip E then [EvSolveIp true] else [])
    /\ count is_ip t = 0%nat.
Proof.
  intros W D C E fuel y s s' u EF.
  destruct (fit_spec E _ _ _ _ _ EF) as (_ & t & e & T & (evs & L & ->) & _ & _ & _ & _ & _ & _ & _ & Fi).
  split; auto. exists (EvGenerateMp :: evs). split; [exact T|].
  rewrite count_cons. destruct (loop_facts _ _ _ _ _ _ L) as (_ & _ & _ & _ & _ & F). rewrite F. reflexivity.
Qed.
Print Assumptions C13_end_of_fit.

Theorem C13_failed_integer_solve : forall W D C (E : env W D C) fuel y s t,
  f_trace (fst (fit E fuel y s)) = f_trace s ++ t -> In (EvSolveIp false) t ->
  snd (fit E fuel y s) = Raised AssertionError /\ f_fitted (fst (fit E fuel y s)) = f_fitted s.
Proof.
  intros W D C E fuel y s t Ht Hi. pose proof (fit_ip_failed E _ _ _ _ Ht Hi) as H. split; auto.
  apply fit_not_fitted. intros u. rewrite H. discriminate.
Qed.
Print Assumptions C13_failed_integer_solve.

(** Whatever goes wrong, an estimator that was not fitted stays not fitted. *)
Theorem C13_only_a_returning_fit_marks_fitted : forall W D C (E : env W D C) fuel y s,
  f_fitted s = false -> f_fitted (fst (fit E fuel y s)) = true -> snd (fit E fuel y s) = Done tt.
Proof.
  intros W D C E fuel y s Hs Hf. destruct (snd (fit E fuel y s)) as [[]|e|] eqn:Eo; auto;
    rewrite fit_not_fitted in Hf by (intros u; rewrite Eo; discriminate); congruence.
Qed.
Print Assumptions C13_only_a_returning_fit_marks_fitted.
Example C13_case : let r := fit (toy_env 0 0 seconds false) 10 [0; 1]%Z (new_estimator 3%nat) in
  snd r = Raised AssertionError /\ In (EvSolveIp false) (f_trace (fst r)) /\ f_fitted (fst r) = false
  /\ f_fitted (fst toy_run) = true.
Proof. split; [vm_compute; reflexivity|]. split; [vm_compute; intuition|]. vm_compute. auto. Qed.

(** C14 *)
Lemma one_label_nodup (y : list Z) :
  (forall a b, In a y -> In b y -> a = b) <-> (distinct_labels y <= 1)%nat.
Proof.
  unfold distinct_labels. split.
  - intros H. pose proof (NoDup_nodup Z.eq_dec y) as N.
    destruct (nodup Z.eq_dec y) as [|a [|b l]] eqn:En; cbn; try lia. exfalso.
    assert (Ha : In a y) by (apply (nodup_In Z.eq_dec); rewrite En; left; auto).
    assert (Hb : In b y) by (apply (nodup_In Z.eq_dec); rewrite En; right; left; auto).
    inversion N; subst. apply H2. rewrite (H a b Ha Hb). left; auto.
  - intros H a b Ha Hb. apply (nodup_In Z.eq_dec) in Ha, Hb.
    destruct (nodup Z.eq_dec y) as [|x [|z l]]; cbn in *; try lia; intuition congruence.
Qed.

Theorem C14_single_class : forall W D C (E : env W D C) fuel y s,
  ((forall a b, In a y -> In b y -> a = b) ->
     snd (fit E fuel y s) = Raised ValueError /\ f_trace (fst (fit E fuel y s)) = f_trace s
     /\ f_world (fst (fit E fuel y s)) = f_world s)
  /\ (total_calls E -> snd (fit E fuel y s) = Raised ValueError -> forall a b, In a y -> In b y -> a = b).
Proof.
  intros W D C E fuel y s. rewrite one_label_nodup. split.
  - intros H. destruct (fit_single_class E fuel y s H) as (s' & -> & H1 & H2 & _). auto.
  - intros T H. destruct (fit E fuel y s) as [s' o] eqn:EF. cbn in H. subst o.
    destruct (fit_errors E _ _ _ _ _ T EF) as [[_ H]|[H _]]; [|discriminate]. auto.
Qed.
Print Assumptions C14_single_class.

(** With plugged-in objects that never raise, fit can only fail in the two documented ways. *)
Theorem C14_only_documented_failures : forall W D C (E : env W D C) fuel y s e,
  total_calls E -> snd (fit E fuel y s) = Raised e ->
  (e = ValueError /\ forall a b, In a y -> In b y -> a = b)
  \/ (e = AssertionError /\ rmp_is_ip E = true
      /\ exists t, f_trace (fst (fit E fuel y s)) = t ++ [EvSolveIp false]).
Proof.
  intros W D C E fuel y s e T H. destruct (fit E fuel y s) as [s' o] eqn:EF. cbn in *. subst o.
  destruct (fit_errors E _ _ _ _ _ T EF) as [[H1 H2]|H]; auto. left. split; auto. apply one_label_nodup. auto.
Qed.
Print Assumptions C14_only_documented_failures.
Example C14_case : total_calls toy
  /\ snd (fit toy 10 [4; 4; 4]%Z (new_estimator 3%nat)) = Raised ValueError
  /\ snd (fit toy 10 [4; 5; 4]%Z (new_estimator 3%nat)) = Done tt.
Proof.
  split; [|vm_compute; auto]. unfold total_calls, toy, toy_env. cbn. repeat (split; [solve [eauto]|]).
  split; [|eauto]. intros c w. destruct (c =? 7)%nat; [eauto|]. destruct w; eauto.
Qed.

(** C15: the documented meaning of performed_iter_ is false in every run with an iteration. *)
Theorem C15_performed_iter_always_zero : forall W D C (E : env W D C) fuel y s s' u,
  fit E fuel y s = (s', Done u) -> f_performed s' = 0%nat.
Proof.
  intros W D C E fuel y s s' u EF. destruct (fit_spec E _ _ _ _ _ EF) as (_ & t & e & _ & _ & _ & P & _). exact P.
Qed.
Print Assumptions C15_performed_iter_always_zero.

Theorem C15_performed_iter_counts_iterations_refuted :
  exists (E : env nat nat nat) fuel y s s' t,
    fit E fuel y s = (s', Done tt) /\ f_trace s' = f_trace s ++ t /\ f_performed s' <> count is_solve t.
Proof.
  exists toy, 10%nat, [0; 1; 1]%Z, (new_estimator 3%nat), (fst toy_run), (f_trace (fst toy_run)).
  split; [|split; [vm_compute; reflexivity|vm_compute; discriminate]].
  vm_compute. reflexivity.
Qed.
Print Assumptions C15_performed_iter_counts_iterations_refuted.
Example C15_case : snd toy_run = Done tt /\ count is_solve (f_trace (fst toy_run)) = 3%nat /\ f_performed (fst toy_run) = 0%nat.
Proof. vm_compute. auto. Qed.

(** C16 *)
Theorem C16_num_improving_iter : forall W D C (E : env W D C) fuel y s s' u t,
  fit E fuel y s = (s', Done u) -> f_trace s' = f_trace s ++ t ->
  f_improving s' = count is_improved t /\ (f_improving s' <= f_iter s')%nat.
Proof.
  intros W D C E fuel y s s' u t EF Ht.
  destruct (fit_spec E _ _ _ _ _ EF) as (_ & t' & e & T & (evs & L & ->) & I & _ & Im & _).
  rewrite T in Ht. apply app_inv_head in Ht. subst t. split; auto. rewrite I, Im, !count_cons, !count_app. cbn [is_solve is_improved].
  destruct (loop_facts _ _ _ _ _ _ L) as (_ & _ & F & _).
  assert (count (D:=D) (C:=C) is_improved (if rmp_is_ip E then [EvSolveIp true] else []) = 0%nat) by (destruct (rmp_is_ip E); reflexivity).
  rewrite H. lia.
Qed.
Print Assumptions C16_num_improving_iter.
Example C16_case : f_improving (fst toy_run) = 1%nat. Proof. vm_compute. reflexivity. Qed.

(** C17 *)
Theorem C17_time_accounting : forall W D C (E : env W D C) fuel y s s' u t,
  (forall n, clock E n <= clock E (S n)) ->
  fit E fuel y s = (s', Done u) -> f_trace s' = f_trace s ++ t ->
  let first := clock E (f_tick s) in let last := clock E (f_tick s' - 1) in
  (f_tick s <= f_tick s' - 1)%nat
  /\ 0 <= f_tmaster s' /\ 0 <= f_tadd s' /\ 0 <= f_tip s' /\ Forall (Forall (fun q => 0 <= q)) (f_tsp s')
  /\ reported_time s' <= last - first
  /\ (count is_reset t = 0%nat -> f_elapsed s' = last - first)
  /\ (exists k, (f_tick s <= k <= f_tick s' - 1)%nat /\ f_elapsed s' = last - clock E k).
Proof.
  intros W D C E fuel y s s' u t Mono EF Ht first last.
  destruct (fit_times E Mono _ _ _ _ _ _ EF Ht) as (A1 & A2 & A3 & A4 & A5 & A6 & A7 & (k & Hk & A8) & A9).
  repeat split; auto.
  - unfold reported_time, tot, total2 in *. unfold first, last. lra.
  - intros Hc. rewrite A6, (A9 Hc). reflexivity.
  - exists k. split; auto. rewrite A6, A8. reflexivity.
Qed.
Print Assumptions C17_time_accounting.
Example C17_case : (forall n, clock toy n <= clock toy (S n)) /\ f_elapsed (fst toy_run) == 81
  /\ reported_time (fst toy_run) == 31.
Proof.
  split; [intros n; cbn; unfold seconds; rewrite <- Zle_Qle; lia|]. vm_compute. auto.
Qed.

(** C18 *)
Theorem C18_progress : forall W D C (E : env W D C) fuel y s s' u t,
  fit E fuel y s = (s', Done u) -> f_trace s' = f_trace s ++ t ->
  (f_iter s' <= 1 + count is_added t)%nat.
Proof.
  intros W D C E fuel y s s' u t EF Ht.
  destruct (fit_spec E _ _ _ _ _ EF) as (_ & t' & e & T & (evs & L & ->) & I & _).
  rewrite T in Ht. apply app_inv_head in Ht. subst t. rewrite I, !count_cons, !count_app. cbn [is_solve is_added].
  destruct (loop_facts _ _ _ _ _ _ L) as (_ & _ & _ & F & _).
  assert (count (D:=D) (C:=C) is_solve (if rmp_is_ip E then [EvSolveIp true] else []) = 0%nat) by (destruct (rmp_is_ip E); reflexivity).
  rewrite H. lia.
Qed.
Print Assumptions C18_progress.

Theorem C18_terminates_with_iteration_limit : forall W D C (E : env W D C) fuel y s,
  (0 < max_iterations E)%Z -> (Z.to_nat (max_iterations E) < fuel)%nat -> snd (fit E fuel y s) <> NoFuel.
Proof.
  intros W D C E fuel y s Hm Hf. apply fit_nofuel. intros w s2 _ _ Hi Ht.
  apply loop_terminates_cap; auto; rewrite ?Hi; lia.
Qed.
Print Assumptions C18_terminates_with_iteration_limit.

(** [mu w] bounds the number of columns the master can still accept in state [w]. *)
Theorem C18_terminates_when_finitely_many_columns : forall W D C (E : env W D C) (mu : W -> nat) y s,
  (forall w d w', c_solve_rmp E w = Ok (d, w') -> (mu w' <= mu w)%nat) ->
  (forall w b w', c_improved E w = Ok (b, w') -> (mu w' <= mu w)%nat) ->
  (forall w, (mu (snd (c_reset_timer E w)) <= mu w)%nat) ->
  (forall l i d w w', c_update E l i d w = Ok w' -> (mu w' <= mu w)%nat) ->
  (forall l i d w cols w', c_generate E l i d w = Ok (cols, w') -> (mu w' <= mu w)%nat) ->
  (forall c w b w', c_add E c w = Ok (b, w') -> (mu w' + (if b then 1 else 0) <= mu w)%nat) ->
  exists bound, forall fuel, (bound < fuel)%nat -> snd (fit E fuel y s) <> NoFuel.
Proof.
  intros W D C E mu y s H1 H2 H3 H4 H5 H6.
  destruct (c_generate_mp E (f_world s)) as [w|e] eqn:G.
  - exists (mu w). intros fuel Hf. apply fit_nofuel. intros w' s2 Hw Hs2 _ _. rewrite G in Hw. inversion Hw; subst.
    apply (loop_terminates_measure E mu); [repeat split; auto|]. exact Hf.
  - exists 0%nat. intros fuel _. apply fit_nofuel. intros w' s2 Hw. rewrite G in Hw. discriminate.
Qed.
Print Assumptions C18_terminates_when_finitely_many_columns.
Example C18_case : forall c w b w', c_add toy c w = Ok (b, w') -> (w' + (if b then 1 else 0) <= w)%nat.
Proof.
  intros c w b w'. unfold toy, toy_env. cbn [c_add]. destruct (c =? 7)%nat; [intros H; inversion H; subst; cbn; lia|].
  destruct (Nat.ltb_spec 0 w); intros H'; inversion H'; subst; cbn; lia.
Qed.

Lemma nth_error_ext_eq {A} : forall a b : list A, length a = length b ->
  (forall i, (i < length a)%nat -> nth_error a i = nth_error b i) -> a = b.
Proof.
  induction a as [|x a IH]; intros [|z b] Hl H; cbn in *; try discriminate; auto.
  pose proof (H 0%nat ltac:(lia)) as H0. cbn in H0. inversion H0; subst. f_equal. apply IH; [lia|].
  intros i Hi. exact (H (S i) ltac:(lia)).
Qed.

(** C59 *)
Theorem C59_constructor_shapes : forall subproblems params : list nat,
  (construct subproblems params = Ok tt <-> subproblems = params)
  /\ (construct subproblems params = Ok tt \/ construct subproblems params = Err AssertionError).
Proof.
  intros a b. unfold construct.
  assert (K : forall l, (forall i, In i l -> i < length a)%nat -> length a = length b ->
     let r := for_each l (fun level _ => let* x := getitem a level in let* z := getitem b level in assert (x =? z)%nat) tt in
     (r = Ok tt <-> forall i, In i l -> nth_error a i = nth_error b i) /\ (r = Ok tt \/ r = Err AssertionError)).
  { induction l as [|i l IH]; intros Hl Hab; cbn [for_each].
    - split; [|auto]. split; [intros _ i []|auto].
    - destruct (IH ltac:(intros; apply Hl; right; auto) Hab) as [I1 I2]. cbn zeta in *.
      assert (Hi : (i < length a)%nat) by (apply Hl; left; auto).
      destruct (nth_error a i) as [x|] eqn:Na; [|apply nth_error_None in Na; lia].
      destruct (nth_error b i) as [z|] eqn:Nb; [|apply nth_error_None in Nb; lia].
      assert (Ga : getitem a i = Ok x) by (apply getitem_ok; auto).
      assert (Gb : getitem b i = Ok z) by (apply getitem_ok; auto).
      rewrite Ga. cbn [bind]. rewrite Gb. cbn [bind].
      destruct (Nat.eqb_spec x z) as [->|Hne]; cbn [assert bind].
      + split; [|exact I2]. rewrite I1. split.
        * intros H j [<-|Hj]; [congruence|auto].
        * intros H j Hj. apply H. right; auto.
      + split; [|right; reflexivity]. split; [discriminate|]. intros H. specialize (H i (or_introl eq_refl)). congruence. }
  destruct (Nat.eqb_spec (length a) (length b)) as [Hl|Hl]; cbn [assert bind].
  - destruct (K (seq 0 (length a))) as [K1 K2]; auto.
    { intros i Hi. apply in_seq in Hi. lia. }
    split; [|exact K2]. rewrite K1. split; [|intros ->; auto].
    intros H. apply nth_error_ext_eq; auto. intros i Hi. apply H. apply in_seq. lia.
  - split; [|auto]. split; [discriminate|]. intros ->. contradiction.
Qed.
Print Assumptions C59_constructor_shapes.
Example C59_case : construct [1; 3]%nat [1; 3]%nat = Ok tt /\ construct [1; 3]%nat [1; 2]%nat = Err AssertionError /\ construct [1]%nat [1; 3]%nat = Err AssertionError.
Proof. vm_compute. auto. Qed.

(** Lemmas about complete runs of fit: trace, attributes, failures, termination. *)
From Verif Require Import Base FitModel SpecFit FitProofs FitRunProofs.
Open Scope Q_scope.

Section F.
Context {W D C : Type}.
Variable E : env W D C.
Notation st := (fstate W D C).
Notation ev := (event D C).
Implicit Types s : st.
Local Arguments count {D C} p t : simpl never.
Local Arguments entry m l i : simpl never.

Definition distinct_labels (y : list Z) : nat := length (nodup Z.eq_dec y).

Lemma fit_loop_state fuel y s s' u :
  fit E fuel y s = (s', Done u) ->
  (1 < distinct_labels y)%nat /\
  exists s2 s3,
    f_trace s2 = f_trace s ++ [EvGenerateMp] /\ f_iter s2 = 0%nat /\ f_performed s2 = 0%nat /\ f_improving s2 = 0%nat
    /\ f_optimal s2 = false /\ f_tlr s2 = false /\ f_cols s2 = map (fun n => repeat 0%nat n) (levels E)
    /\ f_tsp s2 = map (fun n => repeat 0 n) (levels E) /\ f_fitted s2 = f_fitted s
    /\ loop E fuel s2 = (s3, Done tt) /\ finish E s3 = (s', Done u).
Proof.
  unfold fit. intros H.
  apply mbind_done in H. destruct H as (s0 & t & H0 & H). inversion H0; subst; clear H0.
  apply mbind_done in H. destruct H as (s1 & [] & H1 & H). inversion H1; subst; clear H1.
  fold (distinct_labels y) in H.
  destruct (Nat.leb_spec (distinct_labels y) 1) as [Hy|Hy]; [discriminate|]. split; [exact Hy|].
  apply mbind_done in H. destruct H as (s1 & [] & H1 & H).
  apply mbind_done in H. destruct H as (s2 & [] & H2 & H).
  apply mbind_done in H. destruct H as (s3 & [] & H3 & H).
  exists s2, s3. unfold call_unit, call in H1. cbn in H1.
  destruct (c_generate_mp E (f_world s)) as [w|e]; [|discriminate]. inversion H1; subst; clear H1.
  inversion H2; subst; clear H2. cbn. auto 20.
Qed.

Lemma finish_spec s s' u : finish E s = (s', Done u) ->
  delta s (mkF (f_world s') (f_tick s') (f_trace s') (f_tstart s') (f_iter s') (f_performed s') (f_improving s')
               (f_optimal s') (f_tlr s') (f_cols s') (f_tsp s') (f_tadd s') (f_tmaster s') (f_tip s') (f_elapsed s')
               (f_fitted s)) (if rmp_is_ip E then [EvSolveIp true] else [])
  /\ f_fitted s' = true /\ f_tlr s' = f_tlr s
  /\ f_elapsed s' = clock E (f_tick s' - 1) - f_tstart s' /\ f_tstart s' = f_tstart s /\ (1 <= f_tick s')%nat
  /\ f_optimal s' = f_optimal s.
Proof.
  unfold finish. intros H.
  apply mbind_done in H. destruct H as (s0 & [] & H0 & H). inversion H0; subst; clear H0.
  apply mbind_done in H. destruct H as (s1 & [] & H1 & H).
  destruct (rmp_is_ip E).
  - cbn in H1. unfold mbind, call in H1. cbn in H1.
    destruct (c_solve_ip E (f_world s)) as [[ok w]|e]; [|discriminate]. cbn in H1.
    destruct ok; [|discriminate]. inversion H1; subst; clear H1.
    cbn in H. unfold mbind in H. cbn in H. inversion H; subst; clear H. cbn.
    split; [|repeat split; auto; lia].
    constructor; cbn; rewrite ?app_nil_r; auto; intros; rewrite ?count_cons, ?count_nil; cbn; lia.
  - inversion H1; subst; clear H1. cbn in H. unfold mbind in H. cbn in H. inversion H; subst; clear H. cbn.
    split; [|repeat split; auto; try lia].
    + constructor; cbn; rewrite ?app_nil_r; auto; intros; rewrite ?count_cons, ?count_nil; cbn; lia.
    + rewrite Nat.sub_0_r. reflexivity.
Qed.

Lemma entry_zero ns l i : entry (map (fun n => repeat 0%nat n) ns) l i = 0%nat.
Proof.
  unfold entry. revert l; induction ns as [|n ns IH]; intros [|l]; simpl; auto; try (destruct i; reflexivity).
  clear. revert i; induction n as [|n IH]; intros [|i]; simpl; auto.
Qed.

Lemma shape_zero {A} (a : A) ns : map (@length A) (map (fun n => repeat a n) ns) = ns.
Proof. rewrite map_map. rewrite <- (map_id ns) at 2. apply map_ext. intros n. apply repeat_length. Qed.

(** Everything a successful fit guarantees. *)
Lemma fit_spec fuel y s s' u :
  fit E fuel y s = (s', Done u) ->
  (1 < distinct_labels y)%nat /\
  exists t e, f_trace s' = f_trace s ++ t
    /\ fit_trace (max_iterations E) (time_limit E) (levels E) (rmp_is_ip E) t e
    /\ f_iter s' = count is_solve t /\ f_performed s' = 0%nat /\ f_improving s' = count is_improved t
    /\ f_optimal s' = (match e with Optimal => true | _ => false end)
    /\ f_tlr s' = (match e with TimeUp => true | _ => false end)
    /\ map (@length nat) (f_cols s') = levels E
    /\ (forall l i, entry (f_cols s') l i = count (is_add l i) t)
    /\ f_fitted s' = true.
Proof.
  intros H. destruct (fit_loop_state _ _ _ _ _ H) as (Hy & s2 & s3 & A1 & A2 & A3 & A4 & A5 & A6 & A7 & A8 & A9 & L & Fi).
  split; [exact Hy|].
  destruct (loop_spec E _ _ _ _ L A6 A5) as (evs & e & Lt & Dl & Eo & Et).
  destruct (finish_spec _ _ _ Fi) as (Df & Ff & Ft & _ & _ & _ & Fo).
  set (ip := if rmp_is_ip E then [EvSolveIp true] else []) in *.
  exists (EvGenerateMp :: evs ++ ip), e.
  destruct Dl, Df. cbn in *.
  assert (Cz : count is_solve ip = 0%nat /\ count is_improved ip = 0%nat /\ forall l i, count (is_add l i) ip = 0%nat)
    by (unfold ip; destruct (rmp_is_ip E); repeat split).
  destruct Cz as (Cz1 & Cz2 & Cz3).
  split; [rewrite d_trace0, d_trace, A1, <- !app_assoc; reflexivity|].
  split; [exists evs; rewrite A2 in Lt; auto|].
  rewrite !count_cons, !count_app. cbn.
  split; [lia|]. split; [congruence|]. split; [lia|]. split; [congruence|]. split; [congruence|].
  split; [rewrite d_shape0, d_shape, A7; apply shape_zero|].
  split; [|exact Ff].
  intros l i. rewrite count_cons, count_app, d_cols0, d_cols, A7, entry_zero, Cz3. cbn. lia.
Qed.

(** Attributes about time at the end. *)
Lemma fit_elapsed fuel y s s' u :
  fit E fuel y s = (s', Done u) ->
  f_elapsed s' = clock E (f_tick s' - 1) - f_tstart s'.
Proof.
  intros H. destruct (fit_loop_state _ _ _ _ _ H) as (Hy & s2 & s3 & _ & _ & _ & _ & _ & _ & _ & _ & _ & L & Fi).
  apply finish_spec in Fi. apply Fi.
Qed.

(** Single class: rejected before any call. *)
Lemma fit_single_class fuel y s :
  (distinct_labels y <= 1)%nat ->
  exists s', fit E fuel y s = (s', Raised ValueError) /\ f_trace s' = f_trace s /\ f_world s' = f_world s
    /\ f_fitted s' = f_fitted s.
Proof.
  intros H. unfold fit. fold (distinct_labels y). cbn. unfold mbind, set_tstart. cbn.
  destruct (Nat.leb_spec (distinct_labels y) 1); [|lia]. eexists. split; [reflexivity|]. cbn. auto.
Qed.

(** ** Nothing but the calls can fail *)
Definition shaped s : Prop :=
  map (@length nat) (f_cols s) = levels E /\ map (@length Q) (f_tsp s) = levels E.

Definition runs {A} (m : @M W D C A) s : Prop := exists s' a, m s = (s', Done a).

Lemma runs_bind {A B} (m : @M W D C A) (f : A -> @M W D C B) s :
  runs m s -> (forall s1 a, m s = (s1, Done a) -> runs (f a) s1) -> runs (mbind m f) s.
Proof.
  intros (s1 & a & H) K. destruct (K _ _ H) as (s2 & b & H2). exists s2, b. unfold mbind. rewrite H. exact H2.
Qed.

Lemma runs_call {A} (f : W -> res (A * W)) g s : (exists a w, f (f_world s) = Ok (a, w)) -> runs (call f g) s.
Proof. intros (a & w & H). unfold runs, call. rewrite H. eauto. Qed.

Lemma delta_shaped s s' evs : delta s s' evs -> shaped s -> shaped s'.
Proof. intros [] [H1 H2]. split; congruence. Qed.

Lemma shape_row {A} (m : list (list A)) l n : nth_error (map (@length A) m) l = Some n ->
  exists row, nth_error m l = Some row /\ length row = n.
Proof.
  rewrite nth_error_map. destruct (nth_error m l); simpl; intros H; [|discriminate]. inversion H. eauto.
Qed.

Lemma update2_runs {A} (m : list (list A)) l i n f :
  nth_error (map (@length A) m) l = Some n -> (i < n)%nat -> exists m', update2 m l i f = Ok m'.
Proof.
  intros H Hi. destruct (shape_row _ _ _ H) as (row & Hr & Hn). unfold update2, getitem. rewrite Hr. simpl.
  destruct (nth_error row i) eqn:En; [|apply nth_error_None in En; lia]. simpl. eauto.
Qed.

Lemma add_tsp_runs l i q n s : shaped s -> nth_error (levels E) l = Some n -> (i < n)%nat -> runs (add_tsp l i q) s.
Proof.
  intros [_ H] Hn Hi. rewrite <- H in Hn. destruct (update2_runs (f_tsp s) l i n (fun x => x + q) Hn Hi) as [m' Hm].
  unfold runs, add_tsp. rewrite Hm. eauto.
Qed.

Lemma add_columns_runs l i n cols : total_calls E -> nth_error (levels E) l = Some n -> (i < n)%nat ->
  forall u s, shaped s -> runs (add_columns E l i cols u) s.
Proof.
  intros T Hn Hi. induction cols as [|c cols IH]; intros u s Hs; simpl.
  - eexists _, _. reflexivity.
  - apply runs_bind; [apply runs_call; apply T|]. intros s1 b H1.
    assert (Hs1 : shaped s1).
    { unfold call in H1. destruct (c_add E c (f_world s)) as [[b' w]|]; [|discriminate]. inversion H1; subst. exact Hs. }
    apply runs_bind.
    + destruct Hs1 as [Hc _]. rewrite <- Hc in Hn.
      destruct (update2_runs (f_cols s1) l i n (fun x => x + (if b then 1 else 0))%nat Hn Hi) as [m' Hm].
      unfold runs, add_cols. rewrite Hm. eauto.
    + intros s2 [] H2. apply IH. unfold add_cols in H2.
      destruct (update2 (f_cols s1) l i _) as [t|] eqn:U; [|discriminate]. inversion H2; subst.
      apply update2_shape in U. split; cbn; [rewrite U|]; apply Hs1.
Qed.

Lemma update_row_runs l n d is : total_calls E -> nth_error (levels E) l = Some n -> (forall i, In i is -> (i < n)%nat) ->
  forall s, shaped s -> runs (update_row E l is d) s.
Proof.
  intros T Hn. induction is as [|i is IH]; intros Hi s Hs; simpl.
  - eexists _, _. reflexivity.
  - apply runs_bind; [eexists _, _; reflexivity|]. intros s1 t0 H1. apply time_quiet in H1.
    assert (S1 : shaped s1) by (eapply delta_shaped; [apply H1|auto]).
    apply runs_bind.
    { apply runs_call. destruct T as (_ & _ & _ & T & _). destruct (T l i d (f_world s1)) as [w' Hw]. rewrite Hw. simpl. eauto. }
    intros s2 [] H2. unfold call_unit in H2. apply call_spec in H2; [|intros; repeat split; auto]. destruct H2 as (H2 & _ & _).
    assert (S2 : shaped s2) by (eapply delta_shaped; eauto).
    apply runs_bind; [eexists _, _; reflexivity|]. intros s3 t1 H3. apply time_quiet in H3.
    assert (S3 : shaped s3) by (eapply delta_shaped; [apply H3|auto]).
    apply runs_bind; [eapply add_tsp_runs; eauto; apply Hi; left; auto|]. intros s4 [] H4. apply add_tsp_quiet in H4.
    apply IH; [intros; apply Hi; right; auto|]. eapply delta_shaped; [apply H4|auto].
Qed.

Lemma update_all_runs d : total_calls E -> forall ns l s,
  (forall k n, nth_error ns k = Some n -> nth_error (levels E) (l + k) = Some n) ->
  shaped s -> runs (update_all E l ns d) s.
Proof.
  intros T. induction ns as [|n ns IH]; intros l s Hl Hs; simpl.
  - eexists _, _. reflexivity.
  - apply runs_bind.
    + apply (update_row_runs l n d); auto.
      * specialize (Hl 0%nat n eq_refl). rewrite Nat.add_0_r in Hl. exact Hl.
      * intros i Hi. apply in_seq in Hi. lia.
    + intros s1 [] H1. apply update_row_spec in H1. destruct H1 as [H1 _]. apply IH.
      * intros k m Hk. specialize (Hl (S k) m Hk). rewrite Nat.add_succ_r in Hl. exact Hl.
      * eapply delta_shaped; eauto.
Qed.

Lemma price_row_runs l n d is : total_calls E -> nth_error (levels E) l = Some n -> (forall i, In i is -> (i < n)%nat) ->
  forall u s, shaped s -> runs (price_row E l is d u) s.
Proof.
  intros T Hn. induction is as [|i is IH]; intros Hi u s Hs; simpl.
  - eexists _, _. reflexivity.
  - apply runs_bind; [eexists _, _; reflexivity|]. intros s1 t H1. apply time_quiet in H1.
    apply runs_bind; [eexists _, _; reflexivity|]. intros s2 t0 H2. apply get_tstart_quiet in H2. destruct H2 as [-> ->].
    apply runs_bind; [eexists _, _; reflexivity|]. intros s3 [] H3. apply set_elapsed_quiet in H3.
    apply runs_bind; [eexists _, _; reflexivity|]. intros s4 [] H4.
    apply log_spec in H4; [|repeat split; auto]. destruct H4 as [H4 _].
    assert (S4 : shaped s4).
    { eapply delta_shaped; [exact H4|]. eapply delta_shaped; [apply H3|]. eapply delta_shaped; [apply H1|auto]. }
    destruct (Qltb 0 (time_limit E) && Qltb (time_limit E) (t - f_tstart s1)).
    + eexists _, _. reflexivity.
    + apply runs_bind; [eexists _, _; reflexivity|]. intros s5 q0 H5. apply time_quiet in H5.
      assert (S5 : shaped s5) by (eapply delta_shaped; [apply H5|auto]).
      apply runs_bind; [apply runs_call; apply T|]. intros s6 cols H6.
      apply call_spec in H6; [|intros; repeat split; auto]. destruct H6 as (H6 & _ & _).
      assert (S6 : shaped s6) by (eapply delta_shaped; eauto).
      apply runs_bind; [eexists _, _; reflexivity|]. intros s7 q1 H7. apply time_quiet in H7.
      assert (S7 : shaped s7) by (eapply delta_shaped; [apply H7|auto]).
      apply runs_bind; [eapply add_tsp_runs; eauto; apply Hi; left; auto|]. intros s8 [] H8. apply add_tsp_quiet in H8.
      assert (S8 : shaped s8) by (eapply delta_shaped; [apply H8|auto]).
      apply runs_bind; [eexists _, _; reflexivity|]. intros s9 a0 H9. apply time_quiet in H9.
      assert (S9 : shaped s9) by (eapply delta_shaped; [apply H9|auto]).
      apply runs_bind; [apply (add_columns_runs l i n); auto; apply Hi; left; auto|].
      intros s10 u1 H10. apply add_columns_spec in H10. destruct H10 as (answers & _ & H10 & _).
      assert (S10 : shaped s10) by (eapply delta_shaped; eauto).
      apply runs_bind; [eexists _, _; reflexivity|]. intros s11 a1 H11. apply time_quiet in H11.
      assert (S11 : shaped s11) by (eapply delta_shaped; [apply H11|auto]).
      apply runs_bind; [eexists _, _; reflexivity|]. intros s12 [] H12. apply add_tadd_quiet in H12.
      assert (S12 : shaped s12) by (eapply delta_shaped; [apply H12|auto]).
      destruct u1; [eexists _, _; reflexivity|]. apply IH; auto. intros; apply Hi; right; auto.
Qed.

Lemma price_row_shaped l n d is : total_calls E -> nth_error (levels E) l = Some n ->
  forall u s s' u', shaped s -> price_row E l is d u s = (s', Done u') -> shaped s'.
Proof.
  intros T Hn. induction is as [|i is IH]; intros u s s' u' Hs H; simpl in H.
  - inversion H; subst; auto.
  - apply mbind_done in H. destruct H as (s1 & t & H1 & H). apply time_quiet in H1.
    apply mbind_done in H. destruct H as (s2 & t0 & H2 & H). apply get_tstart_quiet in H2. destruct H2 as [-> ->].
    apply mbind_done in H. destruct H as (s3 & [] & H3 & H). apply set_elapsed_quiet in H3.
    apply mbind_done in H. destruct H as (s4 & [] & H4 & H).
    apply log_spec in H4; [|repeat split; auto]. destruct H4 as [H4 _].
    assert (S4 : shaped s4).
    { eapply delta_shaped; [exact H4|]. eapply delta_shaped; [apply H3|]. eapply delta_shaped; [apply H1|auto]. }
    destruct (Qltb 0 (time_limit E) && Qltb (time_limit E) (t - f_tstart s1)).
    + apply mbind_done in H. destruct H as (s5 & [] & H5 & H). inversion H5; subst. inversion H; subst. exact S4.
    + apply mbind_done in H. destruct H as (s5 & q0 & H5 & H). apply time_quiet in H5.
      apply mbind_done in H. destruct H as (s6 & cols & H6 & H).
      apply call_spec in H6; [|intros; repeat split; auto]. destruct H6 as (H6 & _ & _).
      apply mbind_done in H. destruct H as (s7 & q1 & H7 & H). apply time_quiet in H7.
      apply mbind_done in H. destruct H as (s8 & [] & H8 & H). apply add_tsp_quiet in H8.
      apply mbind_done in H. destruct H as (s9 & a0 & H9 & H). apply time_quiet in H9.
      apply mbind_done in H. destruct H as (s10 & u1 & H10 & H).
      apply add_columns_spec in H10. destruct H10 as (answers & _ & H10 & _).
      apply mbind_done in H. destruct H as (s11 & a1 & H11 & H). apply time_quiet in H11.
      apply mbind_done in H. destruct H as (s12 & [] & H12 & H). apply add_tadd_quiet in H12.
      assert (S12 : shaped s12).
      { eapply delta_shaped; [apply H12|]. eapply delta_shaped; [apply H11|]. eapply delta_shaped; [apply H10|].
        eapply delta_shaped; [apply H9|]. eapply delta_shaped; [apply H8|]. eapply delta_shaped; [apply H7|].
        eapply delta_shaped; [apply H6|]. eapply delta_shaped; [apply H5|auto]. }
      destruct u1; [inversion H; subst; auto|]. eapply IH; eauto.
Qed.

Lemma price_all_runs d : total_calls E -> forall ns l u s,
  (forall k n, nth_error ns k = Some n -> nth_error (levels E) (l + k) = Some n) ->
  shaped s -> runs (price_all E l ns d u) s.
Proof.
  intros T. induction ns as [|n ns IH]; intros l u s Hl Hs; simpl.
  - eexists _, _. reflexivity.
  - assert (Hn : nth_error (levels E) l = Some n) by (rewrite <- (Nat.add_0_r l); apply Hl; reflexivity).
    apply runs_bind.
    + apply (price_row_runs l n d); auto. intros i Hi. apply in_seq in Hi. lia.
    + intros s1 u1 H1. apply (price_row_shaped l n) in H1; auto.
      apply runs_bind; [eexists _, _; reflexivity|]. intros s2 t H2. apply time_quiet in H2.
      apply runs_bind; [eexists _, _; reflexivity|]. intros s3 t0 H3. apply get_tstart_quiet in H3. destruct H3 as [-> ->].
      apply runs_bind; [eexists _, _; reflexivity|]. intros s4 [] H4. apply set_elapsed_quiet in H4.
      apply runs_bind; [eexists _, _; reflexivity|]. intros s5 tlr H5. apply get_tlr_quiet in H5. destruct H5 as [-> ->].
      destruct (f_tlr s4); [eexists _, _; reflexivity|]. destruct u1; [eexists _, _; reflexivity|].
      apply IH.
      * intros k m Hk. specialize (Hl (S k) m Hk). rewrite Nat.add_succ_r in Hl. exact Hl.
      * eapply delta_shaped; [apply H4|]. eapply delta_shaped; [apply H2|auto].
Qed.

Lemma iteration_runs s : total_calls E -> shaped s -> runs (iteration E) s.
Proof.
  intros T Hs. unfold iteration.
  apply runs_bind; [eexists _, _; reflexivity|]. intros s1 [] H1. inversion H1; subst; clear H1.
  apply runs_bind; [eexists _, _; reflexivity|]. intros s2 x H2. inversion H2; subst; clear H2.
  apply runs_bind; [eexists _, _; reflexivity|]. intros s3 m0 H3. inversion H3; subst; clear H3.
  apply runs_bind; [apply runs_call; apply T|]. intros s4 d H4.
  assert (S4 : shaped s4).
  { unfold call in H4. destruct (c_solve_rmp E _) as [[d' w]|]; [|discriminate]. inversion H4; subst. exact Hs. }
  apply runs_bind; [eexists _, _; reflexivity|]. intros s5 m1 H5. inversion H5; subst; clear H5.
  apply runs_bind; [eexists _, _; reflexivity|]. intros s6 [] H6. inversion H6; subst; clear H6.
  apply runs_bind; [apply runs_call; apply T|]. intros s7 b H7.
  assert (S7 : shaped s7).
  { unfold call in H7. destruct (c_improved E _) as [[d' w]|]; [|discriminate]. inversion H7; subst. exact S4. }
  apply runs_bind; [destruct b; eexists _, _; reflexivity|]. intros s8 [] H8.
  assert (S8 : shaped s8) by (destruct b; inversion H8; subst; exact S7).
  apply runs_bind.
  { unfold runs. destruct (c_reset_timer E (f_world s8)). eauto. }
  intros s9 r H9.
  assert (S9 : shaped s9) by (destruct (c_reset_timer E (f_world s8)); inversion H9; subst; exact S8).
  apply runs_bind; [destruct r; eexists _, _; reflexivity|]. intros s10 [] H10.
  assert (S10 : shaped s10) by (destruct r; inversion H10; subst; exact S9).
  apply runs_bind; [apply update_all_runs; auto|]. intros s11 [] H11.
  apply update_all_spec in H11. destruct H11 as [H11 _].
  apply price_all_runs; auto. eapply delta_shaped; eauto.
Qed.

(** ** No fuel problem outside the loop itself *)
Ltac case_if := match goal with |- context [if ?b then _ else _] => destruct b end.

Definition nf {A} (m : @M W D C A) : Prop := forall s, snd (m s) <> NoFuel.

Lemma nf_bind {A B} (m : @M W D C A) (f : A -> @M W D C B) : nf m -> (forall a, nf (f a)) -> nf (mbind m f).
Proof.
  intros H1 H2 s. unfold mbind. specialize (H1 s). destruct (m s) as [s1 [a|e|]]; simpl in *; try congruence; apply H2.
Qed.

Lemma nf_call {A} (f : W -> res (A * W)) g : nf (call f g).
Proof. intros s. unfold call. destruct (f (f_world s)) as [[a w]|e]; simpl; discriminate. Qed.

Lemma nf_add_tsp l i q : nf (add_tsp (W:=W) (D:=D) (C:=C) l i q).
Proof. intros s. unfold add_tsp. destruct (update2 _ _ _ _); simpl; discriminate. Qed.

Lemma nf_add_cols l i q : nf (add_cols (W:=W) (D:=D) (C:=C) l i q).
Proof. intros s. unfold add_cols. destruct (update2 _ _ _ _); simpl; discriminate. Qed.

Ltac nf := repeat first
  [ apply nf_bind; [|intros ?] | apply nf_call | apply nf_add_tsp | apply nf_add_cols
  | (intros ?s; cbn; discriminate) ].

Lemma nf_update_row l is d : nf (update_row E l is d).
Proof. induction is; simpl; nf. exact IHis. Qed.

Lemma nf_update_all ns d : forall l, nf (update_all E l ns d).
Proof. induction ns; intros l; simpl; nf; auto using nf_update_row. Qed.

Lemma nf_add_columns l i cols : forall u, nf (add_columns E l i cols u).
Proof. induction cols; intros u; simpl; nf; auto. Qed.

Lemma nf_price_row l is d : forall u, nf (price_row E l is d u).
Proof.
  induction is as [|i is IH]; intros u; simpl; nf.
  case_if; nf; auto using nf_add_columns.
  case_if; nf. apply IH.
Qed.

Lemma nf_price_all ns d : forall l u, nf (price_all E l ns d u).
Proof.
  induction ns as [|n ns IH]; intros l u; simpl; nf; auto using nf_price_row.
  case_if; nf. case_if; nf. apply IH.
Qed.

Lemma nf_iteration : nf (iteration E).
Proof.
  unfold iteration. nf.
  - case_if; nf.
  - intros s. destruct (c_reset_timer E (f_world s)); simpl; discriminate.
  - case_if; nf.
  - apply nf_update_all.
  - apply nf_price_all.
Qed.


(** ** Pieces that neither mark the estimator fitted nor solve the integer program, whatever their outcome *)
Definition tame {A} (m : @M W D C A) : Prop := forall s,
  f_fitted (fst (m s)) = f_fitted s
  /\ exists t, f_trace (fst (m s)) = f_trace s ++ t /\ count is_ip t = 0%nat.

Lemma tame_bind {A B} (m : @M W D C A) (f : A -> @M W D C B) : tame m -> (forall a, tame (f a)) -> tame (mbind m f).
Proof.
  intros H1 H2 s. unfold mbind. specialize (H1 s). destruct (m s) as [s1 [a|e|]]; simpl in *; auto.
  destruct H1 as (F1 & t1 & T1 & C1). destruct (H2 a s1) as (F2 & t2 & T2 & C2). split; [congruence|].
  exists (t1 ++ t2). rewrite T2, T1, <- app_assoc. split; auto. rewrite count_app. lia.
Qed.

Lemma tame_call {A} (f : W -> res (A * W)) g : (forall a, is_ip (g a) = false) -> tame (call f g).
Proof.
  intros Hg s. unfold call. destruct (f (f_world s)) as [[a w]|e]; simpl; split; auto.
  - exists [g a]. rewrite count_cons, count_nil, Hg. auto.
  - exists []. rewrite app_nil_r. auto.
Qed.

Lemma tame_log x : is_ip x = false -> tame (log x).
Proof. intros Hx s. simpl. split; auto. exists [x]. rewrite count_cons, count_nil, Hx. auto. Qed.

Lemma tame_same {A} (m : @M W D C A) :
  (forall s, f_fitted (fst (m s)) = f_fitted s /\ f_trace (fst (m s)) = f_trace s) -> tame m.
Proof. intros H s. destruct (H s) as [H1 H2]. split; auto. exists []. rewrite app_nil_r. auto. Qed.

Lemma tame_add_tsp l i q : tame (add_tsp (W:=W) (D:=D) (C:=C) l i q).
Proof. apply tame_same. intros s. unfold add_tsp. destruct (update2 _ _ _ _); simpl; auto. Qed.

Lemma tame_add_cols l i q : tame (add_cols (W:=W) (D:=D) (C:=C) l i q).
Proof. apply tame_same. intros s. unfold add_cols. destruct (update2 _ _ _ _); simpl; auto. Qed.

Ltac tame := repeat first
  [ apply tame_bind; [|intros ?] | (apply tame_call; intros ?; reflexivity) | (apply tame_log; reflexivity)
  | apply tame_add_tsp | apply tame_add_cols
  | (apply tame_same; intros ?s; cbn; split; reflexivity) ].

Lemma tame_update_row l is d : tame (update_row E l is d).
Proof. induction is; simpl; tame. exact IHis. Qed.

Lemma tame_update_all ns d : forall l, tame (update_all E l ns d).
Proof. induction ns; intros l; simpl; tame; auto using tame_update_row. Qed.

Lemma tame_add_columns l i cols : forall u, tame (add_columns E l i cols u).
Proof. induction cols; intros u; simpl; tame; auto. Qed.

Lemma tame_price_row l is d : forall u, tame (price_row E l is d u).
Proof.
  induction is as [|i is IH]; intros u; simpl; tame.
  case_if; tame; auto using tame_add_columns.
  case_if; tame. apply IH.
Qed.

Lemma tame_price_all ns d : forall l u, tame (price_all E l ns d u).
Proof.
  induction ns as [|n ns IH]; intros l u; simpl; tame; auto using tame_price_row.
  case_if; tame. case_if; tame. apply IH.
Qed.

Lemma tame_iteration : tame (iteration E).
Proof.
  unfold iteration. tame.
  - case_if; tame.
  - apply tame_same. intros s. destruct (c_reset_timer E (f_world s)); simpl; auto.
  - case_if; tame.
  - apply tame_update_all.
  - apply tame_price_all.
Qed.

Lemma tame_loop fuel : tame (loop E fuel).
Proof.
  induction fuel as [|fuel IH]; simpl; tame.
  case_if; [tame|]. apply tame_bind; [apply tame_iteration|intros u]. case_if; tame; auto. case_if; tame.
Qed.

(** State in which the loop starts. *)
Definition loop_start (w : W) s : st :=
  mkF w (S (f_tick s)) (f_trace s ++ [EvGenerateMp]) (clock E (f_tick s)) 0 0 0 false false
      (map (fun n => repeat 0%nat n) (levels E)) (map (fun n => repeat 0 n) (levels E)) 0 0
      (f_tip s) (f_elapsed s) (f_fitted s).

Lemma fit_unfold fuel y s :
  fit E fuel y s =
  if (distinct_labels y <=? 1)%nat then
    (mkF (f_world s) (S (f_tick s)) (f_trace s) (clock E (f_tick s)) (f_iter s) (f_performed s) (f_improving s)
         (f_optimal s) (f_tlr s) (f_cols s) (f_tsp s) (f_tadd s) (f_tmaster s) (f_tip s) (f_elapsed s) (f_fitted s),
     Raised ValueError)
  else match c_generate_mp E (f_world s) with
       | Err e =>
          (mkF (f_world s) (S (f_tick s)) (f_trace s) (clock E (f_tick s)) (f_iter s) (f_performed s) (f_improving s)
             (f_optimal s) (f_tlr s) (f_cols s) (f_tsp s) (f_tadd s) (f_tmaster s) (f_tip s) (f_elapsed s) (f_fitted s),
           Raised e)
       | Ok w => match loop E fuel (loop_start w s) with
                 | (s3, Done _) => finish E s3
                 | (s3, Raised e) => (s3, Raised e)
                 | (s3, NoFuel) => (s3, NoFuel)
                 end
       end.
Proof.
  unfold fit. fold (distinct_labels y). unfold mbind at 1. cbn [time]. unfold mbind at 1. cbn [set_tstart].
  destruct (distinct_labels y <=? 1)%nat; [reflexivity|].
  unfold mbind at 1, call_unit, call. cbn.
  destruct (c_generate_mp E (f_world s)) as [w|e]; reflexivity.
Qed.

(** The estimator becomes fitted only by a fit that returns. *)
Lemma fit_not_fitted fuel y s : (forall u, snd (fit E fuel y s) <> Done u) ->
  f_fitted (fst (fit E fuel y s)) = f_fitted s.
Proof.
  rewrite fit_unfold. destruct (_ <=? 1)%nat; [reflexivity|].
  destruct (c_generate_mp E (f_world s)) as [w|e]; [|reflexivity].
  destruct (tame_loop fuel (loop_start w s)) as (F3 & _).
  destruct (loop E fuel (loop_start w s)) as [s4 [u|e|]]; simpl in F3; auto.
  rewrite <- F3. unfold finish, mbind. cbn.
  destruct (rmp_is_ip E); cbn; [|intros H; exfalso; eapply H; reflexivity].
  unfold call. cbn. destruct (c_solve_ip E (f_world s4)) as [[[] w']|e]; cbn; auto.
  intros H; exfalso; eapply H; reflexivity.
Qed.

(** A reported failure of the integer solve ends fit with AssertionError. *)
Lemma fit_ip_failed fuel y s t : f_trace (fst (fit E fuel y s)) = f_trace s ++ t -> In (EvSolveIp false) t ->
  snd (fit E fuel y s) = Raised AssertionError.
Proof.
  assert (HC : forall t, count (is_ip (D:=D) (C:=C)) t = 0%nat -> ~ In (EvSolveIp false) t).
  { intros t0 Hc Hi. unfold count in Hc. assert (Hf : In (EvSolveIp false) (filter (is_ip (D:=D) (C:=C)) t0))
      by (apply filter_In; auto). destruct (filter is_ip t0); [contradiction|discriminate]. }
  assert (HN : forall a b : list ev, a = a ++ b -> b = []).
  { intros a b H. rewrite <- (app_nil_r a) in H at 1. apply app_inv_head in H. auto. }
  rewrite fit_unfold. destruct (_ <=? 1)%nat.
  { cbn. intros H Hi. apply HN in H. subst t. contradiction. }
  destruct (c_generate_mp E (f_world s)) as [w|e].
  2: { cbn. intros H Hi. apply HN in H. subst t. contradiction. }
  destruct (tame_loop fuel (loop_start w s)) as (_ & t3 & E3 & C3).
  assert (HC' : ~ In (EvSolveIp false) (EvGenerateMp :: t3)).
  { intros [Hi|Hi]; [discriminate|]. eapply HC; eauto. }
  assert (E3' : f_trace (fst (loop E fuel (loop_start w s))) = f_trace s ++ EvGenerateMp :: t3).
  { rewrite E3. cbn. rewrite <- app_assoc. reflexivity. }
  clear E3. destruct (loop E fuel (loop_start w s)) as [s4 [u|e|]]; simpl in E3'.
  2,3: cbn; intros H Hi; rewrite E3' in H; apply app_inv_head in H; subst t; contradiction.
  unfold finish, mbind. cbn. destruct (rmp_is_ip E); cbn.
  - unfold call. cbn. destruct (c_solve_ip E (f_world s4)) as [[[] w']|e]; cbn; auto.
    + intros H Hi. rewrite E3', <- app_assoc in H. apply app_inv_head in H. subst t.
      apply in_app_iff in Hi. destruct Hi as [Hi|[Hi|[]]]; [contradiction|discriminate].
    + intros H Hi. rewrite E3' in H; apply app_inv_head in H; subst t. contradiction.
  - intros H Hi. rewrite E3' in H; apply app_inv_head in H; subst t. contradiction.
Qed.

(** ** Termination *)
Lemma time_iter s s' t : time E s = (s', Done t) -> f_iter s' = f_iter s.
Proof. intros H. inversion H; subst. reflexivity. Qed.

(** With a positive iteration cap, [max_iterations + 1] rounds of fuel suffice. *)
Lemma loop_terminates_cap fuel : forall s,
  f_tlr s = false -> (Z.of_nat (f_iter s) <= max_iterations E)%Z -> (0 < max_iterations E)%Z ->
  (max_iterations E < Z.of_nat (f_iter s) + Z.of_nat fuel)%Z ->
  snd (loop E fuel s) <> NoFuel.
Proof.
  induction fuel as [|fuel IH]; intros s Ht Hi Hm Hf; [lia|].
  cbn [loop]. unfold mbind at 1. cbn [get_iter].
  destruct (Z.ltb_spec 0 (max_iterations E)); [|lia].
  destruct (Z.leb_spec (max_iterations E) (Z.of_nat (f_iter s))); cbn [andb]; [discriminate|].
  unfold mbind at 1. pose proof (nf_iteration s) as NI.
  destruct (iteration E s) as [s1 [u|e|]] eqn:EI; [|discriminate|contradiction NI; reflexivity].
  destruct (iteration_spec E _ _ _ EI Ht) as (evs & v & It & Dl & U & T).
  destruct u.
  - apply iteration_count in It. destruct Dl. apply IH; [destruct v; auto; discriminate|lia|lia|lia].
  - unfold mbind. cbn. destruct (f_tlr s1); discriminate.
Qed.

(** A measure of the world that never grows and shrinks with every accepted column. *)
Variable mu : W -> nat.
Definition measured : Prop :=
  (forall w d w', c_solve_rmp E w = Ok (d, w') -> (mu w' <= mu w)%nat) /\
  (forall w b w', c_improved E w = Ok (b, w') -> (mu w' <= mu w)%nat) /\
  (forall w, (mu (snd (c_reset_timer E w)) <= mu w)%nat) /\
  (forall l i d w w', c_update E l i d w = Ok w' -> (mu w' <= mu w)%nat) /\
  (forall l i d w cols w', c_generate E l i d w = Ok (cols, w') -> (mu w' <= mu w)%nat) /\
  (forall c w b w', c_add E c w = Ok (b, w') -> (mu w' + (if b then 1 else 0) <= mu w)%nat).

Definition shrinks {A} (m : @M W D C A) (k : A -> nat) : Prop :=
  forall s s' a, m s = (s', Done a) -> (mu (f_world s') + k a <= mu (f_world s))%nat.

Lemma shrinks_bind {A B} (m : @M W D C A) (f : A -> @M W D C B) j k :
  shrinks m j -> (forall a, shrinks (f a) (fun b => k b - j a)%nat) -> shrinks (mbind m f) k.
Proof.
  intros H1 H2 s s' b H. apply mbind_done in H. destruct H as (s1 & a & Ha & Hb).
  specialize (H1 _ _ _ Ha). specialize (H2 _ _ _ _ Hb). simpl in H2. lia.
Qed.

Lemma shrinks_bind0 {A B} (m : @M W D C A) (f : A -> @M W D C B) k :
  shrinks m (fun _ => 0%nat) -> (forall a, shrinks (f a) k) -> shrinks (mbind m f) k.
Proof.
  intros H1 H2. eapply shrinks_bind; [exact H1|]. intros a s s' b H. specialize (H2 _ _ _ _ H). simpl in *. lia.
Qed.

Lemma shrinks_call {A} (f : W -> res (A * W)) g k :
  (forall w a w', f w = Ok (a, w') -> (mu w' + k a <= mu w)%nat) -> shrinks (call f g) k.
Proof.
  intros H s s' a Hc. unfold call in Hc. destruct (f (f_world s)) as [[a' w]|] eqn:Ef; [|discriminate].
  inversion Hc; subst. simpl. eauto.
Qed.

Lemma shrinks_same {A} (m : @M W D C A) : (forall s, f_world (fst (m s)) = f_world s) -> shrinks m (fun _ => 0%nat).
Proof. intros H s s' a Hm. specialize (H s). rewrite Hm in H. simpl in H. rewrite H. lia. Qed.

Lemma shrinks_add_tsp l i q : shrinks (add_tsp (W:=W) (D:=D) (C:=C) l i q) (fun _ => 0%nat).
Proof. apply shrinks_same. intros s. unfold add_tsp. destruct (update2 _ _ _ _); simpl; auto. Qed.

Lemma shrinks_add_cols l i q : shrinks (add_cols (W:=W) (D:=D) (C:=C) l i q) (fun _ => 0%nat).
Proof. apply shrinks_same. intros s. unfold add_cols. destruct (update2 _ _ _ _); simpl; auto. Qed.

Lemma shrinks_ret {A} (a : A) k : k a = 0%nat -> shrinks (@ret W D C A a) k.
Proof. intros H s s' a' Hr. inversion Hr; subst. lia. Qed.

Hypothesis HM : measured.

Ltac shr := repeat (match goal with |- shrinks (mbind (add_columns _ _ _ _ _) _) _ => fail 1 | _ => idtac end; first
  [ apply shrinks_add_tsp | apply shrinks_add_cols
  | (apply shrinks_same; intros ?s; cbn; reflexivity)
  | apply shrinks_bind0; [|intros ?] ]).

Definition won (b : bool) : nat := if b then 1%nat else 0%nat.

Lemma shrinks_unit (f : W -> res W) x :
  (forall w w', f w = Ok w' -> (mu w' <= mu w)%nat) -> shrinks (call_unit f x) (fun _ => 0%nat).
Proof.
  intros H. apply shrinks_call. intros w a w' Hf. destruct (f w) eqn:Ef; simpl in Hf; [|discriminate].
  inversion Hf; subst. specialize (H _ _ Ef). lia.
Qed.

Lemma shrinks_update_row l is d : shrinks (update_row E l is d) (fun _ => 0%nat).
Proof.
  induction is; simpl; shr; auto. apply shrinks_unit. apply HM.
Qed.

Lemma shrinks_update_all ns d : forall l, shrinks (update_all E l ns d) (fun _ => 0%nat).
Proof. induction ns; intros l; simpl; shr; auto using shrinks_update_row. Qed.

Lemma shrinks_add_columns l i cols : forall u, shrinks (add_columns E l i cols u) (fun b => won b - won u)%nat.
Proof.
  induction cols as [|c cols IH]; intros u; simpl.
  - apply shrinks_ret. lia.
  - eapply (shrinks_bind _ _ won).
    + apply shrinks_call. intros w b w' H. apply HM in H. exact H.
    + intros b. shr. intros s s' aa H. specialize (IH _ _ _ _ H). destruct u, b, aa; simpl in *; lia.
Qed.

Lemma shrinks_price_row l is d : shrinks (price_row E l is d false) won.
Proof.
  induction is as [|i is IH]; simpl.
  - apply shrinks_ret. reflexivity.
  - shr. destruct (_ && _).
    + shr. apply shrinks_ret. reflexivity.
    + shr.
      * apply shrinks_call. intros w x w' H. apply HM in H. lia.
      * eapply shrinks_bind; [apply shrinks_add_columns|]. intros b. shr.
        destruct b; simpl.
        -- intros s s' x H. inversion H; subst. simpl. lia.
        -- intros s s' x H. specialize (IH _ _ _ H). lia.
Qed.

Lemma shrinks_price_all ns d : forall l, shrinks (price_all E l ns d false) won.
Proof.
  induction ns as [|n ns IH]; intros l; simpl.
  - apply shrinks_ret. reflexivity.
  - eapply shrinks_bind; [apply shrinks_price_row|]. intros b. shr.
    case_if.
    + intros s s' x H. inversion H; subst. lia.
    + destruct b; intros s s' x H; [inversion H; subst; lia|]. specialize (IH _ _ _ _ H). lia.
Qed.

Lemma shrinks_iteration : shrinks (iteration E) won.
Proof.
  unfold iteration. shr.
  - apply shrinks_call. intros w x w' H. apply HM in H. lia.
  - apply shrinks_call. intros w x w' H. apply HM in H. lia.
  - case_if; shr.
  - intros s s' r H. destruct HM as (_ & _ & HR & _). specialize (HR (f_world s)).
    destruct (c_reset_timer E (f_world s)). inversion H; subst. simpl in *. lia.
  - case_if; shr.
  - apply shrinks_update_all.
  - apply shrinks_price_all.
Qed.

Lemma loop_terminates_measure fuel : forall s, (mu (f_world s) < fuel)%nat -> snd (loop E fuel s) <> NoFuel.
Proof.
  induction fuel as [|fuel IH]; intros s Hf; [lia|].
  cbn [loop]. unfold mbind at 1. cbn [get_iter].
  destruct (_ && _); [discriminate|].
  unfold mbind at 1. pose proof (nf_iteration s) as NI.
  destruct (iteration E s) as [s1 [u|e|]] eqn:EI; [|discriminate|contradiction NI; reflexivity].
  apply shrinks_iteration in EI. destruct u; simpl in EI.
  - apply IH. lia.
  - unfold mbind. cbn. destruct (f_tlr s1); discriminate.
Qed.
End F.

Section G.
Context {W D C : Type}.
Variable E : env W D C.
Notation st := (fstate W D C).
Implicit Types s : st.

Lemma nf_finish : nf (finish E).
Proof.
  intros s. unfold finish, mbind. cbn. destruct (rmp_is_ip E); cbn; [|discriminate].
  unfold call. cbn. destruct (c_solve_ip E (f_world s)) as [[[] w]|e]; cbn; discriminate.
Qed.

(** fit runs out of fuel only if its loop does. *)
Lemma fit_nofuel fuel y s :
  (forall w s2, c_generate_mp E (f_world s) = Ok w -> f_world s2 = w -> f_iter s2 = 0%nat -> f_tlr s2 = false ->
     snd (loop E fuel s2) <> NoFuel) ->
  snd (fit E fuel y s) <> NoFuel.
Proof.
  intros HL. rewrite fit_unfold. destruct (_ <=? 1)%nat; [discriminate|].
  destruct (c_generate_mp E (f_world s)) as [w|e]; [|discriminate].
  specialize (HL w (loop_start E w s) eq_refl eq_refl eq_refl eq_refl).
  destruct (loop E fuel (loop_start E w s)) as [s3 [u|e|]]; [|discriminate|contradiction HL; reflexivity].
  apply nf_finish.
Qed.

(** With total calls the only exceptions are the two documented ones. *)
Lemma fit_errors fuel y s s' e : total_calls E -> fit E fuel y s = (s', Raised e) ->
  (e = ValueError /\ (distinct_labels y <= 1)%nat)
  \/ (e = AssertionError /\ rmp_is_ip E = true /\ exists t, f_trace s' = t ++ [EvSolveIp false]).
Proof.
  intros T. rewrite fit_unfold.
  destruct (Nat.leb_spec (distinct_labels y) 1) as [Hy|Hy].
  { intros H. inversion H; subst. left. auto. }
  pose proof T as (T1 & _). destruct (T1 (f_world s)) as [w Hw]. rewrite Hw.
  assert (LR : forall f z, shaped E z -> f_tlr z = false -> forall e', snd (loop E f z) <> Raised e').
  { induction f as [|f IH]; intros z Hz Ht e'; [discriminate|].
    cbn [loop]. unfold mbind at 1. cbn [get_iter]. destruct (_ && _); [discriminate|].
    unfold mbind at 1. destruct (iteration_runs E z T Hz) as (z1 & u & Hi). rewrite Hi.
    destruct (iteration_spec E _ _ _ Hi Ht) as (evs & v & It & Dl & U & Tv).
    destruct u.
    - apply IH; [eapply delta_shaped; eauto|destruct v; auto; discriminate].
    - unfold mbind. cbn. destruct (f_tlr z1); discriminate. }
  specialize (LR fuel (loop_start E w s)).
  destruct (loop E fuel (loop_start E w s)) as [s3 [u|e'|]].
  - intros H. right. unfold finish, mbind in H. cbn in H.
    destruct (rmp_is_ip E); cbn in H; [|discriminate]. unfold call in H. cbn in H.
    destruct T as (_ & _ & _ & _ & _ & _ & T7). destruct (T7 (f_world s3)) as (ok & w' & Hok).
    rewrite Hok in H. cbn in H. destruct ok; [discriminate|]. inversion H; subst. cbn. eauto.
  - exfalso. eapply LR; [|reflexivity|reflexivity].
    unfold shaped. cbn. split; apply shape_zero.
  - discriminate.
Qed.
End G.

(** Invariants of the world and the trace kept by every call are kept by fit (partial correctness). *)
From Verif Require Import Base FitModel SpecFit FitProofs.
Open Scope nat_scope.

Section Inv.
Context {W D C : Type}.
Variable E : env W D C.
Variable I : W -> list (event D C) -> Prop.
Definition keeps {A} (m : @M W D C A) : Prop :=
  forall s s' a, m s = (s', Done a) -> I (f_world s) (f_trace s) -> I (f_world s') (f_trace s').

Hypothesis Hsolve : forall w t d w', c_solve_rmp E w = Ok (d, w') -> I w t -> I w' (t ++ [EvSolveRmp d]).
Hypothesis Himp : forall w t b w', c_improved E w = Ok (b, w') -> I w t -> I w' (t ++ [EvImproved b]).
Hypothesis Hreset : forall w t, I w t -> I (snd (c_reset_timer E w)) (if fst (c_reset_timer E w) then t ++ [EvResetTimer] else t).
Hypothesis Hupd : forall l i d w t w', c_update E l i d w = Ok w' -> I w t -> I w' (t ++ [EvUpdate l i d]).
Hypothesis Hcheck : forall l i e w t, I w t -> I w (t ++ [EvCheck l i e]).
Hypothesis Hgen : forall l i d w t cols w', c_generate E l i d w = Ok (cols, w') -> I w t -> I w' (t ++ [EvGenerate l i d cols]).
Hypothesis Hadd : forall l i c w t b w', c_add E c w = Ok (b, w') -> I w t -> I w' (t ++ [EvAdd l i c b]).
Hypothesis Hip : forall w t b w', c_solve_ip E w = Ok (b, w') -> I w t -> I w' (t ++ [EvSolveIp b]).

Lemma keeps_bind {A B} (m : @M W D C A) (f : A -> @M W D C B) : keeps m -> (forall a, keeps (f a)) -> keeps (mbind m f).
Proof. intros Hm Hf s s' b Eb Hi. apply mbind_done in Eb. destruct Eb as (s1 & a & E1 & E2). eapply Hf; [exact E2|]. eapply Hm; eauto. Qed.
(** Steps that change neither the world nor the trace. *)
Lemma keeps_still {A} (m : @M W D C A) : (forall s, f_world (fst (m s)) = f_world s /\ f_trace (fst (m s)) = f_trace s) -> keeps m.
Proof. intros H s s' a Em Hi. destruct (H s) as [H1 H2]. rewrite Em in H1, H2. cbn in H1, H2. rewrite H1, H2. exact Hi. Qed.
Lemma keeps_call {A} (f : W -> res (A * W)) (ev : A -> event D C) :
  (forall w t a w', f w = Ok (a, w') -> I w t -> I w' (t ++ [ev a])) -> keeps (call f ev).
Proof.
  intros H s s' a Ec Hi. unfold call in Ec. destruct (f (f_world s)) as [[a' w']|] eqn:Ef; [|discriminate]. injection Ec as <- <-. cbn. apply (H (f_world s)); auto.
Qed.
Lemma keeps_update2 l i q : keeps (add_tsp l i q).
Proof. apply keeps_still. intros s. unfold add_tsp. destruct (update2 _ _ _ _); auto. Qed.
Lemma keeps_cols l i k : keeps (add_cols l i k).
Proof. apply keeps_still. intros s. unfold add_cols. destruct (update2 _ _ _ _); auto. Qed.
Ltac still := apply keeps_still; intros; cbn; auto.

Lemma keeps_update_row l is d : keeps (update_row E l is d).
Proof.
  induction is as [|i is IH]; cbn [update_row]; [still|]. apply keeps_bind; [still|intros t0].
  apply keeps_bind; [|intros _; apply keeps_bind; [still|intros t1]; apply keeps_bind; [apply keeps_update2|intros _; exact IH]].
  unfold call_unit. apply keeps_call. intros w t [] w' Ec Hi. destruct (c_update E l i d w) as [w1|] eqn:Eu; [|discriminate]. injection Ec as <-. eapply Hupd; eauto.
Qed.
Lemma keeps_update_all d ns : forall l, keeps (update_all E l ns d).
Proof. induction ns as [|n ns IH]; intros l; cbn [update_all]; [still|]. apply keeps_bind; [apply keeps_update_row|auto]. Qed.
Lemma keeps_add_columns l i cols : forall u, keeps (add_columns E l i cols u).
Proof. induction cols as [|c cols IH]; intros u; cbn [add_columns]; [still|]. apply keeps_bind; [apply keeps_call; intros; eapply Hadd; eauto|intros b]. apply keeps_bind; [apply keeps_cols|auto]. Qed.
Lemma keeps_price_row l is d : forall u, keeps (price_row E l is d u).
Proof.
  induction is as [|i is IH]; intros u; cbn [price_row]; [still|]. apply keeps_bind; [still|intros t]. apply keeps_bind; [still|intros t0]. apply keeps_bind; [still|intros _].
  apply keeps_bind; [intros s s' a El Hi; injection El as <- _; cbn; auto|intros _].
  destruct (Qltb 0 (time_limit E) && Qltb (time_limit E) (t - t0))%bool; [apply keeps_bind; [still|intros _; still]|].
  apply keeps_bind; [still|intros s0]. apply keeps_bind; [apply keeps_call; intros; eapply Hgen; eauto|intros cols]. apply keeps_bind; [still|intros s1].
  apply keeps_bind; [apply keeps_update2|intros _]. apply keeps_bind; [still|intros a0]. apply keeps_bind; [apply keeps_add_columns|intros u']. apply keeps_bind; [still|intros a1].
  apply keeps_bind; [still|intros _]. destruct u'; [still|apply IH].
Qed.
Lemma keeps_price_all d ns : forall l u, keeps (price_all E l ns d u).
Proof.
  induction ns as [|n ns IH]; intros l u; cbn [price_all]; [still|]. apply keeps_bind; [apply keeps_price_row|intros u']. apply keeps_bind; [still|intros t].
  apply keeps_bind; [still|intros t0]. apply keeps_bind; [still|intros _]. apply keeps_bind; [still|intros tlr]. destruct tlr; [still|]. destruct u'; [still|apply IH].
Qed.
Lemma keeps_reset (k : unit -> @M W D C bool) : (forall a, keeps (k a)) -> keeps
  (mbind (fun s => let '(r, w) := c_reset_timer E (f_world s) in
          (mkF w (f_tick s) (f_trace s) (f_tstart s) (f_iter s) (f_performed s) (f_improving s) (f_optimal s)
               (f_tlr s) (f_cols s) (f_tsp s) (f_tadd s) (f_tmaster s) (f_tip s) (f_elapsed s) (f_fitted s), Done r))
     (fun r : bool => mbind (if r then mbind (time E) (fun t => mbind (set_tstart t) (fun _ => log EvResetTimer)) else ret tt) k)).
Proof.
  intros Hk s s' a Em Hi. apply mbind_done in Em. destruct Em as (s1 & r & E1 & E2). pose proof (Hreset _ _ Hi) as Hr.
  destruct (c_reset_timer E (f_world s)) as [r0 w] eqn:Er. injection E1 as <- ->. cbn [fst snd] in Hr. apply mbind_done in E2. destruct E2 as (s2 & [] & E2 & E3).
  eapply Hk; [exact E3|]. destruct r; [injection E2 as <-|injection E2 as <-]; exact Hr.
Qed.
Lemma keeps_iteration : keeps (iteration E).
Proof.
  unfold iteration. apply keeps_bind; [still|intros _]. apply keeps_bind; [still|intros _]. apply keeps_bind; [still|intros m0].
  apply keeps_bind; [apply keeps_call; intros; eapply Hsolve; eauto|intros d]. apply keeps_bind; [still|intros m1]. apply keeps_bind; [still|intros _].
  apply keeps_bind; [apply keeps_call; intros; eapply Himp; eauto|intros b]. apply keeps_bind; [destruct b; still|intros _].
  apply keeps_reset. intros _. apply keeps_bind; [apply keeps_update_all|intros _]. apply keeps_price_all.
Qed.
Lemma keeps_loop fuel : keeps (loop E fuel).
Proof.
  induction fuel as [|fuel IH]; cbn [loop]; [intros s s' a Ea; discriminate|]. apply keeps_bind; [still|intros k].
  destruct ((0 <? max_iterations E)%Z && (max_iterations E <=? Z.of_nat k)%Z)%bool; [still|]. apply keeps_bind; [apply keeps_iteration|intros u].
  destruct u; [exact IH|]. apply keeps_bind; [still|intros tlr]. destruct tlr; still.
Qed.
Lemma keeps_finish : keeps (finish E).
Proof.
  unfold finish. apply keeps_bind; [still|intros _]. apply keeps_bind; [|intros _; apply keeps_bind; [still|intros _]; apply keeps_bind; [still|intros t]; apply keeps_bind; [still|intros t0]; still].
  destruct (rmp_is_ip E); [|still]. apply keeps_bind; [still|intros t0]. apply keeps_bind; [apply keeps_call; intros; eapply Hip; eauto|intros ok]. apply keeps_bind; [still|intros t1].
  apply keeps_bind; [still|intros _]. destruct ok; [still|]. intros s s' a Ea. discriminate.
Qed.
Lemma fit_invariant fuel y s s' : fit E fuel y s = (s', Done tt) ->
  (forall w, c_generate_mp E (f_world s) = Ok w -> I w (f_trace s ++ [EvGenerateMp])) -> I (f_world s') (f_trace s').
Proof.
  intros Ef H. unfold fit in Ef. apply mbind_done in Ef. destruct Ef as (s1 & t & E1 & Ef). injection E1 as <- <-.
  apply mbind_done in Ef. destruct Ef as (s2 & [] & E2 & Ef). injection E2 as <-. destruct (length (nodup Z.eq_dec y) <=? 1); [discriminate|].
  apply mbind_done in Ef. destruct Ef as (s3 & [] & E3 & Ef). unfold call_unit, call in E3. cbn [f_world f_trace] in E3.
  destruct (c_generate_mp E (f_world s)) as [w|] eqn:Eg; [|discriminate]. cbn [bind] in E3. injection E3 as <-.
  apply mbind_done in Ef. destruct Ef as (s4 & [] & E4 & Ef). injection E4 as <-. apply mbind_done in Ef. destruct Ef as (s5 & [] & E5 & Ef).
  eapply keeps_finish; [exact Ef|]. eapply keeps_loop; [exact E5|]. cbn. apply H. auto.
Qed.
End Inv.

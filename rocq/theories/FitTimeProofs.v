(** The influence of the clock on fit: none without a time limit; time accounting. *)
From Verif Require Import Base FitModel SpecFit FitProofs FitRunProofs FitMainProofs.
Open Scope Q_scope.

Section Sim.
Context {W D C : Type}.
Variable E : env W D C.
Variable c2 : nat -> Q.
Notation E2 := (with_clock E c2).
Notation st := (fstate W D C).
Implicit Types s : st.

Local Arguments without_times {D C} t : simpl never.
Local Arguments count {D C} p t : simpl never.

Definition sim s1 s2 : Prop :=
  f_world s1 = f_world s2 /\ without_times (f_trace s1) = without_times (f_trace s2) /\ f_iter s1 = f_iter s2
  /\ f_performed s1 = f_performed s2 /\ f_improving s1 = f_improving s2 /\ f_optimal s1 = f_optimal s2
  /\ f_tlr s1 = f_tlr s2 /\ f_cols s1 = f_cols s2 /\ f_fitted s1 = f_fitted s2
  /\ map (@length Q) (f_tsp s1) = map (@length Q) (f_tsp s2).

Definition same_outcome {A B} (R : A -> B -> Prop) (x : outcome A) (y : outcome B) : Prop :=
  match x, y with
  | Done a, Done b => R a b
  | Raised e, Raised e' => e = e'
  | NoFuel, NoFuel => True
  | _, _ => False
  end.

Definition simM {A B} (R : A -> B -> Prop) (m1 : @M W D C A) (m2 : @M W D C B) : Prop :=
  forall s1 s2, sim s1 s2 -> sim (fst (m1 s1)) (fst (m2 s2)) /\ same_outcome R (snd (m1 s1)) (snd (m2 s2)).

Lemma sim_bind {A B A' B'} (R : A -> A' -> Prop) (S : B -> B' -> Prop) m1 m2 f1 f2 :
  simM R m1 m2 -> (forall a b, R a b -> simM S (f1 a) (f2 b)) -> simM S (mbind m1 f1) (mbind m2 f2).
Proof.
  intros H1 H2 s1 s2 Hs. destruct (H1 s1 s2 Hs) as [K1 K2]. unfold mbind.
  destruct (m1 s1) as [t1 [a|e|]], (m2 s2) as [t2 [b|e'|]]; simpl in K1, K2; try contradiction; simpl; auto.
  apply H2; auto.
Qed.

Lemma without_app (t u : list (event D C)) : without_times (t ++ u) = without_times t ++ without_times u.
Proof. apply map_app. Qed.

Ltac simp := unfold sim in *; cbn in *; intuition (try congruence).

Lemma sim_time : simM (fun _ _ => True) (time E) (time E2).
Proof. intros s1 s2 H. simp. Qed.

Lemma sim_call {A} (f : W -> res (A * W)) g : simM eq (call f g) (call f g).
Proof.
  intros s1 s2 H. unfold call. pose proof H as H'. destruct H' as (Hw & _). rewrite <- Hw.
  destruct (f (f_world s1)) as [[a w]|e].
  - split; [|reflexivity]. unfold sim in *. cbn. rewrite !without_app. intuition (try congruence).
  - split; auto. reflexivity.
Qed.

Lemma sim_log l i e1 e2 : simM eq (log (EvCheck l i e1)) (log (EvCheck l i e2)).
Proof.
  intros s1 s2 H. split; [|reflexivity]. unfold sim in *. cbn. rewrite !without_app. unfold without_times at 2 4. cbn [map]. intuition (try congruence).
Qed.

Lemma sim_log_eq x : simM eq (log x) (log x).
Proof. intros s1 s2 H. split; [|reflexivity]. unfold sim in *. cbn. rewrite !without_app. intuition (try congruence). Qed.

Lemma update2_same_shape {A} (m1 m2 : list (list A)) l i f1 f2 :
  map (@length A) m1 = map (@length A) m2 ->
  match update2 m1 l i f1, update2 m2 l i f2 with
  | Ok t1, Ok t2 => map (@length A) t1 = map (@length A) t2
  | Err e1, Err e2 => e1 = e2
  | _, _ => False
  end.
Proof.
  intros H. destruct (update2 m1 l i f1) as [t1|e1] eqn:U1, (update2 m2 l i f2) as [t2|e2] eqn:U2.
  - apply update2_shape in U1, U2. congruence.
  - exfalso. unfold update2, getitem in *. assert (HL := f_equal (fun z => nth_error z l) H). cbn in HL.
    rewrite !nth_error_map in HL. destruct (nth_error m1 l) as [r1|], (nth_error m2 l) as [r2|]; cbn in *; try discriminate.
    inversion HL as [HL']. destruct (nth_error r1 i) eqn:N1; [|discriminate].
    destruct (nth_error r2 i) eqn:N2; [discriminate|]. apply nth_error_None in N2.
    assert (i < length r1)%nat by (apply nth_error_Some; congruence). lia.
  - exfalso. unfold update2, getitem in *. assert (HL := f_equal (fun z => nth_error z l) H). cbn in HL.
    rewrite !nth_error_map in HL. destruct (nth_error m1 l) as [r1|], (nth_error m2 l) as [r2|]; cbn in *; try discriminate.
    inversion HL as [HL']. destruct (nth_error r2 i) eqn:N1; [|discriminate].
    destruct (nth_error r1 i) eqn:N2; [discriminate|]. apply nth_error_None in N2.
    assert (i < length r2)%nat by (apply nth_error_Some; congruence). lia.
  - unfold update2, getitem in *. destruct (nth_error m1 l) as [r1|], (nth_error m2 l) as [r2|]; cbn in *; try congruence;
    repeat match goal with H : context [match ?x with Some _ => _ | None => _ end] |- _ => destruct x; cbn in * end; congruence.
Qed.

Lemma sim_add_tsp l i q1 q2 : simM eq (add_tsp l i q1) (add_tsp l i q2).
Proof.
  intros s1 s2 H. unfold add_tsp. pose proof H as H'. destruct H' as (_ & _ & _ & _ & _ & _ & _ & _ & _ & Hsh).
  pose proof (update2_same_shape (f_tsp s1) (f_tsp s2) l i (fun x => x + q1) (fun x => x + q2) Hsh) as HU.
  destruct (update2 (f_tsp s1) l i _), (update2 (f_tsp s2) l i _); try contradiction; simp.
Qed.

Lemma sim_add_cols l i k : simM eq (add_cols l i k) (add_cols l i k).
Proof.
  intros s1 s2 H. unfold add_cols. pose proof H as H'. destruct H' as (_ & _ & _ & _ & _ & _ & _ & Hc & _ & _).
  rewrite Hc. destruct (update2 (f_cols s2) l i _); simp.
Qed.

Ltac smp := intros ?s1 ?s2 ?H; simp.

Lemma sim_update_row l is d : simM eq (update_row E l is d) (update_row E2 l is d).
Proof.
  induction is as [|i is IH]; simpl.
  - smp.
  - eapply sim_bind; [apply sim_time|intros ? ? _].
    eapply sim_bind; [apply sim_call|intros ? ? _].
    eapply sim_bind; [apply sim_time|intros ? ? _].
    eapply sim_bind; [apply sim_add_tsp|intros ? ? _]. exact IH.
Qed.

Lemma sim_update_all ns d : forall l, simM eq (update_all E l ns d) (update_all E2 l ns d).
Proof.
  induction ns as [|n ns IH]; intros l; simpl; [smp|].
  eapply sim_bind; [apply sim_update_row|intros ? ? _]. apply IH.
Qed.

Lemma sim_add_columns l i cols : forall u, simM eq (add_columns E l i cols u) (add_columns E2 l i cols u).
Proof.
  induction cols as [|x cols IH]; intros u; simpl; [smp|].
  eapply sim_bind; [apply sim_call|intros ? ? ->].
  eapply sim_bind; [apply sim_add_cols|intros ? ? _]. apply IH.
Qed.

Hypothesis no_limit : time_limit E <= 0.

Lemma no_limit_b : Qltb 0 (time_limit E) = false.
Proof. apply Qltb_false. exact no_limit. Qed.

Lemma sim_price_row l is d : forall u, simM eq (price_row E l is d u) (price_row E2 l is d u).
Proof.
  induction is as [|i is IH]; intros u; simpl; [smp|].
  eapply sim_bind; [apply sim_time|intros t1 t2 _].
  eapply (sim_bind (fun _ _ => True)); [smp|intros b1 b2 _].
  eapply (sim_bind (fun _ _ => True)); [smp|intros ? ? _].
  eapply sim_bind; [apply sim_log|intros ? ? _].
  rewrite no_limit_b. cbn [andb].
  eapply sim_bind; [apply sim_time|intros ? ? _].
  eapply sim_bind; [apply sim_call|intros ? ? ->].
  eapply sim_bind; [apply sim_time|intros ? ? _].
  eapply sim_bind; [apply sim_add_tsp|intros ? ? _].
  eapply sim_bind; [apply sim_time|intros ? ? _].
  eapply sim_bind; [apply sim_add_columns|intros x y ->].
  eapply sim_bind; [apply sim_time|intros ? ? _].
  eapply (sim_bind (fun _ _ => True)); [smp|intros ? ? _].
  destruct y; [smp|apply IH].
Qed.

Lemma sim_price_all ns d : forall l u, simM eq (price_all E l ns d u) (price_all E2 l ns d u).
Proof.
  induction ns as [|n ns IH]; intros l u; simpl; [smp|].
  eapply sim_bind; [apply sim_price_row|intros x y ->].
  eapply sim_bind; [apply sim_time|intros ? ? _].
  eapply (sim_bind (fun _ _ => True)); [smp|intros ? ? _].
  eapply (sim_bind (fun _ _ => True)); [smp|intros ? ? _].
  eapply (sim_bind eq); [smp|intros p q ->].
  destruct q; [smp|]. destruct y; [smp|apply IH].
Qed.

Lemma sim_iteration : simM eq (iteration E) (iteration E2).
Proof.
  unfold iteration.
  eapply (sim_bind (fun _ _ => True)); [smp|intros ? ? _].
  eapply sim_bind; [apply sim_time|intros ? ? _].
  eapply sim_bind; [apply sim_time|intros ? ? _].
  eapply sim_bind; [apply sim_call|intros d ? <-].
  eapply sim_bind; [apply sim_time|intros ? ? _].
  eapply (sim_bind (fun _ _ => True)); [smp|intros ? ? _].
  eapply sim_bind; [apply sim_call|intros ? impr ->].
  eapply (sim_bind (fun _ _ => True)); [destruct impr; smp|intros ? ? _].
  eapply (sim_bind eq).
  { intros s1 s2 H. pose proof H as (Hw & _). cbn. rewrite <- Hw. destruct (c_reset_timer E (f_world s1)). simp. }
  intros r ? <-.
  eapply (sim_bind (fun _ _ => True)).
  { destruct r; [|smp]. eapply sim_bind; [apply sim_time|intros ? ? _].
    eapply (sim_bind (fun _ _ => True)); [smp|intros ? ? _].
    intros s1 s2 H. destruct (sim_log_eq EvResetTimer s1 s2 H) as [K1 K2]. split; auto. cbn. exact I. }
  intros ? ? _.
  eapply sim_bind; [apply sim_update_all|intros ? ? _]. apply sim_price_all.
Qed.

Lemma sim_loop fuel : simM eq (loop E fuel) (loop E2 fuel).
Proof.
  induction fuel as [|fuel IH]; simpl; [smp|].
  eapply (sim_bind eq); [smp|intros k ? <-].
  destruct (_ && _); [smp|].
  eapply sim_bind; [apply sim_iteration|intros u ? <-]. destruct u; [exact IH|].
  eapply (sim_bind eq); [smp|intros t ? <-]. destruct t; smp.
Qed.

Lemma sim_finish : simM (fun _ _ => True) (finish E) (finish E2).
Proof.
  unfold finish.
  eapply (sim_bind (fun _ _ => True)); [smp|intros ? ? _].
  eapply (sim_bind (fun _ _ => True)).
  { change (rmp_is_ip E2) with (rmp_is_ip E). destruct (rmp_is_ip E); [|smp].
    eapply sim_bind; [apply sim_time|intros ? ? _].
    eapply sim_bind; [apply sim_call|intros ok ? <-].
    eapply sim_bind; [apply sim_time|intros ? ? _].
    eapply (sim_bind (fun _ _ => True)); [smp|intros ? ? _]. destruct ok; smp. }
  intros ? ? _.
  eapply (sim_bind (fun _ _ => True)); [smp|intros ? ? _].
  eapply sim_bind; [apply sim_time|intros ? ? _].
  eapply (sim_bind (fun _ _ => True)); [smp|intros ? ? _]. smp.
Qed.

Lemma sim_fit fuel y : simM (fun _ _ => True) (fit E fuel y) (fit E2 fuel y).
Proof.
  unfold fit.
  eapply sim_bind; [apply sim_time|intros ? ? _].
  eapply (sim_bind (fun _ _ => True)); [smp|intros ? ? _].
  destruct (_ <=? 1)%nat; [smp|].
  eapply sim_bind; [apply sim_call|intros ? ? _].
  eapply (sim_bind (fun _ _ => True)); [smp|intros ? ? _].
  eapply sim_bind; [apply sim_loop|intros ? ? _]. apply sim_finish.
Qed.
End Sim.

(** ** Time accounting *)
Section Time.
Context {W D C : Type}.
Variable E : env W D C.
Notation st := (fstate W D C).
Notation ev := (event D C).
Implicit Types s : st.
Local Arguments count {D C} p t : simpl never.
Hypothesis clock_mono : forall n, clock E n <= clock E (S n).

Lemma clock_le n m : (n <= m)%nat -> clock E n <= clock E m.
Proof. induction 1; [lra|]. pose proof (clock_mono m). lra. Qed.

Definition nonneg2 (m : list (list Q)) : Prop := Forall (Forall (fun q => 0 <= q)) m.
Definition total2 (m : list (list Q)) : Q := qsum (fun row => qsum (fun q => q) row) m.
Local Arguments total2 m : simpl never.
Definition tot s : Q := f_tmaster s + f_tadd s + total2 (f_tsp s).

Record adv (s s' : st) : Prop := {
  v_tick : (f_tick s <= f_tick s')%nat;
  v_master : f_tmaster s <= f_tmaster s';
  v_add : f_tadd s <= f_tadd s';
  v_tsp : nonneg2 (f_tsp s) -> nonneg2 (f_tsp s');
  v_tot : tot s' - tot s <= clock E (f_tick s') - clock E (f_tick s);
  v_reset : (count is_reset (f_trace s) <= count is_reset (f_trace s'))%nat;
  v_start : f_tstart s' = f_tstart s \/
            (exists k, (f_tick s <= k < f_tick s')%nat /\ f_tstart s' = clock E k)
            /\ (count is_reset (f_trace s) < count is_reset (f_trace s'))%nat;
  v_tip : f_tip s' = f_tip s
}.

Record idle (s s' : st) : Prop := {
  i_tick : (f_tick s <= f_tick s')%nat;
  i_master : f_tmaster s' = f_tmaster s;
  i_add : f_tadd s' = f_tadd s;
  i_tsp : f_tsp s' = f_tsp s;
  i_reset : count is_reset (f_trace s') = count is_reset (f_trace s);
  i_start : f_tstart s' = f_tstart s;
  i_tip : f_tip s' = f_tip s
}.

Lemma idle_refl s : idle s s. Proof. constructor; auto. Qed.
Lemma idle_trans s s1 s2 : idle s s1 -> idle s1 s2 -> idle s s2.
Proof. intros [] []. constructor; try congruence; lia. Qed.

Lemma idle_adv s s' : idle s s' -> adv s s'.
Proof.
  intros []. constructor; auto.
  - rewrite i_master0. lra.
  - rewrite i_add0. lra.
  - rewrite i_tsp0. auto.
  - unfold tot. rewrite i_master0, i_add0, i_tsp0. pose proof (clock_le _ _ i_tick0). lra.
  - lia.
Qed.

Lemma adv_trans s s1 s2 : adv s s1 -> adv s1 s2 -> adv s s2.
Proof.
  intros [] []. constructor; auto; try lia; try lra; try congruence.
  destruct v_start1 as [H1|[(k & Hk & H1) H1']].
  - rewrite H1. destruct v_start0 as [H0|[(k & Hk & H0) H0']]; [left; auto|].
    right. split; [exists k; split; [lia|auto]|lia].
  - right. split; [exists k; split; [lia|auto]|lia].
Qed.

Lemma time_idle s s' t : time E s = (s', Done t) -> idle s s' /\ t = clock E (f_tick s) /\ f_tick s' = S (f_tick s).
Proof. intros H. inversion H; subst. cbn. split; [constructor; cbn; auto|auto]. Qed.

Lemma call_idle {A} (f : W -> res (A * W)) (g : A -> ev) s s' a :
  (forall a, is_reset (g a) = false) -> call f g s = (s', Done a) -> idle s s'.
Proof.
  intros Hg. unfold call. destruct (f (f_world s)) as [[a' w]|]; [|discriminate]. intros H; inversion H; subst.
  constructor; cbn; auto. rewrite count_app, count_cons, count_nil, Hg. lia.
Qed.

Lemma update2_total m m' l i q : update2 m l i (fun x => x + q) = Ok m' -> total2 m' == total2 m + q.
Proof.
  unfold update2. intros H. inv_ok. apply getitem_ok in E0, E1.
  assert (H1 : forall (r : list Q) j x y, nth_error r j = Some x ->
             qsum (fun q => q) (set_nth r j y) == qsum (fun q => q) r + (y - x)).
  { induction r as [|z r IH]; intros [|j] x y Hn; cbn in *; try discriminate.
    - inversion Hn; subst. unfold qsum. cbn. lra.
    - unfold qsum in *. cbn. rewrite (IH j x y Hn). lra. }
  assert (H2 : forall (mm : list (list Q)) j r r', nth_error mm j = Some r ->
             total2 (set_nth mm j r') == total2 mm + (qsum (fun q => q) r' - qsum (fun q => q) r)).
  { induction mm as [|z mm IH]; intros [|j] r r' Hn; cbn in *; try discriminate.
    - inversion Hn; subst. unfold total2, qsum. cbn. lra.
    - unfold total2, qsum in *. cbn. rewrite (IH j r r' Hn). lra. }
  rewrite (H2 _ _ _ _ E0), (H1 _ _ _ _ E1). lra.
Qed.

Lemma Forall_set_nth {A} (P : A -> Prop) l i a : Forall P l -> P a -> Forall P (set_nth l i a).
Proof. intros H. revert i; induction H; intros [|i] Ha; cbn; auto. Qed.

Lemma update2_nonneg m m' l i q : 0 <= q -> update2 m l i (fun x => x + q) = Ok m' -> nonneg2 m -> nonneg2 m'.
Proof.
  unfold update2. intros Hq H Hn. inv_ok. apply getitem_ok in E0, E1.
  assert (Hv : Forall (fun q => 0 <= q) v) by (eapply Forall_forall in Hn; [exact Hn|eapply nth_error_In; eauto]).
  apply Forall_set_nth; auto. apply Forall_set_nth; auto.
  assert (0 <= v0) by (eapply Forall_forall in Hv; [exact Hv|eapply nth_error_In; eauto]). lra.
Qed.

(** A timed section: [t0 = time()], untimed work, [t1 = time()], then one attribute grows by [t1 - t0]. *)
Lemma timed_tsp s s1 s2 s3 s4 t0 t1 l i u :
  time E s = (s1, Done t0) -> idle s1 s2 -> time E s2 = (s3, Done t1) ->
  add_tsp l i (t1 - t0) s3 = (s4, Done u) -> adv s s4.
Proof.
  intros H1 H2 H3 H4. apply time_idle in H1, H3. destruct H1 as (I1 & -> & T1), H3 as (I3 & -> & T3).
  pose proof (idle_trans _ _ _ (idle_trans _ _ _ I1 H2) I3) as I. destruct H2.
  assert (L : clock E (f_tick s) <= clock E (f_tick s2)) by (apply clock_le; lia).
  assert (L' : clock E (f_tick s2) <= clock E (f_tick s3)) by (apply clock_le; lia).
  unfold add_tsp in H4. destruct (update2 _ _ _ _) as [t|] eqn:U; [|discriminate]. inversion H4; subst; clear H4.
  destruct I. pose proof (update2_total _ _ _ _ _ U) as Ut.
  constructor; cbn; auto; try lia; try (rewrite ?i_master1, ?i_add1; lra).
  - rewrite <- i_tsp1. apply (update2_nonneg _ _ _ _ _) with (2 := U). lra.
  - unfold tot. cbn. rewrite Ut, i_master1, i_add1, i_tsp1. lra.
Qed.

Lemma timed_add s s1 s2 s3 s4 t0 t1 u :
  time E s = (s1, Done t0) -> idle s1 s2 -> time E s2 = (s3, Done t1) ->
  add_tadd (t1 - t0) s3 = (s4, Done u) -> adv s s4.
Proof.
  intros H1 H2 H3 H4. apply time_idle in H1, H3. destruct H1 as (I1 & -> & T1), H3 as (I3 & -> & T3).
  pose proof (idle_trans _ _ _ (idle_trans _ _ _ I1 H2) I3) as I. destruct H2.
  assert (L : clock E (f_tick s) <= clock E (f_tick s2)) by (apply clock_le; lia).
  assert (L' : clock E (f_tick s2) <= clock E (f_tick s3)) by (apply clock_le; lia).
  inversion H4; subst; clear H4. destruct I.
  constructor; cbn; auto; try lia; try (rewrite ?i_master1, ?i_add1; lra).
  - rewrite i_tsp1. auto.
  - unfold tot. cbn. rewrite i_master1, i_add1, i_tsp1. lra.
Qed.

Lemma timed_master s s1 s2 s3 s4 t0 t1 u :
  time E s = (s1, Done t0) -> idle s1 s2 -> time E s2 = (s3, Done t1) ->
  add_tmaster (t1 - t0) s3 = (s4, Done u) -> adv s s4.
Proof.
  intros H1 H2 H3 H4. apply time_idle in H1, H3. destruct H1 as (I1 & -> & T1), H3 as (I3 & -> & T3).
  pose proof (idle_trans _ _ _ (idle_trans _ _ _ I1 H2) I3) as I. destruct H2.
  assert (L : clock E (f_tick s) <= clock E (f_tick s2)) by (apply clock_le; lia).
  assert (L' : clock E (f_tick s2) <= clock E (f_tick s3)) by (apply clock_le; lia).
  inversion H4; subst; clear H4. destruct I.
  constructor; cbn; auto; try lia; try (rewrite ?i_master1, ?i_add1; lra).
  - rewrite i_tsp1. auto.
  - unfold tot. cbn. rewrite i_master1, i_add1, i_tsp1. lra.
Qed.

Lemma adv_update_row l is d : forall s s' u, update_row E l is d s = (s', Done u) -> adv s s'.
Proof.
  induction is as [|i is IH]; intros s s' u H; simpl in H.
  - inversion H; subst. apply idle_adv, idle_refl.
  - apply mbind_done in H. destruct H as (s1 & t0 & H1 & H).
    apply mbind_done in H. destruct H as (s2 & [] & H2 & H). unfold call_unit in H2; apply call_idle in H2; [|reflexivity].
    apply mbind_done in H. destruct H as (s3 & t1 & H3 & H).
    apply mbind_done in H. destruct H as (s4 & [] & H4 & H).
    eapply adv_trans; [exact (timed_tsp _ _ _ _ _ _ _ _ _ _ H1 H2 H3 H4)|eauto].
Qed.

Lemma adv_update_all ns d : forall l s s' u, update_all E l ns d s = (s', Done u) -> adv s s'.
Proof.
  induction ns as [|n ns IH]; intros l s s' u H; simpl in H.
  - inversion H; subst. apply idle_adv, idle_refl.
  - apply mbind_done in H. destruct H as (s1 & [] & H1 & H). apply adv_update_row in H1.
    eapply adv_trans; eauto.
Qed.

Lemma idle_add_columns l i cols : forall u s s' u', add_columns E l i cols u s = (s', Done u') -> idle s s'.
Proof.
  induction cols as [|c cols IH]; intros u s s' u' H; simpl in H.
  - inversion H; subst. apply idle_refl.
  - apply mbind_done in H. destruct H as (s1 & b & H1 & H). apply call_idle in H1; [|reflexivity].
    apply mbind_done in H. destruct H as (s2 & [] & H2 & H).
    assert (I2 : idle s1 s2).
    { unfold add_cols in H2. destruct (update2 _ _ _ _); [|discriminate]. inversion H2; subst. constructor; cbn; auto. }
    eapply idle_trans; [exact H1|]. eapply idle_trans; [exact I2|eauto].
Qed.

Lemma log_idle x s s' u : is_reset x = false -> log x s = (s', Done u) -> idle s s'.
Proof.
  intros Hx H. inversion H; subst. constructor; cbn; auto. rewrite count_app, count_cons, count_nil, Hx. lia.
Qed.

Lemma adv_price_row l is d : forall u s s' u', price_row E l is d u s = (s', Done u') -> adv s s'.
Proof.
  induction is as [|i is IH]; intros u s s' u' H; simpl in H.
  - inversion H; subst. apply idle_adv, idle_refl.
  - apply mbind_done in H. destruct H as (s1 & t & H1 & H). apply time_idle in H1. destruct H1 as (I1 & _).
    apply mbind_done in H. destruct H as (s2 & t0 & H2 & H). apply get_tstart_quiet in H2. destruct H2 as [-> ->].
    apply mbind_done in H. destruct H as (s3 & [] & H3 & H).
    assert (I3 : idle s1 s3) by (inversion H3; subst; constructor; cbn; auto).
    apply mbind_done in H. destruct H as (s4 & [] & H4 & H). apply log_idle in H4; [|reflexivity].
    pose proof (idle_trans _ _ _ I1 (idle_trans _ _ _ I3 H4)) as I4.
    destruct (_ && _).
    + apply mbind_done in H. destruct H as (s5 & [] & H5 & H). inversion H5; subst. inversion H; subst.
      apply idle_adv. eapply idle_trans; [exact I4|]. constructor; cbn; auto.
    + apply mbind_done in H. destruct H as (s5 & q0 & H5 & H).
      apply mbind_done in H. destruct H as (s6 & cols & H6 & H). apply call_idle in H6; [|reflexivity].
      apply mbind_done in H. destruct H as (s7 & q1 & H7 & H).
      apply mbind_done in H. destruct H as (s8 & [] & H8 & H).
      pose proof (timed_tsp _ _ _ _ _ _ _ _ _ _ H5 H6 H7 H8) as A8.
      apply mbind_done in H. destruct H as (s9 & a0 & H9 & H).
      apply mbind_done in H. destruct H as (s10 & u1 & H10 & H). apply idle_add_columns in H10.
      apply mbind_done in H. destruct H as (s11 & a1 & H11 & H).
      apply mbind_done in H. destruct H as (s12 & [] & H12 & H).
      pose proof (timed_add _ _ _ _ _ _ _ _ H9 H10 H11 H12) as A12.
      assert (A : adv s s12) by (eapply adv_trans; [apply idle_adv; exact I4|eapply adv_trans; eauto]).
      destruct u1; [inversion H; subst; auto|]. eapply adv_trans; eauto.
Qed.

Lemma adv_price_all ns d : forall l u s s' u', price_all E l ns d u s = (s', Done u') -> adv s s'.
Proof.
  induction ns as [|n ns IH]; intros l u s s' u' H; simpl in H.
  - inversion H; subst. apply idle_adv, idle_refl.
  - apply mbind_done in H. destruct H as (s1 & u1 & H1 & H). apply adv_price_row in H1.
    apply mbind_done in H. destruct H as (s2 & t & H2 & H). apply time_idle in H2. destruct H2 as (I2 & _).
    apply mbind_done in H. destruct H as (s3 & t0 & H3 & H). apply get_tstart_quiet in H3. destruct H3 as [-> ->].
    apply mbind_done in H. destruct H as (s4 & [] & H4 & H).
    assert (I4 : idle s2 s4) by (inversion H4; subst; constructor; cbn; auto).
    apply mbind_done in H. destruct H as (s5 & tlr & H5 & H). apply get_tlr_quiet in H5. destruct H5 as [-> ->].
    assert (A4 : adv s s4) by (eapply adv_trans; [exact H1|apply idle_adv; eapply idle_trans; eauto]).
    destruct (f_tlr s4); [inversion H; subst; auto|]. destruct u1; [inversion H; subst; auto|].
    eapply adv_trans; eauto.
Qed.

Lemma adv_iteration s s' u : iteration E s = (s', Done u) -> adv s s'.
Proof.
  unfold iteration. intros H.
  apply mbind_done in H. destruct H as (s1 & [] & H1 & H).
  assert (I1 : idle s s1) by (inversion H1; subst; constructor; cbn; auto).
  apply mbind_done in H. destruct H as (s2 & x & H2 & H). apply time_idle in H2. destruct H2 as (I2 & _).
  apply mbind_done in H. destruct H as (s3 & m0 & H3 & H).
  apply mbind_done in H. destruct H as (s4 & d & H4 & H). apply call_idle in H4; [|reflexivity].
  apply mbind_done in H. destruct H as (s5 & m1 & H5 & H).
  apply mbind_done in H. destruct H as (s6 & [] & H6 & H).
  pose proof (timed_master _ _ _ _ _ _ _ _ H3 H4 H5 H6) as A6.
  apply mbind_done in H. destruct H as (s7 & b & H7 & H). apply call_idle in H7; [|reflexivity].
  apply mbind_done in H. destruct H as (s8 & [] & H8 & H).
  assert (I8 : idle s7 s8) by (destruct b; inversion H8; subst; constructor; cbn; auto).
  apply mbind_done in H. destruct H as (s9 & r & H9 & H).
  assert (I9 : idle s8 s9).
  { destruct (c_reset_timer E (f_world s8)). inversion H9; subst. constructor; cbn; auto. }
  apply mbind_done in H. destruct H as (s10 & [] & H10 & H).
  assert (A10 : adv s9 s10).
  { destruct r; [|inversion H10; subst; apply idle_adv, idle_refl].
    apply mbind_done in H10. destruct H10 as (z1 & t & G1 & H10). apply time_idle in G1. destruct G1 as (J1 & -> & T1).
    apply mbind_done in H10. destruct H10 as (z2 & [] & G2 & H10). inversion G2; subst z2; clear G2.
    inversion H10; subst; clear H10. destruct J1.
    constructor; cbn; auto; try (rewrite ?i_master0, ?i_add0, ?i_tsp0; lra).
    - rewrite i_tsp0. auto.
    - unfold tot. cbn. rewrite i_master0, i_add0, i_tsp0. pose proof (clock_le _ _ i_tick0). lra.
    - rewrite count_app. lia.
    - right. split; [exists (f_tick s9); split; [lia|auto]|].
      rewrite count_app, i_reset0, count_cons, count_nil. cbn. lia. }
  apply mbind_done in H. destruct H as (s11 & [] & H11 & H).
  apply adv_update_all in H11. apply adv_price_all in H.
  eapply adv_trans; [apply idle_adv; exact (idle_trans _ _ _ I1 I2)|].
  eapply adv_trans; [exact A6|].
  eapply adv_trans; [apply idle_adv; exact (idle_trans _ _ _ H7 (idle_trans _ _ _ I8 I9))|].
  eapply adv_trans; [exact A10|]. eapply adv_trans; eauto.
Qed.

Lemma adv_loop fuel : forall s s' u, loop E fuel s = (s', Done u) -> adv s s'.
Proof.
  induction fuel as [|fuel IH]; intros s s' u H; simpl in H; [discriminate|].
  apply mbind_done in H. destruct H as (s1 & k & H1 & H). inversion H1; subst; clear H1.
  destruct (_ && _); [inversion H; subst; apply idle_adv, idle_refl|].
  apply mbind_done in H. destruct H as (s2 & b & H2 & H). apply adv_iteration in H2.
  destruct b; [eapply adv_trans; eauto|].
  apply mbind_done in H. destruct H as (s3 & tl & H3 & H). inversion H3; subst; clear H3.
  destruct (f_tlr s3); [inversion H; subst; auto|].
  inversion H; subst. eapply adv_trans; [exact H2|]. apply idle_adv. constructor; cbn; auto.
Qed.

Lemma fit_times fuel y s s' u t :
  fit E fuel y s = (s', Done u) -> f_trace s' = f_trace s ++ t ->
  0 <= f_tmaster s' /\ 0 <= f_tadd s' /\ 0 <= f_tip s' /\ nonneg2 (f_tsp s')
  /\ tot s' + f_tip s' <= clock E (f_tick s' - 1) - clock E (f_tick s)
  /\ f_elapsed s' = clock E (f_tick s' - 1) - f_tstart s'
  /\ (f_tick s <= f_tick s' - 1)%nat
  /\ (exists k, (f_tick s <= k <= f_tick s' - 1)%nat /\ f_tstart s' = clock E k)
  /\ (count is_reset t = 0%nat -> f_tstart s' = clock E (f_tick s)).
Proof.
  intros H Ht. pose proof (fit_elapsed E _ _ _ _ _ H) as HE. rewrite fit_unfold in H.
  destruct (_ <=? 1)%nat; [discriminate|]. destruct (c_generate_mp E (f_world s)) as [w|]; [|discriminate].
  destruct (loop E fuel (loop_start E w s)) as [s3 [[]|e|]] eqn:L; try discriminate.
  apply adv_loop in L. destruct L. cbn in *.
  assert (TS : total2 (map (fun n => repeat 0 n) (levels E)) == 0).
  { unfold total2. apply qsum_zero. intros r Hr. apply in_map_iff in Hr. destruct Hr as (n & <- & _).
    apply qsum_zero. intros a Ha. apply repeat_spec in Ha. subst. reflexivity. }
  assert (NN : nonneg2 (map (fun n => repeat 0 n) (levels E))).
  { apply Forall_forall. intros r Hr. apply in_map_iff in Hr. destruct Hr as (n & <- & _).
    apply Forall_forall. intros a Ha. apply repeat_spec in Ha. subst. lra. }
  unfold tot in v_tot0. cbn in v_tot0. rewrite TS in v_tot0.
  assert (L0 : clock E (f_tick s) <= clock E (S (f_tick s))) by apply clock_mono.
  assert (Fin : f_tmaster s' = f_tmaster s3 /\ f_tadd s' = f_tadd s3 /\ f_tsp s' = f_tsp s3 /\ f_tstart s' = f_tstart s3
    /\ (f_tick s3 <= f_tick s' - 1)%nat /\ count is_reset (f_trace s') = count is_reset (f_trace s3)
    /\ 0 <= f_tip s' /\ f_tip s' <= clock E (f_tick s' - 1) - clock E (f_tick s3)).
  { unfold finish, mbind in H. cbn in H. destruct (rmp_is_ip E); cbn in H.
    - unfold call in H. cbn in H. destruct (c_solve_ip E (f_world s3)) as [[[] w']|]; try discriminate.
      cbn in H. inversion H; subst; clear H. cbn. repeat split; auto; try lia.
      + rewrite count_app, count_cons, count_nil. cbn. lia.
      + pose proof (clock_le (f_tick s3) (S (f_tick s3))). cbn in *. specialize (H ltac:(lia)). lra.
      + pose proof (clock_le (S (f_tick s3)) (S (S (f_tick s3)))). cbn in *. specialize (H ltac:(lia)). lra.
    - inversion H; subst; clear H. cbn. repeat split; auto; try lia; try lra.
      pose proof (clock_le (f_tick s3) (f_tick s3 - 0)). specialize (H ltac:(lia)). lra. }
  destruct Fin as (F1 & F2 & F3 & F4 & F5 & F6 & F7 & F8).
  split; [rewrite F1; lra|]. split; [rewrite F2; lra|]. split; [auto|]. split; [rewrite F3; auto|].
  split. { unfold tot. rewrite F1, F2, F3. lra. }
  split; [exact HE|]. split; [lia|].
  assert (HR : (count is_reset (f_trace s') = count is_reset (f_trace s) + count is_reset t)%nat)
    by (rewrite Ht, count_app; auto).
  assert (HR2 : (count is_reset (f_trace s ++ [EvGenerateMp]) = count is_reset (f_trace s))%nat)
    by (rewrite count_app, count_cons, count_nil; cbn; lia).
  split.
  - rewrite F4. destruct v_start0 as [->|[(k & Hk & ->) _]].
    + exists (f_tick s). split; [lia|auto].
    + exists k. split; [lia|auto].
  - intros Hc. rewrite F4. destruct v_start0 as [->|[_ Hlt]]; auto. lia.
Qed.
End Time.

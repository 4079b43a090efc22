(** Total correctness rule for fit: assertions about the world between calls. *)
From Verif Require Import Base FitModel SpecFit FitProofs FitRunProofs FitMainProofs.
Open Scope nat_scope.

Section H.
Context {W D C : Type}.
Variable E : env W D C.
Notation st := (fstate W D C).

(** From a state whose world, time_limit_reached_ and mp_optimal_ satisfy [P] the program returns and establishes [Q]. *)
Definition HT {A} (P : W -> bool -> bool -> Prop) (m : @M W D C A) (Q : A -> W -> bool -> bool -> Prop) : Prop :=
  forall s, shaped E s -> P (f_world s) (f_tlr s) (f_optimal s) ->
  exists s' a, m s = (s', Done a) /\ shaped E s' /\ Q a (f_world s') (f_tlr s') (f_optimal s').

Lemma HT_bind {A B} P (m : @M W D C A) Q (f : A -> @M W D C B) R :
  HT P m Q -> (forall a, HT (Q a) (f a) R) -> HT P (mbind m f) R.
Proof.
  intros H1 H2 s Hs HP. destruct (H1 s Hs HP) as (s1 & a & E1 & S1 & Q1). destruct (H2 a s1 S1 Q1) as (s2 & b & E2 & S2 & R2).
  exists s2, b. unfold mbind. rewrite E1. auto.
Qed.
Lemma HT_ret {A} (a : A) P : HT P (ret a) (fun a' w b o => a' = a /\ P w b o).
Proof. intros s Hs HP. exists s, a. auto. Qed.
Lemma HT_conseq {A} (P P' : W -> bool -> bool -> Prop) (m : @M W D C A) (Q Q' : A -> W -> bool -> bool -> Prop) :
  (forall w b o, P w b o -> P' w b o) -> HT P' m Q' -> (forall a w b o, Q' a w b o -> Q a w b o) -> HT P m Q.
Proof. intros H1 H H2 s Hs HP. destruct (H s Hs (H1 _ _ _ HP)) as (s' & a & E1 & S1 & Q1). exists s', a. auto. Qed.
Lemma HT_time P : HT P (time E) (fun _ => P).
Proof. intros s Hs HP. eexists _, _. split; [reflexivity|]. auto. Qed.
Lemma HT_log e P : HT P (log e) (fun _ => P).
Proof. intros s Hs HP. eexists _, _. split; [reflexivity|]. auto. Qed.
Lemma HT_tstart q P : HT P (set_tstart q) (fun _ => P).
Proof. intros s Hs HP. eexists _, _. split; [reflexivity|]. auto. Qed.
Lemma HT_get_tstart P : HT P get_tstart (fun _ => P).
Proof. intros s Hs HP. eexists _, _. split; [reflexivity|]. auto. Qed.
Lemma HT_get_iter P : HT P get_iter (fun _ => P).
Proof. intros s Hs HP. eexists _, _. split; [reflexivity|]. auto. Qed.
Lemma HT_get_tlr P : HT P get_tlr (fun r w b o => r = b /\ P w b o).
Proof. intros s Hs HP. eexists _, _. split; [reflexivity|]. auto. Qed.
Lemma HT_incr_iter P : HT P incr_iter (fun _ => P).
Proof. intros s Hs HP. eexists _, _. split; [reflexivity|]. auto. Qed.
Lemma HT_incr_improving P : HT P incr_improving (fun _ => P).
Proof. intros s Hs HP. eexists _, _. split; [reflexivity|]. auto. Qed.
Lemma HT_elapsed q P : HT P (set_elapsed q) (fun _ => P).
Proof. intros s Hs HP. eexists _, _. split; [reflexivity|]. auto. Qed.
Lemma HT_tmaster q P : HT P (add_tmaster q) (fun _ => P).
Proof. intros s Hs HP. eexists _, _. split; [reflexivity|]. auto. Qed.
Lemma HT_tip q P : HT P (add_tip q) (fun _ => P).
Proof. intros s Hs HP. eexists _, _. split; [reflexivity|]. auto. Qed.
Lemma HT_tadd q P : HT P (add_tadd q) (fun _ => P).
Proof. intros s Hs HP. eexists _, _. split; [reflexivity|]. auto. Qed.
Lemma HT_fitted P : HT P set_fitted (fun _ => P).
Proof. intros s Hs HP. eexists _, _. split; [reflexivity|]. auto. Qed.
Lemma HT_set_tlr P : HT P set_tlr (fun _ w b o => b = true /\ exists b', P w b' o).
Proof. intros s Hs HP. eexists _, _. split; [reflexivity|]. cbn. split; auto. split; eauto. Qed.
Lemma HT_set_optimal P : HT P set_optimal (fun _ w b o => o = true /\ exists o', P w b o').
Proof. intros s Hs HP. eexists _, _. split; [reflexivity|]. cbn. split; auto. split; eauto. Qed.
Lemma HT_call {A} (f : W -> res (A * W)) g (P : W -> bool -> bool -> Prop) (Q : A -> W -> bool -> bool -> Prop) :
  (forall w b o, P w b o -> exists a w', f w = Ok (a, w') /\ Q a w' b o) -> HT P (call f g) Q.
Proof.
  intros H s Hs HP. destruct (H _ _ _ HP) as (a & w' & E1 & Q1). eexists _, a. unfold call. rewrite E1. split; [reflexivity|]. auto.
Qed.
Lemma HT_add_tsp l i q n P : nth_error (levels E) l = Some n -> i < n -> HT P (add_tsp l i q) (fun _ => P).
Proof.
  intros Hn Hi s Hs HP. destruct (add_tsp_runs E l i q n s Hs Hn Hi) as (s' & a & E1). exists s', a. split; auto.
  unfold add_tsp in E1. destruct (update2 _ _ _ _) as [t|] eqn:U; [|discriminate]. inversion E1; subst. cbn. split; auto.
  apply update2_shape in U. destruct Hs. split; cbn; congruence.
Qed.
Lemma HT_add_cols l i k n P : nth_error (levels E) l = Some n -> i < n -> HT P (add_cols l i k) (fun _ => P).
Proof.
  intros Hn Hi s Hs HP. pose proof Hs as [Hc Ht]. rewrite <- Hc in Hn.
  destruct (update2_runs (f_cols s) l i n (fun x => x + k)%nat Hn Hi) as [m' Hm]. unfold add_cols. rewrite Hm.
  eexists _, _. split; [reflexivity|]. cbn. split; auto. apply update2_shape in Hm. split; cbn; congruence.
Qed.

(** ** Assertions
    [k] bounds the number of iterations that can still add a column; [IU k d upd]: the subproblems [upd] have been told the
    duals [d]; [done] are the subproblems that found nothing in this iteration; [I2 k d done li u cols]: subproblem [li] returned columns of which [cols] are still to be offered, [u]: one was
    added. *)
Variable I0 : nat -> W -> Prop.
Variable IU : nat -> D -> list (nat * nat) -> W -> Prop.
Variable I1 : nat -> D -> list (nat * nat) -> W -> Prop.
Variable I2 : nat -> D -> list (nat * nat) -> nat * nat -> bool -> list C -> W -> Prop.
Variable J : W -> Prop.
Definition exists_sub (l i : nat) : Prop := exists n, nth_error (levels E) l = Some n /\ i < n.

Hypothesis Hsolve : forall k w, I0 k w -> exists d w', c_solve_rmp E w = Ok (d, w') /\ IU k d [] w'.
Hypothesis Himp : forall k d w, IU k d [] w -> exists b w', c_improved E w = Ok (b, w') /\ IU k d [] w'.
Hypothesis Hreset : forall k d w, IU k d [] w -> IU k d [] (snd (c_reset_timer E w)).
Hypothesis Hupd : forall k l i d upd w, exists_sub l i -> IU k d upd w -> ~ In (l, i) upd ->
  exists w', c_update E l i d w = Ok w' /\ IU k d (upd ++ [(l, i)]) w'.
Hypothesis HU1 : forall k d w, IU k d (all_subproblems (levels E)) w -> I1 k d [] w.
Hypothesis Hgen : forall k l i d done w, exists_sub l i -> I1 k d done w ->
  exists cols w', c_generate E l i d w = Ok (cols, w') /\ I2 k d done (l, i) false cols w'.
Hypothesis Hadd : forall k d done li u c cols w, I2 k d done li u (c :: cols) w ->
  exists b w', c_add E c w = Ok (b, w') /\ I2 k d done li (u || b) cols w'.
Hypothesis H2t : forall k d done li w, I2 k d done li true [] w -> exists k', k = S k' /\ I0 k' w.
Hypothesis H2f : forall k d done li w, I2 k d done li false [] w -> I1 k d (done ++ [li]) w.
Hypothesis H10 : forall k d done w, I1 k d done w -> I0 k w.
Hypothesis Hip : rmp_is_ip E = true -> forall k w, I0 k w -> exists w', c_solve_ip E w = Ok (true, w') /\ I0 k w' /\ J w'
  /\ forall d done, I1 k d done w -> I1 k d done w'.

Lemma HT_update_row k l n d P0 : nth_error (levels E) l = Some n -> forall is upd, (forall i, In i is -> i < n) ->
  NoDup is -> (forall i, In i is -> ~ In (l, i) upd) ->
  HT (fun w b o => IU k d upd w /\ P0 b o) (update_row E l is d) (fun _ w b o => IU k d (upd ++ map (fun i => (l, i)) is) w /\ P0 b o).
Proof.
  intros Hn. induction is as [|i is IH]; intros upd Hi ND Hu; cbn [update_row].
  - eapply HT_conseq; [intros ? ? ? HH; exact HH|apply HT_ret|]. cbn. rewrite app_nil_r. tauto.
  - inversion ND as [|? ? Hni ND']; subst. eapply HT_bind; [apply HT_time|]. intros t0. eapply HT_bind.
    { apply HT_call with (Q := fun _ w b o => IU k d (upd ++ [(l, i)]) w /\ P0 b o). intros w b o [H H'].
      destruct (Hupd k l i d upd w) as (w' & E1 & H1); [exists n; split; auto; apply Hi; left; auto|auto|apply Hu; left; auto|].
      exists tt, w'. rewrite E1. auto. }
    intros ?x. eapply HT_bind; [apply HT_time|]. intros t1. eapply HT_bind; [eapply HT_add_tsp; eauto; apply Hi; left; auto|]. intros ?x.
    eapply HT_conseq; [intros ? ? ? HH; exact HH|apply (IH (upd ++ [(l, i)])); auto|].
    + intros; apply Hi; right; auto.
    + intros j Hj. rewrite in_app_iff. cbn. intros [H|[H|[]]]; [revert H; apply Hu; right; auto|congruence].
    + cbn. intros ?x w b o H. rewrite <- app_assoc in H. exact H.
Qed.

Lemma HT_update_all k d P0 ns : forall l upd, (forall j n, nth_error ns j = Some n -> nth_error (levels E) (l + j) = Some n) ->
  (forall l' i, In (l', i) upd -> l' < l) ->
  HT (fun w b o => IU k d upd w /\ P0 b o) (update_all E l ns d) (fun _ w b o => IU k d (upd ++ subproblems_from l ns) w /\ P0 b o).
Proof.
  induction ns as [|n ns IH]; intros l upd Hl Hu; cbn [update_all subproblems_from].
  - eapply HT_conseq; [intros ? ? ? HH; exact HH|apply HT_ret|]. cbn. rewrite app_nil_r. tauto.
  - eapply HT_bind.
    + apply (HT_update_row k l n). { specialize (Hl 0 n eq_refl). rewrite Nat.add_0_r in Hl. auto. }
      * intros i Hi. apply in_seq in Hi. lia.
      * apply seq_NoDup.
      * intros i _ Hin. apply Hu in Hin. lia.
    + intros ?x. eapply HT_conseq; [intros ? ? ? HH; exact HH|apply (IH (S l))|].
      * intros j m Hj. specialize (Hl (S j) m Hj). rewrite <- Nat.add_succ_comm in Hl. auto.
      * intros l' i Hin. apply in_app_iff in Hin. destruct Hin as [Hin|Hin]; [apply Hu in Hin; lia|].
        apply in_map_iff in Hin. destruct Hin as (? & [= <- <-] & _). lia.
      * cbn. intros ?x w b o H. rewrite <- app_assoc in H. exact H.
Qed.

Lemma HT_add_columns k l i d done cols P0 : exists_sub l i -> forall u,
  HT (fun w b o => I2 k d done (l, i) u cols w /\ P0 b o) (add_columns E l i cols u)
     (fun u' w b o => I2 k d done (l, i) u' [] w /\ P0 b o).
Proof.
  intros (n & Hn & Hi). induction cols as [|c cols IH]; intros u; cbn [add_columns].
  - eapply HT_conseq; [intros ? ? ? HH; exact HH|apply HT_ret|]. cbn. intros aa w b o [-> H]. auto.
  - eapply HT_bind.
    { apply HT_call with (Q := fun r w b o => I2 k d done (l, i) (u || r) cols w /\ P0 b o). intros w b o [H H'].
      destruct (Hadd _ _ _ _ _ _ _ _ H) as (r & w' & E1 & H1). exists r, w'. auto. }
    intros r. eapply HT_bind; [eapply HT_add_cols; eauto|]. intros ?x. apply IH.
Qed.

(** Result of pricing: a column was added; or the time is up; or nothing was found. *)
Definition priced (k : nat) (d : D) (done : list (nat * nat)) (u : bool) (w : W) (b o : bool) : Prop :=
  o = false /\
  ((u = true /\ b = false /\ exists k', k = S k' /\ I0 k' w) \/ (u = false /\ b = true /\ I0 k w) \/ (u = false /\ b = false /\ I1 k d done w)).

Lemma HT_price_row k l n d is : nth_error (levels E) l = Some n -> (forall i, In i is -> i < n) -> forall done,
  HT (fun w b o => I1 k d done w /\ b = false /\ o = false) (price_row E l is d false)
     (fun u => priced k d (done ++ map (fun i => (l, i)) is) u).
Proof.
  intros Hn. induction is as [|i is IH]; intros Hi done; cbn [price_row].
  - eapply HT_conseq; [intros ? ? ? HH; exact HH|apply HT_ret|]. cbn. rewrite app_nil_r. intros aa w b o (-> & H1 & -> & ->). split; auto.
  - assert (Hs : exists_sub l i) by (exists n; split; auto; apply Hi; left; auto).
    eapply HT_bind; [apply HT_time|]. intros t. eapply HT_bind; [apply HT_get_tstart|]. intros t0.
    eapply HT_bind; [apply HT_elapsed|]. intros ?x. eapply HT_bind; [apply HT_log|]. intros ?x.
    destruct (_ && _).
    + eapply HT_bind; [apply HT_set_tlr|]. intros ?x. eapply HT_conseq; [intros ? ? ? HH; exact HH|apply HT_ret|].
      cbn. intros aa w b o (-> & -> & b' & H1 & _ & ->). split; auto. right. left. eauto.
    + eapply HT_bind; [apply HT_time|]. intros s0. eapply HT_bind.
      { apply HT_call with (Q := fun cols w b o => I2 k d done (l, i) false cols w /\ b = false /\ o = false). intros w b o (H1 & H2 & H3).
        destruct (Hgen k l i d done w Hs H1) as (cols & w' & E1 & H4). exists cols, w'. auto. }
      intros cols. eapply HT_bind; [apply HT_time|]. intros s1. eapply HT_bind; [eapply HT_add_tsp; eauto; apply Hi; left; auto|]. intros ?x.
      eapply HT_bind; [apply HT_time|]. intros a0. eapply HT_bind.
      { eapply HT_conseq; [intros ? ? ? HH; exact HH|apply (HT_add_columns k l i d done cols (fun b o => b = false /\ o = false) Hs false)|].
        intros u' w b o H. exact H. }
      intros u'. eapply HT_bind; [apply HT_time|]. intros a1. eapply HT_bind; [apply HT_tadd|]. intros ?x. destruct u'.
      * eapply HT_conseq; [intros ? ? ? HH; exact HH|apply HT_ret|]. cbn. intros aa w b o (-> & H1 & -> & ->). split; auto. left. split; auto.
        split; auto. eapply H2t; eauto.
      * eapply HT_conseq; [|apply (IH ltac:(intros; apply Hi; right; auto) (done ++ [(l, i)]))|].
        -- cbn. intros w b o (H1 & -> & ->). split; auto.
        -- intros u' w b o H. cbn [map]. rewrite <- app_assoc in H. exact H.
Qed.

Lemma HT_price_all k d ns : forall l done u0, (forall j n, nth_error ns j = Some n -> nth_error (levels E) (l + j) = Some n) ->
  (ns = [] -> u0 = false) ->
  HT (fun w b o => I1 k d done w /\ b = false /\ o = false) (price_all E l ns d u0)
     (fun u => priced k d (done ++ subproblems_from l ns) u).
Proof.
  induction ns as [|n ns IH]; intros l done u0 Hl Hu; cbn [price_all subproblems_from].
  - rewrite Hu by auto. eapply HT_conseq; [intros ? ? ? HH; exact HH|apply HT_ret|]. cbn. rewrite app_nil_r. intros aa w b o (-> & H1 & -> & ->).
    split; auto.
  - eapply HT_bind.
    { apply (HT_price_row k l n). { specialize (Hl 0 n eq_refl). rewrite Nat.add_0_r in Hl. auto. } intros i Hi. apply in_seq in Hi. lia. }
    intros u. eapply HT_bind; [apply HT_time|]. intros t. eapply HT_bind; [apply HT_get_tstart|]. intros t0.
    eapply HT_bind; [apply HT_elapsed|]. intros ?x. eapply HT_bind; [apply HT_get_tlr|]. intros tlr. destruct tlr.
    + eapply HT_conseq; [intros ? ? ? HH; exact HH|apply HT_ret|]. cbn. intros aa w b o (-> & <- & Ho & H). split; auto.
      destruct H as [(H1 & H2 & _)|[H|(H1 & H2 & _)]]; [discriminate|auto|discriminate].
    + destruct u.
      * eapply HT_conseq; [intros ? ? ? HH; exact HH|apply HT_ret|]. cbn. intros aa w b o (-> & <- & Ho & H). split; auto.
        destruct H as [H|[(H1 & _)|(H1 & _)]]; [left; auto|discriminate|discriminate].
      * eapply HT_conseq; [|apply (IH (S l) (done ++ map (fun i => (l, i)) (seq 0 n)) false)|].
        -- cbn. intros w b o (<- & Ho & H). destruct H as [(H1 & _)|[(H1 & H2 & _)|(H1 & _ & H2)]]; [discriminate|discriminate|auto].
        -- intros j m Hj. specialize (Hl (S j) m Hj). rewrite <- Nat.add_succ_comm in Hl. auto.
        -- auto.
        -- intros u w b o H. rewrite <- app_assoc in H. exact H.
Qed.

Lemma HT_iteration k : HT (fun w b o => I0 k w /\ b = false /\ o = false) (iteration E)
  (fun u w b o => exists d, priced k d (all_subproblems (levels E)) u w b o).
Proof.
  unfold iteration.
  eapply HT_bind; [apply HT_incr_iter|]. intros ?x. eapply HT_bind; [apply HT_time|]. intros ?x. eapply HT_bind; [apply HT_time|]. intros m0.
  eapply HT_bind.
  { apply HT_call with (Q := fun d w b o => IU k d [] w /\ b = false /\ o = false). intros w b o (H1 & H2 & H3).
    destruct (Hsolve k w H1) as (d & w' & E1 & H4). exists d, w'. auto. }
  intros d. eapply HT_bind; [apply HT_time|]. intros m1. eapply HT_bind; [apply HT_tmaster|]. intros ?x.
  eapply HT_bind.
  { apply HT_call with (Q := fun _ w b o => IU k d [] w /\ b = false /\ o = false). intros w b o (H1 & H2 & H3).
    destruct (Himp k d w H1) as (r & w' & E1 & H4). exists r, w'. auto. }
  intros r. eapply HT_bind with (Q := fun _ w b o => IU k d [] w /\ b = false /\ o = false).
  { destruct r; [apply HT_incr_improving|]. eapply HT_conseq; [intros ? ? ? HH; exact HH|apply HT_ret|]. cbn. tauto. }
  intros ?x. eapply HT_bind with (Q := fun _ w b o => IU k d [] w /\ b = false /\ o = false).
  { intros s Hs (H1 & H2 & H3). destruct (c_reset_timer E (f_world s)) as [r' w] eqn:ER. eexists _, _. split; [reflexivity|]. cbn.
    split; [exact Hs|]. apply Hreset in H1. rewrite ER in H1. auto. }
  intros r'. eapply HT_bind with (Q := fun _ w b o => IU k d [] w /\ b = false /\ o = false).
  { destruct r'.
    - eapply HT_bind; [apply HT_time|]. intros t. eapply HT_bind; [apply HT_tstart|]. intros ?x. apply HT_log.
    - eapply HT_conseq; [intros ? ? ? HH; exact HH|apply HT_ret|]. cbn. tauto. }
  intros ?x. eapply HT_bind; [apply (HT_update_all k d (fun b o => b = false /\ o = false) (levels E) 0 []); [intros j n Hj; exact Hj|intros l' i []]|].
  intros ?x. eapply HT_conseq; [intros ? ? ? [H1 HH]; apply HU1 in H1; exact (conj H1 HH)|apply (HT_price_all k d (levels E) 0 [] false); auto|].
  cbn. intros u w b o H. exists d. exact H.
Qed.

Definition ended (w : W) (b o : bool) : Prop :=
  (exists k, I0 k w) /\ (o = true -> exists k d, I1 k d (all_subproblems (levels E)) w).

Lemma HT_loop fuel : forall k, k < fuel -> HT (fun w b o => I0 k w /\ b = false /\ o = false) (loop E fuel) (fun _ => ended).
Proof.
  induction fuel as [|fuel IH]; intros k Hk; [lia|]. cbn [loop]. eapply HT_bind; [apply HT_get_iter|]. intros it.
  destruct (_ && _).
  - eapply HT_conseq; [intros ? ? ? HH; exact HH|apply HT_ret|]. cbn. intros aa w b o (_ & H & -> & ->). split; [eauto|discriminate].
  - eapply HT_bind; [apply HT_iteration|]. intros u. destruct u.
    + intros s Hs (d & Ho & H). destruct H as [(_ & Hb & k' & -> & H)|[(H & _)|(H & _)]]; [|discriminate|discriminate].
      apply (IH k' ltac:(lia) s Hs). auto.
    + eapply HT_bind; [apply HT_get_tlr|]. intros tlr. destruct tlr.
      * eapply HT_conseq; [intros ? ? ? HH; exact HH|apply HT_ret|]. cbn. intros aa w b o (_ & <- & d & -> & H).
        destruct H as [(H & _)|[(_ & _ & H)|(_ & H & _)]]; [discriminate| |discriminate]. split; [eauto|discriminate].
      * eapply HT_conseq; [intros ? ? ? HH; exact HH|apply HT_set_optimal|]. cbn. intros aa w b o (-> & o' & <- & d & _ & H).
        destruct H as [(H & _)|[(_ & H & _)|(_ & _ & H)]]; [discriminate|discriminate|]. split; [eauto|]. eauto.
Qed.

(** fit returns, and its final world satisfies the assertions. *)
Lemma fit_total k fuel y s w : 1 < distinct_labels y -> c_generate_mp E (f_world s) = Ok w -> I0 k w -> k < fuel ->
  exists s', fit E fuel y s = (s', Done tt) /\ (exists k', I0 k' (f_world s')) /\ (rmp_is_ip E = true -> J (f_world s'))
    /\ (f_optimal s' = true -> exists k' d, I1 k' d (all_subproblems (levels E)) (f_world s')).
Proof.
  intros Hy HG H0 Hk. rewrite fit_unfold. destruct (Nat.leb_spec (distinct_labels y) 1); [lia|]. rewrite HG.
  destruct (HT_loop fuel k Hk (loop_start E w s)) as (s3 & [] & E3 & S3 & HE).
  - unfold loop_start, shaped. cbn. split; apply shape_zero.
  - unfold loop_start. cbn. auto.
  - rewrite E3.
    assert (HF : HT ended (finish E) (fun _ w b o => ended w b o /\ (rmp_is_ip E = true -> J w))).
    { unfold finish. eapply HT_bind with (Q := fun _ => ended). { intros s0 Hs HP. eexists _, _. split; [reflexivity|]. auto. }
      intros ?x. eapply HT_bind with (Q := fun _ w b o => ended w b o /\ (rmp_is_ip E = true -> J w)).
      - destruct (rmp_is_ip E) eqn:EI.
        + eapply HT_bind; [apply HT_time|]. intros t0. eapply HT_bind.
          { apply HT_call with (Q := fun ok w b o => ok = true /\ ended w b o /\ J w). intros w0 b o ((k0 & H1) & H2).
            destruct (Hip eq_refl k0 w0 H1) as (w' & E1 & H3 & HJ & _). exists true, w'. split; auto. split; auto. split; auto. split; [eauto|].
            intros Ho. destruct (H2 Ho) as (k1 & d & H5). destruct (Hip eq_refl k1 w0 (H10 _ _ _ _ H5)) as (w'' & E2 & _ & _ & H6).
            rewrite E1 in E2. injection E2 as <-. eauto. }
          intros ok. eapply HT_bind; [apply HT_time|]. intros t1. eapply HT_bind; [apply HT_tip|]. intros ?x.
          destruct ok.
          * eapply HT_conseq; [intros w0 b o H'; exact H'|apply HT_ret|]. cbn. tauto.
          * intros s0 _ (H' & _). discriminate.
        + eapply HT_conseq; [intros w0 b o H'; exact H'|apply HT_ret|]. cbn. intros _ w0 b o (_ & H'). split; [exact H'|discriminate].
      - intros ?x. eapply HT_bind; [apply HT_fitted|]. intros ?x. eapply HT_bind; [apply HT_time|]. intros t.
        eapply HT_bind; [apply HT_get_tstart|]. intros t0. apply HT_elapsed. }
    destruct (HF s3 S3 HE) as (s' & [] & E4 & _ & (HE1 & HE2) & HJ). exists s'. auto.
Qed.
End H.

(** More fuel does not change a finished run. *)
Section Mono.
Context {W D C : Type}.
Variable E : env W D C.
Lemma loop_mono fuel : forall fuel' (s : fstate W D C), fuel <= fuel' -> snd (loop E fuel s) <> NoFuel -> loop E fuel' s = loop E fuel s.
Proof.
  induction fuel as [|fuel IH]; intros fuel' s Hf Hn; [contradiction Hn; reflexivity|]. destruct fuel' as [|fuel']; [lia|].
  cbn [loop] in *. unfold mbind in *. destruct (get_iter s) as [s1 [it|e|]]; auto. destruct (_ && _); auto.
  destruct (iteration E s1) as [s2 [u|e|]]; auto. destruct u; auto. apply IH; auto. lia.
Qed.
Lemma fit_mono fuel fuel' y (s : fstate W D C) : fuel <= fuel' -> snd (fit E fuel y s) <> NoFuel -> fit E fuel' y s = fit E fuel y s.
Proof.
  intros Hf Hn. rewrite !fit_unfold in *. destruct (_ <=? _); auto. destruct (c_generate_mp E (f_world s)) as [w|]; auto.
  rewrite (loop_mono fuel fuel'); auto. intros HL. apply Hn.
  destruct (loop E fuel (loop_start E w s)) as [s3 o]. cbn in HL. subst o. reflexivity.
Qed.
End Mono.

Section Iters.
Context {W D C : Type}.
Variable E : env W D C.
(** The number of iterations is bounded by any fuel that suffices. *)
Lemma loop_iters fuel : forall (s s' : fstate W D C) u, loop E fuel s = (s', Done u) -> f_tlr s = false -> f_iter s' <= f_iter s + fuel.
Proof.
  induction fuel as [|fuel IH]; intros s s' u H Ht; cbn [loop] in H; [discriminate|].
  apply mbind_done in H. destruct H as (s0 & k & H0 & H). inversion H0; subst s0 k. clear H0.
  destruct (_ && _); [inversion H; subst; lia|].
  apply mbind_done in H. destruct H as (s1 & upd & H1 & H).
  destruct (iteration_spec E _ _ _ H1 Ht) as (evs & v & It & Dv & U & T).
  pose proof (d_iter _ _ _ Dv) as Ei. rewrite (iteration_count _ _ _ It) in Ei.
  destruct upd.
  - assert (v = Updated) by (destruct v; congruence). subst v. specialize (IH _ _ _ H T). lia.
  - apply mbind_done in H. destruct H as (s2 & tlr & H2 & H). inversion H2; subst. destruct (f_tlr s2); inversion H; subst; cbn; lia.
Qed.
Lemma fit_iters fuel y (s s' : fstate W D C) u : fit E fuel y s = (s', Done u) -> f_iter s' <= fuel.
Proof.
  intros H. destruct (fit_loop_state E _ _ _ _ _ H) as (_ & s2 & s3 & _ & I & _ & _ & _ & T & _ & _ & _ & HL & HF).
  apply loop_iters in HL; auto. apply finish_spec in HF. destruct HF as (HF & _). apply d_iter in HF. cbn [f_iter] in HF.
  destruct (rmp_is_ip E); cbn in HF; lia.
Qed.
End Iters.

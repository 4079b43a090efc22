(** Two trainings whose overridden methods correspond do the same things (for property C89). *)
From Verif Require Import Base FitModel.
Open Scope nat_scope.

Section Rel.
Context {W D C : Type}.
Variable P : W -> W -> Prop.
Variables E E' : env W D C.
Definition rres {A V} (P : V -> V -> Prop) (r r' : res (A * V)) : Prop :=
  match r, r' with Ok (a, w), Ok (a', w') => a' = a /\ P w w' | Err e, Err e' => e' = e | _, _ => False end.
Definition rst {V} (P : V -> V -> Prop) (r r' : res V) : Prop :=
  match r, r' with Ok w, Ok w' => P w w' | Err e, Err e' => e' = e | _, _ => False end.
Hypothesis Hmax : max_iterations E' = max_iterations E.
Hypothesis Hlim : time_limit E' = time_limit E.
Hypothesis Hlev : levels E' = levels E.
Hypothesis Hip : rmp_is_ip E' = rmp_is_ip E.
Hypothesis Hclk : forall n, clock E' n = clock E n.
Hypothesis Hgen_mp : forall w w', P w w' -> rst P (c_generate_mp E w) (c_generate_mp E' w').
Hypothesis Hsolve : forall w w', P w w' -> rres P (c_solve_rmp E w) (c_solve_rmp E' w').
Hypothesis Himp : forall w w', P w w' -> rres P (c_improved E w) (c_improved E' w').
Hypothesis Hreset : forall w w', P w w' -> fst (c_reset_timer E' w') = fst (c_reset_timer E w) /\ P (snd (c_reset_timer E w)) (snd (c_reset_timer E' w')).
Hypothesis Hupd : forall l i d w w', P w w' -> rst P (c_update E l i d w) (c_update E' l i d w').
Hypothesis Hgen : forall l i d w w', P w w' -> rres P (c_generate E l i d w) (c_generate E' l i d w').
Hypothesis Hadd : forall c w w', P w w' -> rres P (c_add E c w) (c_add E' c w').
Hypothesis Hsip : forall w w', P w w' -> rres P (c_solve_ip E w) (c_solve_ip E' w').

(** The same attributes and calls over another world. *)
Definition over (w' : W) (s : fstate W D C) : fstate W D C :=
  mkF w' (f_tick s) (f_trace s) (f_tstart s) (f_iter s) (f_performed s) (f_improving s) (f_optimal s) (f_tlr s) (f_cols s) (f_tsp s) (f_tadd s) (f_tmaster s) (f_tip s) (f_elapsed s) (f_fitted s).
Definition frel (s s' : fstate W D C) : Prop := exists w', s' = over w' s /\ P (f_world s) w'.
Definition msim {A} (m m' : @M W D C A) : Prop := forall s s', frel s s' -> frel (fst (m s)) (fst (m' s')) /\ snd (m' s') = snd (m s).

Lemma sim_bind {A B} (m m' : @M W D C A) (k k' : A -> @M W D C B) : msim m m' -> (forall a, msim (k a) (k' a)) -> msim (mbind m k) (mbind m' k').
Proof.
  intros H K s s' F. unfold mbind. destruct (H s s' F) as [G1 G2]. destruct (m s) as [t [a|e|]], (m' s') as [t' [a'|e'|]]; cbn [fst snd] in *; try discriminate; auto.
  - injection G2 as ->. apply K. exact G1.
  - injection G2 as ->. auto.
Qed.
Lemma sim_call {A} (h h' : W -> res (A * W)) ev : (forall w w', P w w' -> rres P (h w) (h' w')) -> msim (call h ev) (call h' ev).
Proof.
  intros H s s' (w' & -> & Hw). unfold call. cbn [over f_world]. pose proof (H _ _ Hw) as G. destruct (h (f_world s)) as [[a w]|e], (h' w') as [[a' v]|e']; cbn [rres] in G; try contradiction.
  - destruct G as [-> G]. split; [|reflexivity]. exists v. split; [reflexivity|exact G].
  - subst e'. split; [|reflexivity]. exists w'. split; [reflexivity|exact Hw].
Qed.
Lemma sim_call_unit (h h' : W -> res W) ev : (forall w w', P w w' -> rst P (h w) (h' w')) -> msim (call_unit h ev) (call_unit h' ev).
Proof.
  intros H. unfold call_unit. apply sim_call. intros w w' Hw. pose proof (H _ _ Hw) as G. destruct (h w), (h' w'); cbn [rst rres bind] in *; try contradiction; auto.
Qed.
Lemma sim_time : msim (time E) (time E').
Proof. intros s s' (w' & -> & Hw). unfold time. cbn [over f_tick fst snd]. rewrite Hclk. split; [|reflexivity]. exists w'. auto. Qed.
Ltac triv := intros s s' (w' & -> & Hw); split; [exists w'; auto|reflexivity].
Lemma sim_tsp l i q : msim (add_tsp l i q) (add_tsp l i q).
Proof. intros s s' (w' & -> & Hw). unfold add_tsp. cbn [over f_tsp]. destruct (update2 _ _ _ _); (split; [exists w'; auto|reflexivity]). Qed.
Lemma sim_cols l i q : msim (add_cols l i q) (add_cols l i q).
Proof. intros s s' (w' & -> & Hw). unfold add_cols. cbn [over f_cols]. destruct (update2 _ _ _ _); (split; [exists w'; auto|reflexivity]). Qed.
Ltac mb := eapply sim_bind; [first [apply sim_time|apply sim_tsp|apply sim_cols|solve [triv]]|intros ?].

Lemma sim_update_row l is d : msim (update_row E l is d) (update_row E' l is d).
Proof. induction is as [|i is IH]; cbn [update_row]; [triv|]. mb. eapply sim_bind; [apply sim_call_unit; intros; apply Hupd; auto|intros _]. mb. mb. exact IH. Qed.
Lemma sim_update_all ns d : forall l, msim (update_all E l ns d) (update_all E' l ns d).
Proof. induction ns as [|n ns IH]; intros l; cbn [update_all]; [triv|]. eapply sim_bind; [apply sim_update_row|intros _; apply IH]. Qed.
Lemma sim_add_columns l i cols : forall u, msim (add_columns E l i cols u) (add_columns E' l i cols u).
Proof. induction cols as [|c cols IH]; intros u; cbn [add_columns]; [triv|]. eapply sim_bind; [apply sim_call; intros; apply Hadd; auto|intros b]. mb. apply IH. Qed.
Lemma sim_price_row l is d : forall u, msim (price_row E l is d u) (price_row E' l is d u).
Proof.
  induction is as [|i is IH]; intros u; cbn [price_row]; [triv|]. mb. mb. mb. mb. rewrite Hlim.
  destruct (Qltb 0 (time_limit E) && Qltb (time_limit E) (a - a0))%bool; [mb; triv|]. mb.
  eapply sim_bind; [apply sim_call; intros; apply Hgen; auto|intros cols]. mb. mb. mb. eapply sim_bind; [apply sim_add_columns|intros u']. mb. mb. destruct u'; [triv|apply IH].
Qed.
Lemma sim_price_all ns d : forall l u, msim (price_all E l ns d u) (price_all E' l ns d u).
Proof.
  induction ns as [|n ns IH]; intros l u; cbn [price_all]; [triv|]. eapply sim_bind; [apply sim_price_row|intros u']. mb. mb. mb. mb.
  destruct a2; [triv|]. destruct u'; [triv|apply IH].
Qed.
Lemma sim_iteration : msim (iteration E) (iteration E').
Proof.
  unfold iteration. mb. mb. mb. eapply sim_bind; [apply sim_call; intros; apply Hsolve; auto|intros d]. mb. mb.
  eapply sim_bind; [apply sim_call; intros; apply Himp; auto|intros b]. eapply sim_bind; [destruct b; triv|intros _].
  eapply sim_bind.
  { intros s s' (w' & -> & Hw). cbn [over f_world]. destruct (Hreset _ _ Hw) as [G1 G2]. destruct (c_reset_timer E (f_world s)) as [r w], (c_reset_timer E' w') as [r' v]. cbn [fst snd] in *. subst r'.
    split; [exists v; split; [reflexivity|exact G2]|reflexivity]. }
  intros r. eapply sim_bind; [destruct r; [mb; mb; triv|triv]|intros _].
  rewrite Hlev. eapply sim_bind; [apply sim_update_all|intros _]. apply sim_price_all.
Qed.
Lemma sim_loop fuel : msim (loop E fuel) (loop E' fuel).
Proof.
  induction fuel as [|fuel IH]; cbn [loop]; [triv|]. mb. rewrite Hmax. destruct (_ && _)%bool; [triv|].
  eapply sim_bind; [apply sim_iteration|intros u]. destruct u; [exact IH|]. mb. destruct a0; triv.
Qed.
Lemma sim_finish : msim (finish E) (finish E').
Proof.
  unfold finish. mb. rewrite Hip. eapply sim_bind.
  - destruct (rmp_is_ip E); [|triv]. mb. eapply sim_bind; [apply sim_call; intros; apply Hsip; auto|intros ok]. mb. mb. destruct ok; triv.
  - intros _. mb. mb. mb. triv.
Qed.
Lemma sim_fit fuel y : msim (fit E fuel y) (fit E' fuel y).
Proof.
  unfold fit. mb. mb. destruct (length (nodup Z.eq_dec y) <=? 1); [triv|]. eapply sim_bind; [apply sim_call_unit; intros; apply Hgen_mp; auto|intros _].
  eapply sim_bind; [unfold reset_attributes; rewrite Hlev; triv|intros _]. eapply sim_bind; [apply sim_loop|intros _; apply sim_finish].
Qed.
End Rel.

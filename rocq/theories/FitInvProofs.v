(** Assertions about the plugged-in objects that every run of fit keeps, also runs that raise. *)
From Verif Require Import Base FitModel.
Open Scope nat_scope.

Section Keep.
Context {W D C : Type}.
Variable E : env W D C.
Variable I : W -> Prop.
Definition keeps {A} (m : @M W D C A) : Prop := forall s, I (f_world s) -> I (f_world (fst (m s))).

Lemma keeps_bind {A B} (m : @M W D C A) (f : A -> @M W D C B) : keeps m -> (forall a, keeps (f a)) -> keeps (mbind m f).
Proof.
  intros H1 H2 s Hs. specialize (H1 s Hs). unfold mbind. destruct (m s) as [s1 [a|e|]]; cbn in *; auto. apply H2. auto.
Qed.
Lemma keeps_call {A} (f : W -> res (A * W)) g : (forall w a w', f w = Ok (a, w') -> I w -> I w') -> keeps (call f g).
Proof. intros H s Hs. unfold call. destruct (f (f_world s)) as [[a w]|e] eqn:F; cbn; eauto. Qed.
Lemma keeps_call_unit (f : W -> res W) g : (forall w w', f w = Ok w' -> I w -> I w') -> keeps (call_unit f g).
Proof. intros H. apply keeps_call. intros w [] w' F. destruct (f w) eqn:G; [|discriminate]. inversion F; subst. eauto. Qed.

Hypothesis Hgen_mp : forall w w', c_generate_mp E w = Ok w' -> I w -> I w'.
Hypothesis Hsolve : forall w d w', c_solve_rmp E w = Ok (d, w') -> I w -> I w'.
Hypothesis Himp : forall w d w', c_improved E w = Ok (d, w') -> I w -> I w'.
Hypothesis Hreset : forall w, I w -> I (snd (c_reset_timer E w)).
Hypothesis Hupd : forall l i d w w', c_update E l i d w = Ok w' -> I w -> I w'.
Hypothesis Hgen : forall l i d w cols w', c_generate E l i d w = Ok (cols, w') -> I w -> I w'.
Hypothesis Hadd : forall c w b w', c_add E c w = Ok (b, w') -> I w -> I w'.
Hypothesis Hip : forall w b w', c_solve_ip E w = Ok (b, w') -> I w -> I w'.

Ltac same := intros s Hs; exact Hs.
Ltac kb := apply keeps_bind; [try same|intros ?].
Lemma keeps_add_tsp l i q : keeps (add_tsp l i q).
Proof. intros s Hs. unfold add_tsp. destruct (update2 _ _ _ _); auto. Qed.
Lemma keeps_add_cols l i q : keeps (add_cols l i q).
Proof. intros s Hs. unfold add_cols. destruct (update2 _ _ _ _); auto. Qed.
Lemma keeps_update_row l is d : keeps (update_row E l is d).
Proof.
  induction is as [|i is IH]; cbn [update_row]; [same|]. kb. kb; [apply keeps_call_unit; eauto|]. kb. kb; [apply keeps_add_tsp|]. auto.
Qed.
Lemma keeps_update_all ns d : forall l, keeps (update_all E l ns d).
Proof. induction ns as [|n ns IH]; intros l; cbn [update_all]; [same|]. kb; [apply keeps_update_row|]. auto. Qed.
Lemma keeps_add_columns l i cols : forall u, keeps (add_columns E l i cols u).
Proof.
  induction cols as [|c cols IH]; intros u; cbn [add_columns]; [same|]. kb; [apply keeps_call; eauto|]. kb; [apply keeps_add_cols|]. auto.
Qed.
Lemma keeps_price_row l is d : forall u, keeps (price_row E l is d u).
Proof.
  induction is as [|i is IH]; intros u; cbn [price_row]; [same|]. kb. kb. kb. kb. destruct (_ && _).
  - kb. same.
  - kb. kb; [apply keeps_call; eauto|]. kb. kb; [apply keeps_add_tsp|]. kb. kb; [apply keeps_add_columns|]. kb. kb.
    match goal with |- keeps (if ?b then _ else _) => destruct b end; [same|auto].
Qed.
Lemma keeps_price_all ns d : forall l u, keeps (price_all E l ns d u).
Proof.
  induction ns as [|n ns IH]; intros l u; cbn [price_all]; [same|]. kb; [apply keeps_price_row|]. kb. kb. kb. kb.
  match goal with |- keeps (if ?b then _ else _) => destruct b end; [same|].
  match goal with |- keeps (if ?b then _ else _) => destruct b end; [same|auto].
Qed.
Lemma keeps_iteration : keeps (iteration E).
Proof.
  unfold iteration. kb. kb. kb. kb; [apply keeps_call; eauto|]. kb. kb. kb; [apply keeps_call; eauto|].
  kb; [match goal with |- keeps (if ?b then _ else _) => destruct b end; same|].
  kb. { intros s Hs. specialize (Hreset (f_world s) Hs). destruct (c_reset_timer E (f_world s)). exact Hreset. }
  kb. { match goal with |- keeps (if ?b then _ else _) => destruct b end; [|same]. kb. kb. same. }
  kb; [apply keeps_update_all|apply keeps_price_all].
Qed.
Lemma keeps_loop fuel : keeps (loop E fuel).
Proof.
  induction fuel as [|fuel IH]; cbn [loop]; [same|]. kb. destruct (_ && _); [same|]. kb; [apply keeps_iteration|].
  match goal with |- keeps (if ?b then _ else _) => destruct b end; [auto|]. kb.
  match goal with |- keeps (if ?b then _ else _) => destruct b end; same.
Qed.
Lemma keeps_finish : keeps (finish E).
Proof.
  unfold finish. kb. kb.
  - destruct (rmp_is_ip E); [|same]. kb. kb; [apply keeps_call; eauto|]. kb. kb.
    match goal with |- keeps (if ?b then _ else _) => destruct b end; same.
  - kb. kb. kb. same.
Qed.
Lemma keeps_fit fuel y : keeps (fit E fuel y).
Proof.
  unfold fit. kb. kb. destruct (_ <=? _); [same|]. kb; [apply keeps_call_unit; eauto|]. kb. kb; [apply keeps_loop|apply keeps_finish].
Qed.
End Keep.

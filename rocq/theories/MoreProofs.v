(** Lemmas for property C90. *)
From Verif Require Import Base Lp LpProofs FitModel SpecFit FitInvProofs FitProofs FitMainProofs TreeModel TreePricingModel TreeFitModel TreeRefitProofs.
From Verif Require Import SpecMore.
Open Scope nat_scope.

Lemma bind_assoc {W D C X Y Z} (p : @M W D C X) (f : X -> @M W D C Y) (g : Y -> @M W D C Z) s : mbind (mbind p f) g s = mbind p (fun x => mbind (f x) g) s.
Proof. unfold mbind. destruct (p s) as [t [x| | ]]; reflexivity. Qed.
Lemma bind_ext {W D C X Y} (p : @M W D C X) (f g : X -> @M W D C Y) s : (forall x t, f x t = g x t) -> mbind p f s = mbind p g s.
Proof. intros H. unfold mbind. destruct (p s) as [t [x| | ]]; auto. Qed.
Section Grow.
Context {W D C : Type}.
Variable R : W -> W -> Prop.
Hypothesis R_refl : forall w, R w w.
Hypothesis R_trans : forall a b c, R a b -> R b c -> R a c.
Local Notation st := (fstate W D C).
(** The calls inside the loop lead along [R]. *)
Definition moves (E : env W D C) : Prop :=
  (forall w d w', c_solve_rmp E w = Ok (d, w') -> R w w') /\ (forall w b w', c_improved E w = Ok (b, w') -> R w w') /\ (forall w, R w (snd (c_reset_timer E w))) /\
  (forall l i d w w', c_update E l i d w = Ok w' -> R w w') /\ (forall l i d w cols w', c_generate E l i d w = Ok (cols, w') -> R w w') /\
  (forall c w b w', c_add E c w = Ok (b, w') -> R w w').
Lemma mv_rmp E : moves E -> forall w d w', c_solve_rmp E w = Ok (d, w') -> R w w'.
Proof. intros H. apply H. Qed.
Lemma mv_gen E : moves E -> forall l i d w cols w', c_generate E l i d w = Ok (cols, w') -> R w w'.
Proof. intros (_ & _ & _ & _ & H & _). exact H. Qed.
Lemma mv_add E : moves E -> forall c w b w', c_add E c w = Ok (b, w') -> R w w'.
Proof. intros (_ & _ & _ & _ & _ & H). exact H. Qed.
(** Events are appended; counts do not fall. *)
Definition grew (s s' : st) : Prop := (exists e, f_trace s' = f_trace s ++ e) /\ f_iter s <= f_iter s' /\ f_improving s <= f_improving s' /\ R (f_world s) (f_world s').
Definition grown (s s' : st) : Prop := grew s s' /\ f_optimal s' = f_optimal s.
Definition grows {A} (m : @M W D C A) : Prop := forall s, grown s (fst (m s)).
Lemma grew_refl s : grew s s.
Proof. split; [exists []; symmetry; apply app_nil_r|]. auto. Qed.
Lemma grew_trans a b c : grew a b -> grew b c -> grew a c.
Proof. intros ((e & E1) & H1 & H2 & H5) ((e' & E2) & H3 & H4 & H6). split; [exists (e ++ e'); rewrite E2, E1, app_assoc; reflexivity|]. split; [lia|]. split; [lia|]. eapply R_trans; eauto. Qed.
Lemma grown_refl s : grown s s.
Proof. split; [apply grew_refl|reflexivity]. Qed.
Lemma grown_trans a b c : grown a b -> grown b c -> grown a c.
Proof. intros [H1 O1] [H2 O2]. split; [eapply grew_trans; eauto|congruence]. Qed.
Lemma grow_bind {A B} (m : @M W D C A) (k : A -> @M W D C B) : grows m -> (forall a, grows (k a)) -> grows (mbind m k).
Proof. intros H K s. unfold mbind. specialize (H s). destruct (m s) as [t [a|e|]]; cbn [fst] in *; auto. eapply grown_trans; [exact H|apply K]. Qed.
Ltac triv := let z := fresh "z" in intros z; split; [split; [exists []; symmetry; apply app_nil_r|]|]; cbn; auto.
Lemma grow_call {A} (f : W -> res (A * W)) ev : (forall w a w', f w = Ok (a, w') -> R w w') -> grows (call f ev).
Proof. intros H s. unfold call. destruct (f (f_world s)) as [[a w]|e] eqn:Ef; [|apply grown_refl]. cbn [fst]. split; [split; [eexists; reflexivity|]|]; cbn; eauto. Qed.
Lemma grow_log x : grows (log x).
Proof. intros s. split; [split; [eexists; reflexivity|]|]; cbn; auto. Qed.
Lemma grow_tsp l i q : grows (add_tsp l i q).
Proof. intros s. unfold add_tsp. destruct (update2 _ _ _ _); [|apply grown_refl]. revert s. triv. Qed.
Lemma grow_cols l i q : grows (add_cols l i q).
Proof. intros s. unfold add_cols. destruct (update2 _ _ _ _); [|apply grown_refl]. revert s. triv. Qed.
Section One.
Variable E : env W D C.
Hypothesis HE : moves E.
Lemma grow_time : grows (time E).
Proof. triv. Qed.
Ltac gb := apply grow_bind; [first [apply grow_time|apply grow_tsp|apply grow_cols|apply grow_log|solve [triv]]|intros ?].
Lemma grow_update_row l is d : grows (update_row E l is d).
Proof.
  induction is as [|i is IH]; cbn [update_row]; [triv|]. gb. apply grow_bind; [|intros _; gb; gb; exact IH].
  apply grow_call. intros w [] w' H. destruct (c_update E l i d w) eqn:Eu; [|discriminate]. injection H as <-. destruct HE as (_ & _ & _ & H & _). eauto.
Qed.
Lemma grow_update_all ns d : forall l, grows (update_all E l ns d).
Proof. induction ns as [|n ns IH]; intros l; cbn [update_all]; [triv|]. apply grow_bind; [apply grow_update_row|intros _; apply IH]. Qed.
Lemma grow_add_columns l i cols : forall u, grows (add_columns E l i cols u).
Proof. induction cols as [|c cols IH]; intros u; cbn [add_columns]; [triv|]. apply grow_bind; [apply grow_call; intros; eapply (mv_add _ HE); eauto|intros b]. gb. apply IH. Qed.
Lemma grow_price_row l is d : forall u, grows (price_row E l is d u).
Proof.
  induction is as [|i is IH]; intros u; cbn [price_row]; [triv|]. gb. gb. gb. gb. destruct (_ && _)%bool; [gb; triv|]. gb. apply grow_bind; [apply grow_call; intros; eapply (mv_gen _ HE); eauto|intros cols]. gb. gb. gb.
  apply grow_bind; [apply grow_add_columns|intros u']. gb. gb. destruct u'; [triv|apply IH].
Qed.
(** What follows the subproblems of one level. *)
Definition after_row (l : nat) (ns : list nat) (d : D) (u : bool) : @M W D C bool :=
  mbind (time E) (fun t => mbind get_tstart (fun t0 => mbind (set_elapsed (t - t0)) (fun _ => mbind get_tlr (fun tlr : bool =>
    if tlr then ret u else if u then ret u else price_all E (S l) ns d u)))).
Lemma grow_price_all ns d : forall l u, grows (price_all E l ns d u).
Proof.
  induction ns as [|n ns IH]; intros l u; cbn [price_all]; [triv|]. apply grow_bind; [apply grow_price_row|intros u']. gb. gb. gb. gb.
  match goal with |- grows (if ?b then _ else _) => destruct b end; [triv|]. destruct u'; [triv|apply IH].
Qed.
Lemma grow_after_row l ns d u : grows (after_row l ns d u).
Proof. unfold after_row. gb. gb. gb. gb. match goal with |- grows (if ?b then _ else _) => destruct b end; [triv|]. destruct u; [triv|apply grow_price_all]. Qed.
(** An iteration up to the pricing. *)
Definition before_pricing : @M W D C D :=
  mbind incr_iter (fun _ => mbind (time E) (fun _ => mbind (time E) (fun m0 => mbind (call (c_solve_rmp E) EvSolveRmp) (fun d => mbind (time E) (fun m1 => mbind (add_tmaster (m1 - m0)) (fun _ =>
  mbind (call (c_improved E) EvImproved) (fun b : bool => mbind (if b then incr_improving else ret tt) (fun _ =>
  mbind (fun s => let '(r, w) := c_reset_timer E (f_world s) in
          (mkF w (f_tick s) (f_trace s) (f_tstart s) (f_iter s) (f_performed s) (f_improving s) (f_optimal s)
               (f_tlr s) (f_cols s) (f_tsp s) (f_tadd s) (f_tmaster s) (f_tip s) (f_elapsed s) (f_fitted s), Done r)) (fun r : bool =>
  mbind (if r then mbind (time E) (fun t => mbind (set_tstart t) (fun _ => log EvResetTimer)) else ret tt) (fun _ =>
  mbind (update_all E 0 (levels E) d) (fun _ => ret d))))))))))).
Lemma grow_before : grows before_pricing.
Proof.
  unfold before_pricing. gb. gb. gb. apply grow_bind; [apply grow_call; intros; eapply (mv_rmp _ HE); eauto|intros d]. gb. gb. apply grow_bind; [apply grow_call; intros w b w' H; destruct HE as (_ & H2 & _); eauto|intros b].
  apply grow_bind; [destruct b; triv|intros _].
  apply grow_bind; [intros s; destruct HE as (_ & _ & H3 & _); specialize (H3 (f_world s)); destruct (c_reset_timer E (f_world s)); cbn [snd] in H3; split; [split; [exists []; symmetry; apply app_nil_r|]|]; cbn; auto|intros r].
  apply grow_bind; [destruct r; [gb; gb; apply grow_log|triv]|intros _].
  apply grow_bind; [apply grow_update_all|intros _; triv].
Qed.
Lemma iteration_parts s : iteration E s = mbind before_pricing (fun d => price_all E 0 (levels E) d false) s.
Proof.
  unfold iteration, before_pricing. do 11 (rewrite bind_assoc; apply bind_ext; intros ? ?). reflexivity.
Qed.
Lemma grow_iteration : grows (iteration E).
Proof. intros s. rewrite iteration_parts. revert s. apply grow_bind; [apply grow_before|intros d; apply grow_price_all]. Qed.
Lemma grow_loop : forall fuel s, grew s (fst (loop E fuel s)).
Proof.
  induction fuel as [|fuel IH]; intros s; cbn [loop]; [apply grew_refl|]. unfold mbind at 1, get_iter. destruct (_ && _)%bool; [apply grew_refl|]. unfold mbind at 1.
  pose proof (proj1 (grow_iteration s)) as G.
  destruct (iteration E s) as [s1 [u|e|]]; cbn [fst] in *; auto. destruct u; [eapply grew_trans; [exact G|apply IH]|]. unfold mbind, get_tlr. destruct (f_tlr s1); cbn [fst ret]; exact G.
Qed.
End One.

Section More.
Variables (E : env W D C) (m m' : Z) (q q' : Q).
Hypothesis HE : moves E.
Hypothesis Hm : iterations_allowed m m'.
Hypothesis Hq : time_allowed q q'.
Local Notation Em := (with_limits E m q).
Local Notation Em' := (with_limits E m' q').

Lemma moves_more : moves Em'.
Proof. exact HE. Qed.
(** Two computations that agree, unless the first stops at the time limit. *)
Definition ahead (a b : @M W D C bool) (s : st) : Prop :=
  a s = b s \/ exists t, a s = (t, Done false) /\ f_tlr t = true /\ f_optimal t = f_optimal s /\ grew t (fst (b s)).
Lemma ahead_bind {A} (p : @M W D C A) a b s : (forall x t, p s = (t, Done x) -> f_optimal t = f_optimal s -> ahead (a x) (b x) t) -> grows p -> ahead (mbind p a) (mbind p b) s.
Proof.
  intros H G. unfold ahead, mbind. specialize (G s). destruct (p s) as [t [x|e|]] eqn:Ep; [|left; reflexivity|left; reflexivity]. cbn [fst] in G. destruct G as [_ Go].
  destruct (H x t eq_refl Go) as [Hl|(t2 & H1 & H2 & H3 & H4)]; [left; exact Hl|right]. exists t2. split; [exact H1|]. split; [exact H2|]. split; [congruence|exact H4].
Qed.
Lemma limit_cases e : (Qltb 0 q && Qltb q e = false -> Qltb 0 q' && Qltb q' e = false)%bool.
Proof.
  intros H. apply andb_false_iff in H. apply andb_false_iff. destruct Hq as [Hn|[H1 H2]].
  - left. apply Qltb_false. exact Hn.
  - right. apply Qltb_false. destruct H as [H|H]; apply Qltb_false in H; lra.
Qed.
Ltac ab := apply ahead_bind; [intros ? ? _ _|first [apply grow_time|apply grow_tsp|apply grow_cols|apply grow_log|solve [triv]]].
Lemma ahead_row l is d : forall s, ahead (price_row Em l is d false) (price_row Em' l is d false) s.
Proof.
  induction is as [|i is IH]; intros s; [left; reflexivity|]. pose proof (grow_price_row Em' moves_more l (i :: is) d false) as G. cbn [price_row] in *.
  change (time Em') with (time Em) in *.
  apply ahead_bind; [intros t s1 E1 _|apply grow_time]. apply ahead_bind; [intros t0 s2 E2 _|triv]. apply ahead_bind; [intros [] s3 E3 _|triv]. apply ahead_bind; [intros [] s4 E4 _|apply grow_log].
  cbn [time_limit with_limits] in *. destruct (Qltb 0 q && Qltb q (t - t0))%bool eqn:B.
  - destruct (Qltb 0 q' && Qltb q' (t - t0))%bool eqn:B'; [left; reflexivity|]. right. eexists. split; [reflexivity|]. split; [reflexivity|]. split; [reflexivity|].
    match goal with |- grew _ (fst (?k s4)) => assert (K : grows k) end.
    { apply grow_bind; [triv|intros s0]. apply grow_bind; [apply grow_call; intros; eapply (mv_gen _ HE); eauto|intros cols]. apply grow_bind; [triv|intros a1]. apply grow_bind; [apply grow_tsp|intros _]. apply grow_bind; [triv|intros a2].
      apply grow_bind; [apply (grow_add_columns Em' moves_more)|intros u']. apply grow_bind; [triv|intros a3]. apply grow_bind; [triv|intros _]. destruct u'; [triv|apply (grow_price_row Em' moves_more)]. }
    exact (proj1 (K s4)).
  - rewrite (limit_cases _ B). change (add_columns Em') with (add_columns Em).
    apply ahead_bind; [intros s0 s5 _ _|triv]. apply ahead_bind; [intros cols s6 _ _|apply grow_call; intros; eapply (mv_gen _ HE); eauto]. apply ahead_bind; [intros a1 s7 _ _|triv]. apply ahead_bind; [intros [] s8 _ _|apply grow_tsp].
    apply ahead_bind; [intros a2 s9 _ _|triv]. apply ahead_bind; [intros u' s10 _ _|apply (grow_add_columns Em HE)]. apply ahead_bind; [intros a3 s11 _ _|triv]. apply ahead_bind; [intros [] s12 _ _|triv].
    destruct u'; [left; reflexivity|apply IH].
Qed.
Lemma ahead_all ns d : forall l s, ahead (price_all Em l ns d false) (price_all Em' l ns d false) s.
Proof.
  induction ns as [|n ns IH]; intros l s; [left; reflexivity|]. change (price_all Em l (n :: ns) d false) with (mbind (price_row Em l (seq 0 n) d false) (after_row Em l ns d)).
  change (price_all Em' l (n :: ns) d false) with (mbind (price_row Em' l (seq 0 n) d false) (after_row Em' l ns d)). unfold ahead, mbind.
  destruct (ahead_row l (seq 0 n) d s) as [Er|(t & Er & T1 & T2 & G)].
  - pose proof (grow_price_row Em HE l (seq 0 n) d false s) as [_ Go]. rewrite <- Er. destruct (price_row Em l (seq 0 n) d false s) as [s1 [u|e|]]; [|left; reflexivity|left; reflexivity]. cbn [fst] in Go.
    assert (A : ahead (after_row Em l ns d u) (after_row Em' l ns d u) s1).
    { unfold after_row. change (time Em') with (time Em). apply ahead_bind; [intros x1 s2 _ _|triv]. apply ahead_bind; [intros x2 s3 _ _|triv]. apply ahead_bind; [intros x3 s4 _ _|triv].
      apply ahead_bind; [intros tlr s5 _ _|triv]. destruct tlr; [left; reflexivity|]. destruct u; [left; reflexivity|apply IH]. }
    destruct A as [A|(t & A1 & A2 & A3 & A4)]; [left; exact A|right]. exists t. split; [exact A1|]. split; [exact A2|]. split; [congruence|exact A4].
  - right. rewrite Er. unfold after_row at 1, mbind at 1, time at 1, mbind at 1, get_tstart at 1, mbind at 1, set_elapsed at 1, mbind at 1, get_tlr at 1. cbn [f_tlr]. rewrite T1.
    eexists. split; [reflexivity|]. split; [reflexivity|]. split; [exact T2|].
    assert (K : grew t (fst (mbind (price_row Em' l (seq 0 n) d false) (after_row Em' l ns d) s))).
    { unfold mbind. destruct (price_row Em' l (seq 0 n) d false s) as [s1 [u|e|]]; cbn [fst] in *; auto. eapply grew_trans; [exact G|]. apply (grow_after_row Em' moves_more). }
    exact K.
Qed.
Lemma ahead_iteration s : ahead (iteration Em) (iteration Em') s.
Proof.
  unfold ahead. rewrite !iteration_parts. change (before_pricing Em') with (before_pricing Em). change (levels Em') with (levels Em).
  apply (ahead_bind (before_pricing Em) (fun d => price_all Em 0 (levels Em) d false) (fun d => price_all Em' 0 (levels Em) d false)); [intros d t _ _; apply ahead_all|apply (grow_before Em HE)].
Qed.

Lemma loop_more : forall fuel s t fuel' t', f_optimal s = false -> loop Em fuel s = (t, Done tt) -> loop Em' fuel' s = (t', Done tt) ->
  t' = t \/ (f_optimal t = false /\ stopped_by_limit m t /\ grew t t').
Proof.
  induction fuel as [|fuel IH]; intros s t fuel' t' Ho H H'; [discriminate H|]. pose proof H' as H0'. destruct fuel' as [|fuel']; [discriminate H'|]. cbn [loop] in H, H'.
  unfold mbind, get_iter in H, H'. cbn [max_iterations with_limits] in H, H'.
  destruct ((0 <? m)%Z && (m <=? Z.of_nat (f_iter s))%Z)%bool eqn:B.
  - injection H as <-. right. apply andb_true_iff in B. destruct B as [B0 B]. apply Z.leb_le in B. apply Z.ltb_lt in B0. split; [exact Ho|]. split; [right; lia|].
    pose proof (grow_loop Em' moves_more (S fuel') s) as G. rewrite H0' in G. exact G.
  - assert (B' : ((0 <? m')%Z && (m' <=? Z.of_nat (f_iter s))%Z)%bool = false).
    { apply andb_false_iff in B. apply andb_false_iff. destruct Hm as [Hn|Hn]; [left; apply Z.ltb_ge; lia|]. destruct B as [B|B]; [apply Z.ltb_ge in B; lia|]. apply Z.leb_gt in B. right; apply Z.leb_gt; lia. }
    rewrite B' in H'. pose proof (grow_iteration Em HE s) as (_ & Hg). destruct (ahead_iteration s) as [Ei|(t1 & Ei & T1 & T2 & G)].
    + rewrite <- Ei in H'. destruct (iteration Em s) as [s1 [u|e|]]; try discriminate. cbn [fst] in Hg. destruct u.
      * apply (IH s1 t fuel' t' ltac:(congruence) H H').
      * unfold get_tlr in H, H'. destruct (f_tlr s1); (injection H as <-; injection H' as <-; left; reflexivity).
    + rewrite Ei in H. unfold get_tlr in H. rewrite T1 in H. injection H as <-. right. split; [congruence|]. split; [left; exact T1|].
      destruct (iteration Em' s) as [s1 [u|e|]]; try discriminate. cbn [fst] in G. destruct u.
      * eapply grew_trans; [exact G|]. pose proof (grow_loop Em' moves_more fuel' s1) as G'. rewrite H' in G'. exact G'.
      * unfold get_tlr in H'. destruct (f_tlr s1); injection H' as <-; exact G.
Qed.
End More.
End Grow.

(** What finish changes. *)
Lemma finish_more {W D C} (E : env W D C) s t : finish E s = (t, Done tt) -> f_iter t = f_iter s /\ f_improving t = f_improving s /\ f_optimal t = f_optimal s /\ f_tlr t = f_tlr s /\
  f_trace t = f_trace s ++ (if rmp_is_ip E then [EvSolveIp true] else []).
Proof.
  intros H. destruct (finish_spec E _ _ _ H) as (Df & _ & Ft & _ & _ & _ & Fo). destruct Df. cbn in *. split; [|split; [|split; [exact Fo|split; [exact Ft|assumption]]]].
  - rewrite d_iter. destruct (rmp_is_ip E); cbn; lia.
  - rewrite d_impr. destruct (rmp_is_ip E); cbn; lia.
Qed.
Lemma mbind_eq {W D C A B} (m : @M W D C A) (f : A -> @M W D C B) s s1 a : m s = (s1, Done a) -> mbind m f s = f a s1.
Proof. unfold mbind. intros ->. reflexivity. Qed.
Lemma fit_split {W D C} (E : env W D C) fuel y s t : fit E fuel y s = (t, Done tt) ->
  exists s1 t0, loop E fuel s1 = (t0, Done tt) /\ finish E t0 = (t, Done tt) /\ fit E 0 y s = (s1, NoFuel) /\ f_optimal s1 = false.
Proof.
  unfold fit. intros H.
  apply mbind_done in H. destruct H as (s0 & q & H0 & H). rewrite (mbind_eq _ _ _ _ _ H0).
  apply mbind_done in H. destruct H as (s1 & [] & H1 & H). rewrite (mbind_eq _ _ _ _ _ H1).
  destruct (length (nodup Z.eq_dec y) <=? 1); [discriminate|].
  apply mbind_done in H. destruct H as (s2 & [] & H2 & H). rewrite (mbind_eq _ _ _ _ _ H2).
  apply mbind_done in H. destruct H as (s3 & [] & H3 & H). rewrite (mbind_eq _ _ _ _ _ H3).
  apply mbind_done in H. destruct H as (s4 & [] & H4 & H). exists s3, s4. split; [exact H4|]. split; [exact H|]. split; [reflexivity|].
  unfold reset_attributes in H3. injection H3 as <-. reflexivity.
Qed.

(** The master problem of the tree classifier during the loop. *)
Lemma tree_moves sv A clk X y : moves (fun w w' => same_data (tw_master w) (tw_master w')) (tree_env sv A clk X y).
Proof.
  unfold moves. cbn [tree_env c_generate_mp c_solve_rmp c_improved c_reset_timer c_update c_generate c_add c_solve_ip snd]. split; [|split; [|split; [|split; [|split]]]].
  - intros w d w' E. unfold tree_solve_rmp in E. apply bind_ok in E. destruct E as [[d0 m] [E1 E]]. injection E as <- <-. apply (same_rmp _ _ _ _ E1).
  - intros w d w' E. injection E as <- <-. apply same_refl.
  - intros w. apply same_refl.
  - intros l i d w w' E. unfold tree_update in E. destruct (l =? 0).
    + apply bind_ok in E. destruct E as [[h sp] [E1 E]]. injection E as <-. split; [reflexivity|]; split; [reflexivity|]; split; [reflexivity|]; exists []; symmetry; apply app_nil_r.
    + apply bind_ok in E. destruct E as [[c lf] [E1 E]]. apply bind_ok in E. destruct E as [[sub pr] [E2 E]]. apply bind_ok in E. destruct E as [pr1 [E3 E]]. injection E as <-. apply same_refl.
  - intros l i d w cols w' E. unfold tree_generate in E. destruct (l =? 0).
    + apply bind_ok in E. destruct E as [[h sp] [E1 E]]. injection E as <- <-. apply same_refl.
    + apply bind_ok in E. destruct E as [[c lf] [E1 E]]. apply bind_ok in E. destruct E as [[sub pr] [E2 E]]. destruct (is_sat c).
      * apply bind_ok in E. destruct E as [[ps [sub1 pr1]] [E3 E]]. injection E as <- <-. apply same_refl.
      * apply bind_ok in E. destruct E as [ps [E3 E]]. injection E as <- <-. apply same_refl.
  - intros c w b w' E. unfold tree_add in E. apply bind_ok in E. destruct E as [[b0 m] [E1 E]]. injection E as <- <-. apply (same_add _ _ _ _ E1).
Qed.
Lemma tree_finish_paths sv A clk X y s : tm_paths (tw_master (f_world (fst (finish (tree_env sv A clk X y) s)))) = tm_paths (tw_master (f_world s)).
Proof.
  set (I := fun w => tm_paths (tw_master w) = tm_paths (tw_master (f_world s))). change (I (f_world (fst (finish (tree_env sv A clk X y) s)))).
  apply (keeps_finish (tree_env sv A clk X y) I); [|reflexivity]. unfold I. cbn [tree_env c_solve_ip]. intros w b w' E H. unfold tree_solve_ip in E. apply bind_ok in E.
  destruct E as [[b0 m] [E1 E]]. injection E as <- <-. cbn [tw_master]. rewrite <- H. unfold solve_ip in E1. apply bind_ok in E1. destruct E1 as [[] [_ E1]].
  destruct (tv_ip _ _ _); [|discriminate]. injection E1 as <- <-. reflexivity.
Qed.

(** Proofs for property C87. *)
From Verif Require Import Base FitModel FitProofs SpecFit FitEventProofs TunerModel TunerObs TunerProofs TunerRunProofs SolveModel SolveObs SolveProofs PropTuner TreeModel TreePricingModel TreeFitModel
  SpecTuned.
Open Scope nat_scope.

Lemma run_app rng h h' : forall p, tuner_run rng p (h ++ h') = (fst (tuner_run rng (fst (tuner_run rng p h)) h'), snd (tuner_run rng p h) ++ snd (tuner_run rng (fst (tuner_run rng p h)) h')).
Proof. induction h as [|o h IH]; intros p; [cbn; destruct (tuner_run rng p h'); reflexivity|]. cbn [app]. rewrite !run_cons, IH. reflexivity. Qed.
Lemma returned_app a b : returned (a ++ b) = returned a ++ returned b.
Proof. unfold returned. apply flat_map_app. Qed.
Lemma asks_app a b : asks (a ++ b) = asks a ++ asks b.
Proof. unfold asks. apply flat_map_app. Qed.
Lemma asks_added rc : added (asks rc) = [].
Proof. induction rc as [|r rc IH]; [reflexivity|]. change (asks (r :: rc)) with ([TBest; TAdjust (- so_score r) None] ++ asks rc). rewrite added_app, IH. reflexivity. Qed.

Lemma tuned_step rng base p f rc r v p1 : added base <> [] -> tuned_by rng base p f rc -> get_best_value rng p = Ok (v, p1) -> v = f (so_settings r) ->
  tuned_by rng base (tuner_state rng (3 # 10) ((base ++ asks rc) ++ [TBest; TAdjust (- so_score r) None])) f (rc ++ [r]).
Proof.
  intros Hb (Hp & Ht & Hr) Eg Hv. unfold tuned_by. rewrite asks_app. cbn [asks flat_map app]. rewrite app_assoc. split; [reflexivity|].
  assert (Hn : added (base ++ asks rc) <> []) by (rewrite added_app, asks_added, app_nil_r; exact Hb).
  destruct (best_then_adjust rng (3 # 10) _ (- so_score r)%Q Hn) as (v' & q1 & q2 & E1 & _ & _ & E3 & E4). rewrite <- Hp, Eg in E1. injection E1 as <- <-.
  split.
  - rewrite <- E4, app_length. cbn [length]. unfold adjust_score in E3. apply bind_ok in E3. destruct E3 as [? [_ E3]]. apply bind_ok in E3. destruct E3 as [? [_ E3]].
    apply bind_ok in E3. destruct E3 as [? [_ E3]]. injection E3 as <-. cbn [pm_total]. unfold get_best_value in Eg. apply bind_ok in Eg. destruct Eg as [[? ?] [_ Eg]].
    apply bind_ok in Eg. destruct Eg as [? [_ Eg]]. injection Eg as _ <-. cbn [pm_total]. lia.
  - rewrite run_app. cbn [snd]. rewrite returned_app, map_app. rewrite Hr. f_equal. unfold tuner_state in Hp. rewrite <- Hp. rewrite !run_cons. cbn [snd fst tuner_step].
    rewrite Eg. cbn [fst snd]. rewrite E3. cbn. rewrite Hv. reflexivity.
Qed.

Lemma recorded_init rs : recorded rs sub_init [].
Proof. constructor; try reflexivity; repeat split. Qed.

Lemma solve_model_recorded rs solver sub rc sub1 st : recorded rs sub rc -> solve_model rs solver 2 sub = (sub1, Ok st) ->
  exists g, recorded rs sub1 (rc ++ [mkSolved st (solver st) g]) /\ (0 <= g <= 1)%Q /\ (g == 0 <-> no_gap (solver st))%Q /\
    In (set_lns st) [2; 0]%Z /\ In (set_probing st) [2; 1]%Z /\ In (set_presolve st) [3; 4; 2]%Z.
Proof.
  intros [R1 R2 R3 R4 R5] E.
  assert (H : sub_hist rs sub (asks rc) (asks rc) (asks rc)).
  { constructor; first [apply asks_added|apply R5|apply R4|apply R3]. }
  destruct (solve_model_step rs solver 2 sub _ _ _ ltac:(lra) H) as (l & q & z & Il & Iq & Iz & El & Eq_ & Ez & R). cbv zeta in R.
  pose proof (solve_scores_spec 2 (solver (mkSettings l q z)) ltac:(lra)) as Sp.
  destruct (solve_scores 2 (solver (mkSettings l q z))) as [[t g]|e]; [|destruct R as (s' & E1 & _); rewrite E in E1; discriminate].
  destruct Sp as (_ & Hg & Hz & Ht). destruct R as (s' & E1 & E2 & E3 & [K1 K2 K3 _ _ _]). rewrite E in E1. injection E1 as <- ->.
  exists g. cbn [set_lns set_probing set_presolve]. split; [|auto 10].
  set (r := mkSolved (mkSettings l q z) (solver (mkSettings l q z)) g).
  assert (Hs : (t + g)%Q = so_score r) by (unfold so_score; cbn [r so_answer so_gap]; rewrite Ht; reflexivity).
  rewrite Hs in K1, K2, K3. rewrite !app_assoc in K1, K2, K3.
  constructor.
  - rewrite E2, R1, map_app. reflexivity.
  - rewrite E3, R2, map_app. reflexivity.
  - rewrite K3. eapply tuned_step; [discriminate|exact R3|exact El|reflexivity].
  - rewrite K2. eapply tuned_step; [discriminate|exact R4|exact Eq_|reflexivity].
  - rewrite K1. eapply tuned_step; [discriminate|exact R5|exact Ez|reflexivity].
Qed.

Section Run.
Variables (sv : fsolvers) (A : targs) (clk : nat -> Q) (rs : streams).
Hypothesis Hrs : forall k, fs_streams sv k = rs.
Definition statistics (w : tworld) (t : list (event tduals path)) : Prop :=
  length (tw_subs w) = length (sub_specs A) /\
  forall i c lf sub pr, nth_error (sub_specs A) i = Some (c, lf) -> nth_error (tw_subs w) i = Some (sub, pr) ->
    (is_sat c = false -> sub = sub_init) /\ (is_sat c = true -> exists rc, length rc = count (prices i) t /\ recorded rs sub rc /\ Forall (genuine sv) rc).
Lemma stat_same w w' t x : tw_subs w' = tw_subs w -> (forall i, prices i x = false) -> statistics w t -> statistics w' (t ++ [x]).
Proof.
  intros Hw Hx (H1 & H2). split; [congruence|]. rewrite Hw. intros i c lf sub pr Hc Hs. destruct (H2 i c lf sub pr Hc Hs) as [H3 H4]. split; [exact H3|]. intros Hsat.
  destruct (H4 Hsat) as (rc & L & R). exists rc. split; [|exact R]. rewrite count_app, L. unfold count at 3. cbn [filter]. rewrite Hx. cbn. lia.
Qed.
Lemma stat_fit X y fuel s s' : statistics (f_world s) (f_trace s) -> tree_fit sv A clk X y fuel s = (s', Done tt) -> statistics (f_world s') (f_trace s').
Proof.
  intros I0 E. refine (fit_invariant (tree_env sv A clk X y) statistics _ _ _ _ _ _ _ _ fuel _ s s' E _).
  - intros w tr d w' H I. cbn [tree_env c_solve_rmp] in H. unfold tree_solve_rmp in H. apply bind_ok in H. destruct H as [[d0 m] [_ H]]. injection H as <- <-. eapply stat_same; [reflexivity|reflexivity|exact I].
  - intros w tr b w' H I. cbn [tree_env c_improved] in H. injection H as <- <-. eapply stat_same; [reflexivity|reflexivity|exact I].
  - intros w tr I. exact I.
  - intros l i d w tr w' H (I1 & I2). cbn [tree_env c_update] in H. unfold tree_update in H. destruct (l =? 0) eqn:El.
    + apply bind_ok in H. destruct H as [[h sp] [_ H]]. injection H as <-. eapply stat_same; [reflexivity|reflexivity|]. split; [exact I1|exact I2].
    + apply bind_ok in H. destruct H as [[c lf] [Ec H]]. apply bind_ok in H. destruct H as [[sub pr] [Es H]]. apply bind_ok in H. destruct H as [pr1 [_ H]]. injection H as <-.
      apply getitem_ok in Es. assert (Hlt : (i <? length (tw_subs w)) = true) by (apply Nat.ltb_lt, nth_error_Some; congruence). set (w1 := mkTw _ _ _ _).
      assert (S1 : statistics w1 tr); [|eapply (stat_same w1); [reflexivity|reflexivity|exact S1]].
      split; cbn [w1 tw_subs]; [rewrite length_set_nth; exact I1|]. intros j c' lf' sub' pr' Hc Hs. rewrite nth_error_set_nth, Hlt, Bool.andb_true_r in Hs.
      destruct (Nat.eqb_spec j i) as [->|Hne]; [|exact (I2 j c' lf' sub' pr' Hc Hs)].
      injection Hs as <- <-. exact (I2 i c' lf' sub pr Hc Es).
  - intros l i e w tr I. eapply stat_same; [reflexivity|reflexivity|exact I].
  - intros l i d w tr cols w' H I. cbn [tree_env c_generate] in H. unfold tree_generate in H. destruct l as [|l]; cbn [Nat.eqb] in H.
    + apply bind_ok in H. destruct H as [[h sp] [_ H]]. injection H as <- <-. eapply stat_same; [reflexivity|reflexivity|exact I].
    + apply bind_ok in H. destruct H as [[c lf] [Ec H]]. apply bind_ok in H. destruct H as [[sub pr] [Es H]]. apply getitem_ok in Ec. apply getitem_ok in Es. assert (Hlt : (i <? length (tw_subs w)) = true) by (apply Nat.ltb_lt, nth_error_Some; congruence). destruct I as (I1 & I2).
      assert (K : forall j, j <> i -> count (prices j) (tr ++ [EvGenerate (S l) i d cols]) = count (prices j) tr).
      { intros j Hj. rewrite count_app. unfold count at 2. cbn [filter prices]. replace (i =? j) with false by (symmetry; apply Nat.eqb_neq; auto). cbn. lia. }
      destruct (is_sat c) eqn:Ek.
      * apply bind_ok in H. destruct H as [[ps [sub1 pr1]] [E1 H]]. injection H as <- <-.
        unfold sat_generate in E1. apply bind_ok in E1. destruct E1 as [pr2 [_ E1]]. apply bind_ok in E1. destruct E1 as [ld [_ E1]].
        destruct (solve_model _ _ _ _) as [sub2 r] eqn:Em. apply bind_ok in E1. destruct E1 as [st [-> E1]]. apply bind_ok in E1. destruct E1 as [pp [_ E1]]. injection E1 as _ <- _.
        rewrite Hrs in Em. split; cbn [tw_subs]; [rewrite length_set_nth; exact I1|]. intros j c' lf' sub' pr' Hc Hs. rewrite nth_error_set_nth, Hlt, Bool.andb_true_r in Hs.
        destruct (Nat.eqb_spec j i) as [->|Hne].
        -- injection Hs as <- <-. rewrite Ec in Hc. injection Hc as <- <-. split; [congruence|]. intros _.
           destruct (I2 i c lf sub pr Ec Es) as [_ I3]. destruct (I3 Ek) as (rc & L & R & G). destruct (solve_model_recorded _ _ _ _ _ _ R Em) as (g & R' & G1 & G2 & G3).
           eexists. split; [|split; [exact R'|]].
           ++ rewrite app_length, count_app, L. f_equal. unfold count. cbn [filter prices]. rewrite Nat.eqb_refl. reflexivity.
           ++ apply Forall_app. split; [exact G|]. constructor; [|constructor]. split; [eexists _, _; reflexivity|]. cbn [so_gap so_answer so_settings]. auto.
        -- rewrite K by auto. exact (I2 j c' lf' sub' pr' Hc Hs).
      * apply bind_ok in H. destruct H as [ps [_ H]]. injection H as <- <-. split; cbn [tw_subs]; [exact I1|]. intros j c' lf' sub' pr' Hc Hs.
        destruct (Nat.eq_dec j i) as [->|Hne]; [|rewrite K by auto; exact (I2 j c' lf' sub' pr' Hc Hs)].
        rewrite Ec in Hc. injection Hc as <- <-. destruct (I2 i c lf sub' pr' Ec Hs) as [I3 _]. split; [exact I3|congruence].
  - intros l i c w tr b w' H I. cbn [tree_env c_add] in H. unfold tree_add in H. apply bind_ok in H. destruct H as [[b2 m] [_ H]]. injection H as <- <-. eapply stat_same; [reflexivity|reflexivity|exact I].
  - intros w tr b w' H I. cbn [tree_env c_solve_ip] in H. unfold tree_solve_ip in H. apply bind_ok in H. destruct H as [[b2 m] [_ H]]. injection H as <- <-. eapply stat_same; [reflexivity|reflexivity|exact I].
  - intros w H. cbn [tree_env c_generate_mp] in H. unfold tree_generate_mp in H. apply bind_ok in H. destruct H as [m [_ H]]. injection H as <-. eapply stat_same; [reflexivity|reflexivity|exact I0].
Qed.
Lemma lives_statistics s : lives sv A clk s -> statistics (f_world s) (f_trace s).
Proof.
  induction 1 as [w Ew|s X y fuel s' L IH E]; [|eapply stat_fit; eauto].
  unfold dtree_init in Ew. apply bind_ok in Ew. destruct Ew as [? [_ Ew]]. apply bind_ok in Ew. destruct Ew as [? [_ Ew]]. injection Ew as <-. cbn [new_estimator f_world f_trace tw_subs].
  split; [apply map_length|]. intros i c lf sub pr Hc Hs. cbn [tw_subs] in Hs. apply (map_nth_error (fun _ => (sub_init, pricing_init))) in Hc. rewrite Hc in Hs. injection Hs as <- <-.
  split; [reflexivity|]. intros _. exists []. split; [reflexivity|]. split; [apply recorded_init|constructor].
Qed.
End Run.

(** The first choices. *)
Lemma asks_simple rc : forallb score_or_best (asks rc) = true /\ length (filter is_best (asks rc)) = length rc.
Proof. induction rc as [|r rc [I1 I2]]; [split; reflexivity|]. change (asks (r :: rc)) with (TBest :: TAdjust (- so_score r) None :: asks rc). cbn [forallb score_or_best filter is_best length]. rewrite I1, I2. auto. Qed.
Lemma first_choices rng base f rc p n : tuned_by rng base p f rc -> returned (snd (tuner_run rng (param_init (3 # 10)) base)) = [] -> forall (g : nat -> Z),
  (forall rc', length rc' <= n -> returned (snd (tuner_run rng (tuner_state rng (3 # 10) base) (asks rc'))) = map g (seq 0 (length rc'))) ->
  forall j r, j < n -> nth_error rc j = Some r -> f (so_settings r) = g j.
Proof.
  intros (_ & _ & H) H0 g Hg j r Hj Hr. rewrite run_app in H. cbn [snd] in H. rewrite returned_app, H0 in H. cbn [app] in H. fold (tuner_state rng (3 # 10) base) in H.
  rewrite <- (firstn_skipn n rc) in H. rewrite asks_app, run_app, map_app in H. cbn [snd] in H. rewrite returned_app in H. rewrite Hg in H by (rewrite firstn_length; lia).
  assert (L : length (map g (seq 0 (length (firstn n rc)))) = length (map (fun r => f (so_settings r)) (firstn n rc))) by (rewrite !map_length, seq_length; reflexivity).
  assert (E : map g (seq 0 (length (firstn n rc))) = map (fun r => f (so_settings r)) (firstn n rc)).
  { revert L H. generalize (map g (seq 0 (length (firstn n rc)))) as a. generalize (map (fun r => f (so_settings r)) (firstn n rc)) as b.
    intros b a L H. apply (f_equal (firstn (length a))) in H. rewrite firstn_app, firstn_all, Nat.sub_diag, firstn_O, app_nil_r in H. rewrite H, L, firstn_app, firstn_all, Nat.sub_diag, firstn_O, app_nil_r. reflexivity. }
  assert (Hj' : j < length (firstn n rc)) by (rewrite firstn_length; pose proof (proj1 (nth_error_Some rc j) ltac:(congruence)); lia).
  apply (f_equal (fun l => nth_error l j)) in E. rewrite !nth_error_map in E. rewrite (nth_error_nth' (seq 0 (length (firstn n rc))) 0) in E by (rewrite seq_length; exact Hj').
  rewrite seq_nth in E by exact Hj'. rewrite <- (firstn_skipn n rc), nth_error_app1 in Hr by exact Hj'. rewrite Hr in E. cbn [option_map Nat.add] in E. injection E as E. symmetry. exact E.
Qed.
Lemma two_choices rng base v0 v1 : pm_values (tuner_state rng (3 # 10) base) = [v0; v1] -> pm_explore (tuner_state rng (3 # 10) base) = 10%Z -> forall rc, length rc <= 10 ->
  returned (snd (tuner_run rng (tuner_state rng (3 # 10) base) (asks rc))) =
    map (fun j => if (0 <? Z.land (pm_switch (tuner_state rng (3 # 10) base)) (10 - Z.of_nat j))%Z then v1 else v0) (seq 0 (length rc)).
Proof.
  intros Hv He rc Hl. destruct (asks_simple rc) as [A1 A2]. destruct (C04_two_value_schedule rng _ v0 v1 (asks rc) Hv A1) as [H _]; [rewrite A2, He; lia|]. rewrite A2, He in H. exact H.
Qed.
Lemma three_choices rng v0 v1 v2 : forall rc p, pm_values p = [v0; v1; v2] -> length (pm_scores p) = 3 -> length (pm_counts p) = 3 -> length (pm_final p) = 3 -> (Z.of_nat (length rc) <= pm_explore p)%Z ->
  returned (snd (tuner_run rng p (asks rc))) = map (fun j => nth (rng (pm_draws p + j) mod 3) [v0; v1; v2] 0%Z) (seq 0 (length rc)).
Proof.
  induction rc as [|r rc IH]; intros p Hv Hs Hc Hf He; [reflexivity|]. cbn [length] in He. change (asks (r :: rc)) with (TBest :: TAdjust (- so_score r) None :: asks rc). rewrite !run_cons. cbn [snd fst tuner_step].
  set (k := rng (pm_draws p) mod 3). assert (Hk : k < 3) by (apply Nat.mod_upper_bound; lia).
  assert (Eg : get_best_value rng p = Ok (nth k [v0; v1; v2] 0%Z, mkParam (pm_values p) (pm_scores p) (pm_final p) (pm_counts p) (pm_cfac p) k (pm_total p) (S (pm_draws p)) (pm_explore p - 1)%Z (pm_switch p))).
  { unfold get_best_value, explore_index. replace (0 <? pm_explore p)%Z with true by (symmetry; apply Z.ltb_lt; lia). rewrite Hv. cbn [length Nat.eqb randrange bind]. fold k.
    assert (G : getitem [v0; v1; v2] k = Ok (nth k [v0; v1; v2] 0%Z)) by (apply getitem_ok, nth_error_nth'; exact Hk). rewrite G. reflexivity. }
  rewrite Eg. cbn [fst snd]. set (q := mkParam _ _ _ _ _ _ _ _ _ _).
  assert (Ea : exists q', adjust_score q (- so_score r) None = Ok q' /\ pm_values q' = [v0; v1; v2] /\ length (pm_scores q') = 3 /\ length (pm_counts q') = 3 /\ length (pm_final q') = 3 /\
    pm_explore q' = (pm_explore p - 1)%Z /\ pm_draws q' = S (pm_draws p)).
  { unfold adjust_score. cbn [q pm_cur pm_scores pm_counts pm_final]. destruct (getitem_lt (pm_scores p) k) as [a ->]; [lia|]. cbn [bind]. destruct (getitem_lt (pm_counts p) k) as [b ->]; [lia|]. cbn [bind].
    destruct (getitem_lt (pm_final p) k) as [c ->]; [lia|]. cbn [bind]. eexists. split; [reflexivity|]. cbn [pm_values pm_scores pm_counts pm_final pm_explore pm_draws]. rewrite !length_set_nth. auto 10. }
  destruct Ea as (q' & Ea & V1 & V2 & V3 & V4 & V5 & V6). rewrite Ea. cbn [fst snd].
  change (returned (TVal (nth k [v0; v1; v2] 0%Z) :: TDone :: snd (tuner_run rng q' (asks rc)))) with (nth k [v0; v1; v2] 0%Z :: returned (snd (tuner_run rng q' (asks rc)))).
  rewrite IH by (auto; rewrite V5; lia). cbn [length seq map]. rewrite Nat.add_0_r. fold k. f_equal. rewrite <- seq_shift, map_map. apply map_ext. intros j. rewrite V6. replace (pm_draws p + S j) with (S (pm_draws p) + j) by lia. reflexivity.
Qed.

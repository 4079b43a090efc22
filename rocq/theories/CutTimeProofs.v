(** Lemmas for property C86. *)
From Verif Require Import Base Lp FitModel SpecFit SpecReport FitProofs FitMainProofs FitEventProofs TimelineProofs TreeModel TreePricingModel TreeFitModel CutCountProofs CutPaceProofs CutTimeModel SpecCutTime.
Open Scope nat_scope.

(** * Erasing the readings *)
Section Erase.
Context {W D C : Type}.
Variables (E' : env (W * stopper) (D * list Q) C) (E : env W D C).
Hypothesis Hmax : max_iterations E' = max_iterations E.
Hypothesis Hlim : time_limit E' = time_limit E.
Hypothesis Hlev : levels E' = levels E.
Hypothesis Hip : rmp_is_ip E' = rmp_is_ip E.
Hypothesis Hclk : forall n, clock E' n = clock E n.
Definition lower {A} (r : res (A * (W * stopper))) : res (A * W) := match r with Ok (a, wt) => Ok (a, fst wt) | Err e => Err e end.
Hypothesis Hgen_mp : forall wt, c_generate_mp E (fst wt) = match c_generate_mp E' wt with Ok w => Ok (fst w) | Err e => Err e end.
Hypothesis Hsolve : forall wt, c_solve_rmp E (fst wt) = match c_solve_rmp E' wt with Ok (d, w) => Ok (fst d, fst w) | Err e => Err e end.
Hypothesis Himp : forall wt, c_improved E (fst wt) = lower (c_improved E' wt).
Hypothesis Hreset : forall wt, c_reset_timer E (fst wt) = (fst (c_reset_timer E' wt), fst (snd (c_reset_timer E' wt))).
Hypothesis Hupd : forall l i d wt, c_update E l i (fst d) (fst wt) = match c_update E' l i d wt with Ok w => Ok (fst w) | Err e => Err e end.
Hypothesis Hgen : forall l i d wt, c_generate E l i (fst d) (fst wt) = lower (c_generate E' l i d wt).
Hypothesis Hadd : forall c wt, c_add E c (fst wt) = lower (c_add E' c wt).
Hypothesis Hsip : forall wt, c_solve_ip E (fst wt) = lower (c_solve_ip E' wt).

(** Both programs do the same; [f] relates their results. *)
Definition mirrors {A B} (f : A -> B) (m' : @M (W * stopper) (D * list Q) C A) (m : @M W D C B) : Prop :=
  forall s, m (untimed s) = (untimed (fst (m' s)), match snd (m' s) with Done a => Done (f a) | Raised e => Raised e | NoFuel => NoFuel end).
Notation same m' m := (mirrors (fun a => a) m' m).

Lemma mir_bind {A B A1 B1} (f : A -> B) (g : A1 -> B1) m' m k' k : mirrors f m' m -> (forall a, mirrors g (k' a) (k (f a))) -> mirrors g (mbind m' k') (mbind m k).
Proof. intros H K s. unfold mbind. rewrite (H s). destruct (m' s) as [s1 [a|e|]]; cbn [fst snd]; [apply K|reflexivity|reflexivity]. Qed.
Lemma mir_call {A B} (f : A -> B) (h' : W * stopper -> res (A * (W * stopper))) (h : W -> res (B * W)) ev' ev :
  (forall wt, h (fst wt) = match h' wt with Ok (a, w) => Ok (f a, fst w) | Err e => Err e end) -> (forall a, ev (f a) = plain_event (ev' a)) -> mirrors f (call h' ev') (call h ev).
Proof.
  intros H He s. unfold call. cbn [untimed f_world]. rewrite (H (f_world s)). destruct (h' (f_world s)) as [[a w]|e]; [|reflexivity].
  cbn [fst snd untimed f_world f_tick f_trace f_tstart f_iter f_performed f_improving f_optimal f_tlr f_cols f_tsp f_tadd f_tmaster f_tip f_elapsed f_fitted].
  rewrite He. unfold untimed. cbn. rewrite map_app. reflexivity.
Qed.
Lemma mir_time : same (time E') (time E).
Proof. intros s. unfold time. cbn [fst snd]. rewrite Hclk. reflexivity. Qed.
Lemma mir_log x : same (log x) (log (plain_event x)).
Proof. intros s. unfold log, untimed. cbn. rewrite map_app. reflexivity. Qed.
Lemma mir_tsp l i q : same (add_tsp l i q) (add_tsp l i q).
Proof. intros s. unfold add_tsp. cbn [untimed f_tsp]. destruct (update2 _ _ _ _); reflexivity. Qed.
Lemma mir_cols l i q : same (add_cols l i q) (add_cols l i q).
Proof. intros s. unfold add_cols. cbn [untimed f_cols]. destruct (update2 _ _ _ _); reflexivity. Qed.
Ltac mb := eapply (mir_bind (fun a => a)); [first [apply mir_time|apply mir_tsp|apply mir_cols|intros ?; reflexivity]|intros ?].

Lemma mir_update_row l is d : same (update_row E' l is d) (update_row E l is (fst d)).
Proof.
  induction is as [|i is IH]; cbn [update_row]; [intros s; reflexivity|]. mb. eapply (mir_bind (fun a => a)).
  - unfold call_unit. apply mir_call; [|reflexivity]. intros wt. rewrite Hupd. destruct (c_update E' l i d wt); reflexivity.
  - intros _. mb. mb. exact IH.
Qed.
Lemma mir_update_all ns d : forall l, same (update_all E' l ns d) (update_all E l ns (fst d)).
Proof. induction ns as [|n ns IH]; intros l; cbn [update_all]; [intros s; reflexivity|]. eapply (mir_bind (fun a => a)); [apply mir_update_row|intros _; apply IH]. Qed.
Lemma mir_add_columns l i cols : forall u, same (add_columns E' l i cols u) (add_columns E l i cols u).
Proof.
  induction cols as [|c cols IH]; intros u; cbn [add_columns]; [intros s; reflexivity|]. eapply (mir_bind (fun a => a)).
  - apply mir_call; [|reflexivity]. intros wt. rewrite Hadd. unfold lower. destruct (c_add E' c wt) as [[? ?]|]; reflexivity.
  - intros b. mb. apply IH.
Qed.
Lemma mir_price_row l is d : forall u, same (price_row E' l is d u) (price_row E l is (fst d) u).
Proof.
  induction is as [|i is IH]; intros u; cbn [price_row]; [intros s; reflexivity|]. mb. mb. mb. eapply (mir_bind (fun a => a)); [apply mir_log|intros _]. rewrite Hlim.
  destruct (Qltb 0 (time_limit E) && Qltb (time_limit E) (a - a0))%bool; [mb; intros s; reflexivity|]. mb. eapply (mir_bind (fun a => a)).
  - apply mir_call; [|reflexivity]. intros wt. rewrite Hgen. unfold lower. destruct (c_generate E' l i d wt) as [[? ?]|]; reflexivity.
  - intros cols. mb. mb. mb. eapply (mir_bind (fun a => a)); [apply mir_add_columns|intros u']. mb. mb. destruct u'; [intros s; reflexivity|apply IH].
Qed.
Lemma mir_price_all ns d : forall l u, same (price_all E' l ns d u) (price_all E l ns (fst d) u).
Proof.
  induction ns as [|n ns IH]; intros l u; cbn [price_all]; [intros s; reflexivity|]. eapply (mir_bind (fun a => a)); [apply mir_price_row|intros u']. mb. mb. mb. mb.
  destruct a2; [intros s; reflexivity|]. destruct u'; [intros s; reflexivity|apply IH].
Qed.
Lemma mir_iteration : same (iteration E') (iteration E).
Proof.
  unfold iteration. mb. mb. mb. eapply (mir_bind fst).
  - apply mir_call; [|reflexivity]. intros wt. rewrite Hsolve. destruct (c_solve_rmp E' wt) as [[? ?]|]; reflexivity.
  - intros d. mb. mb. eapply (mir_bind (fun a => a)).
    { apply mir_call; [|reflexivity]. intros wt. rewrite Himp. unfold lower. destruct (c_improved E' wt) as [[? ?]|]; reflexivity. }
    intros b. eapply (mir_bind (fun a => a)); [destruct b; intros s; reflexivity|intros _].
    eapply (mir_bind (fun a => a)).
    { intros s. cbn [untimed f_world]. rewrite Hreset. destruct (c_reset_timer E' (f_world s)) as [r w]. reflexivity. }
    intros r. eapply (mir_bind (fun a => a)); [destruct r; [mb; mb; apply (mir_log EvResetTimer)|intros s; reflexivity]|intros _].
    rewrite Hlev. eapply (mir_bind (fun a => a)); [apply mir_update_all|intros _]. apply mir_price_all.
Qed.
Lemma mir_loop fuel : same (loop E' fuel) (loop E fuel).
Proof.
  induction fuel as [|fuel IH]; cbn [loop]; [intros s; reflexivity|]. mb. rewrite Hmax. destruct (_ && _)%bool; [intros s; reflexivity|].
  eapply (mir_bind (fun a => a)); [apply mir_iteration|intros u]. destruct u; [exact IH|]. mb. destruct a0; intros s; reflexivity.
Qed.
Lemma mir_finish : same (finish E') (finish E).
Proof.
  unfold finish. mb. rewrite Hip. eapply (mir_bind (fun a => a)).
  - destruct (rmp_is_ip E); [|intros s; reflexivity]. mb. eapply (mir_bind (fun a => a)).
    + apply mir_call; [|reflexivity]. intros wt. rewrite Hsip. unfold lower. destruct (c_solve_ip E' wt) as [[? ?]|]; reflexivity.
    + intros ok. mb. mb. destruct ok; intros s; reflexivity.
  - intros _. mb. mb. mb. intros s. reflexivity.
Qed.
Lemma mir_fit fuel y : same (fit E' fuel y) (fit E fuel y).
Proof.
  unfold fit. mb. mb. destruct (length (nodup Z.eq_dec y) <=? 1); [intros s; reflexivity|]. eapply (mir_bind (fun a => a)).
  - unfold call_unit. apply mir_call; [|reflexivity]. intros wt. rewrite Hgen_mp. destruct (c_generate_mp E' wt); reflexivity.
  - intros _. eapply (mir_bind (fun a => a)); [intros s; unfold reset_attributes; rewrite Hlev; reflexivity|intros _]. eapply (mir_bind (fun a => a)); [apply mir_loop|intros _; apply mir_finish].
Qed.
End Erase.

(** * One call of solve_rmp *)
Lemma ascending_tail a l : ascending (a :: l) -> ascending l.
Proof. intros H i x y Hx Hy. exact (H (S i) x y Hx Hy). Qed.
Lemma pair_sum_within : forall n l q q', length l <= n -> ascending (q :: l ++ [q']) -> (0 <= pair_sum l <= q' - q)%Q.
Proof.
  induction n as [|n IH]; intros l q q' Hn H.
  - destruct l; [|cbn in Hn; lia]. pose proof (H 0 q q' eq_refl eq_refl) as G. cbn. lra.
  - destruct l as [|a [|b l]].
    + pose proof (H 0 q q' eq_refl eq_refl) as G. cbn. lra.
    + pose proof (H 0 q a eq_refl eq_refl) as G1. pose proof (H 1 a q' eq_refl eq_refl) as G2. cbn. lra.
    + pose proof (H 0 q a eq_refl eq_refl) as G1. pose proof (H 1 a b eq_refl eq_refl) as G2. cbn [pair_sum].
      assert (G3 : (0 <= pair_sum l <= q' - b)%Q) by (apply IH; [cbn in Hn; lia|apply (ascending_tail a), (ascending_tail q), H]). lra.
Qed.

Section Rounds.
Variable ticks : nat -> Q.
Definition clocked (t t' : stopper) (seen : list Q) : Prop :=
  st_read t' = st_read t + length seen /\ seen = map ticks (seq (st_read t) (length seen)) /\ (st_time t' == st_time t + pair_sum seen)%Q.
Lemma clocked_none t : clocked t t [].
Proof. unfold clocked. cbn. split; [lia|]. split; [reflexivity|]. lra. Qed.

Lemma timed_rounds_erase sv : forall n s nc t, cut_rounds sv n s nc = match timed_rounds ticks sv n s nc t with Ok (cuts, s', _, _) => Ok (cuts, s') | Err e => Err e end.
Proof.
  induction n as [|n IH]; intros s nc t; cbn [cut_rounds timed_rounds]; [reflexivity|]. destruct (tm_answer s) as [[x pi]|]; [|reflexivity].
  destruct (if tm_beta_cuts _ then _ else _) as [[nb s2]|]; [|reflexivity]. cbn [bind]. destruct (if tm_gen_cuts s2 && (nb =? 0) then _ else _) as [[cr s3]|]; [|reflexivity]. cbn [bind].
  destruct ((0 <? length cr) || (0 <? nb)); [|reflexivity]. rewrite (IH _ _ (mkStop (S (S (st_read t))) (st_time t + (ticks (S (st_read t)) - ticks (st_read t))))). destruct (timed_rounds _ _ _ _ _ _) as [[[[? ?] ?] ?]|]; reflexivity.
Qed.
Lemma timed_rounds_clock sv : forall n s nc t cuts s' t' seen, timed_rounds ticks sv n s nc t = Ok (cuts, s', t', seen) -> clocked t t' seen /\ tm_iter s' = tm_iter s /\ length seen <= 2 * n.
Proof.
  induction n as [|n IH]; intros s nc t cuts s' t' seen E; cbn [timed_rounds] in E; [injection E as <- <- <- <-; split; [apply clocked_none|cbn; auto]|].
  destruct (tm_answer s) as [[x pi]|]; [|injection E as <- <- <- <-; split; [apply clocked_none|cbn; split; [auto|lia]]].
  apply bind_ok in E. destruct E as [[nb s2] [E2 E]]. apply bind_ok in E. destruct E as [[cr s3] [E3 E]].
  assert (I2 : tm_iter s2 = tm_iter s) by (destruct (tm_beta_cuts _); [apply beta_cuts_ten in E2; destruct E2 as (_ & _ & _ & _ & E2); exact E2|injection E2 as <- <-; reflexivity]).
  assert (I3 : tm_iter s3 = tm_iter s2).
  { destruct (tm_gen_cuts s2 && (nb =? 0)); [|injection E3 as <- <-; reflexivity]. unfold add_cuts in E3. apply bind_ok in E3. destruct E3 as [co [_ E3]].
    destruct (length _ =? 0); [injection E3 as <- <-; reflexivity|]. apply bind_ok in E3. destruct E3 as [sp [_ E3]]. apply bind_ok in E3. destruct E3 as [[[m cs] ad] [_ E3]]. injection E3 as <- <-. reflexivity. }
  destruct ((0 <? length cr) || (0 <? nb)).
  - apply bind_ok in E. destruct E as [[[[c5 s5] t2] more] [E5 E]]. injection E as <- <- <- <-. apply IH in E5. destruct E5 as ((R1 & R2 & R3) & R4 & R5). cbn [st_read st_time] in R1, R2, R3.
    split; [|split; [cbn [tm_iter solve_lp add_total] in R4; congruence|cbn [length]; lia]]. split; [cbn [length]; lia|]. split; [cbn [length seq map]; rewrite R2 at 1; reflexivity|]. cbn [pair_sum]. rewrite R3. lra.
  - injection E as <- <- <- <-. split; [|split; [cbn [tm_iter add_total]; congruence|cbn; lia]]. split; [cbn; lia|]. split; [reflexivity|]. cbn. lra.
Qed.
Lemma timed_solve_erase sv s t : solve_rmp sv s = match timed_solve_rmp ticks sv s t with Ok (d, _, (s', _)) => Ok (d, s') | Err e => Err e end.
Proof.
  unfold solve_rmp, timed_solve_rmp. destruct (assert _); [|reflexivity]. cbn [bind]. destruct (tm_iter _ mod 10 =? 0).
  - rewrite (timed_rounds_erase _ _ _ _ t). destruct (timed_rounds _ _ _ _ _ _) as [[[[nc s2] t1] seen]|]; [|reflexivity]. cbn [bind]. destruct (tm_answer s2) as [[x pi]|]; [|reflexivity]. destruct (read_duals _ _ _); reflexivity.
  - cbn [bind]. destruct (tm_answer _) as [[x pi]|]; [|reflexivity]. destruct (read_duals _ _ _); reflexivity.
Qed.
Lemma timed_solve_clock sv s t d seen s' t' : timed_solve_rmp ticks sv s t = Ok (d, seen, (s', t')) ->
  clocked t t' seen /\ tm_iter s' = S (tm_iter s) /\ (tm_iter s' mod 10 <> 0 -> t' = t /\ seen = []).
Proof.
  unfold timed_solve_rmp. intros E. apply bind_ok in E. destruct E as [[] [_ E]]. apply bind_ok in E. destruct E as [[[[nc s2] t1] sn] [E2 E]].
  assert (G : clocked t t1 sn /\ tm_iter s2 = S (tm_iter s) /\ (tm_iter s2 mod 10 <> 0 -> t1 = t /\ sn = [])).
  { change (tm_iter (solve_lp sv (start_iter s))) with (S (tm_iter s)) in E2. destruct (Nat.eqb_spec (S (tm_iter s) mod 10) 0) as [Hz|Hz].
    - apply timed_rounds_clock in E2. destruct E2 as (G1 & G2 & _). change (tm_iter (solve_lp sv (start_iter s))) with (S (tm_iter s)) in G2. rewrite G2. split; [exact G1|]. split; [reflexivity|]. intros. congruence.
    - injection E2 as <- <- <- <-. split; [apply clocked_none|]. split; [reflexivity|]. auto. }
  destruct (tm_answer s2) as [[x pi]|]; [|injection E as <- <- <- <-; exact G]. apply bind_ok in E. destruct E as [dd [_ E]]. injection E as <- <- <- <-. exact G.
Qed.
End Rounds.

Lemma timed_erase ticks sv A clk X y fuel s :
  tree_fit sv A clk X y fuel (untimed s) = (untimed (fst (timed_fit ticks sv A clk X y fuel s)), snd (timed_fit ticks sv A clk X y fuel s)).
Proof.
  unfold tree_fit, timed_fit. rewrite (mir_fit (timed_env ticks sv A clk X y) (tree_env sv A clk X y)); try reflexivity.
  - f_equal. destruct (snd _); reflexivity.
  - intros wt. cbn [timed_env c_generate_mp]. change (c_generate_mp (tree_env sv A clk X y)) with (tree_generate_mp X y). destruct (tree_generate_mp X y (fst wt)); reflexivity.
  - intros wt. cbn [timed_env c_solve_rmp tree_env]. unfold tree_solve_rmp. rewrite (timed_solve_erase ticks _ _ (snd wt)). destruct (timed_solve_rmp _ _ _ _) as [[[d sn] [s' t']]|]; reflexivity.
  - intros l i d wt. cbn [timed_env c_update tree_env]. destruct (tree_update _ _ _ _ _ _ _); reflexivity.
  - intros l i d wt. cbn [timed_env c_generate tree_env]. unfold beside. destruct (tree_generate _ _ _ _ _ _ _ _) as [[? ?]|]; reflexivity.
  - intros c wt. cbn [timed_env c_add tree_env]. unfold beside. destruct (tree_add _ _) as [[? ?]|]; reflexivity.
  - intros wt. cbn [timed_env c_solve_ip tree_env]. unfold beside. destruct (tree_solve_ip _ _) as [[? ?]|]; reflexivity.
Qed.

(** * The whole training *)
Definition quiet {D C} (x : event D C) : Prop := match x with EvSolveRmp _ => False | _ => True end.
Lemma readings_app {D C} (t u : list (event (D * list Q) C)) : readings (t ++ u) = readings t ++ readings u.
Proof. induction t as [|x t IH]; [reflexivity|]. destruct x; cbn; rewrite ?IH, ?app_assoc; reflexivity. Qed.
Lemma update_iter A X y l i d w w' : tree_update A X y l i d w = Ok w' -> tm_iter (tw_master w') = tm_iter (tw_master w).
Proof.
  unfold tree_update. intros E. destruct (l =? 0).
  - apply bind_ok in E. destruct E as [[h sp] [_ E]]. injection E as <-. auto.
  - apply bind_ok in E. destruct E as [[c lf] [_ E]]. apply bind_ok in E. destruct E as [[sub pr] [_ E]]. apply bind_ok in E. destruct E as [pr1 [_ E]]. injection E as <-. auto.
Qed.
Lemma generate_iter sv A X y l i d w cols w' : tree_generate sv A X y l i d w = Ok (cols, w') -> tm_iter (tw_master w') = tm_iter (tw_master w).
Proof.
  unfold tree_generate. intros E. destruct (l =? 0).
  - apply bind_ok in E. destruct E as [[h sp] [_ E]]. injection E as <- <-. auto.
  - apply bind_ok in E. destruct E as [[c lf] [_ E]]. apply bind_ok in E. destruct E as [[sub pr] [_ E]]. destruct (is_sat c).
    + apply bind_ok in E. destruct E as [[ps [sub1 pr1]] [_ E]]. injection E as <- <-. auto.
    + apply bind_ok in E. destruct E as [ps [_ E]]. injection E as <- <-. auto.
Qed.
Lemma generate_mp_iter X y s s' : generate_mp X y s = Ok s' -> tm_iter s' = tm_iter s.
Proof.
  unfold generate_mp. destruct (tm_generated s); [intros E; injection E as <-; reflexivity|]. intros E.
  destruct (create_cut_gen_model _ _ _); [|discriminate]. cbn [bind] in E. destruct (make_path_vars _ _). destruct (make_leaf_cons _ _ _) as [[? ?]|]; [|discriminate].
  cbn [bind] in E. destruct (match tm_rows s with None => _ | _ => _ end) as [[? rows]|]; [|discriminate]. cbn [bind] in E.
  destruct (make_row_cons _ _ _ _ _ _ _) as [[[m4 rc] ad]|] eqn:Er; [|discriminate]. cbn [bind] in E. destruct (for_ns _ _ _ _) as [[[? ?] ?]|]; [|discriminate]. cbn [bind] in E. injection E as <-. reflexivity.
Qed.

Section Run.
Variables (ticks : nat -> Q) (sv : fsolvers) (A : targs) (clk : nat -> Q) (X : list sample) (y : list nat).
Variables (k0 : nat) (t0 : stopper) (tr0 : list (event (tduals * list Q) path)).
Definition along (wt : tworld * stopper) (t : list (event (tduals * list Q) path)) : Prop :=
  exists u, t = tr0 ++ u /\ st_read (snd wt) = st_read t0 + length (readings u) /\ readings u = map ticks (seq (st_read t0) (length (readings u))) /\
    (st_time (snd wt) == st_time t0 + qsum inner u)%Q /\ tm_iter (tw_master (fst wt)) = k0 + count is_solve u /\ ((k0 + count is_solve u) / 10 = k0 / 10 -> snd wt = t0).
Lemma along_quiet w t tr x w' : quiet x -> tm_iter (tw_master w') = tm_iter (tw_master w) -> along (w, t) tr -> along (w', t) (tr ++ [x]).
Proof.
  intros Hq Hi (u & -> & H1 & H2 & H3 & H4 & H5). exists (u ++ [x]). rewrite app_assoc. split; [reflexivity|]. cbn [fst snd] in *.
  assert (R : readings (u ++ [x]) = readings u) by (rewrite readings_app; destruct x; try contradiction; apply app_nil_r).
  assert (K : count is_solve (u ++ [x]) = count is_solve u) by (rewrite count_app; unfold count at 2; destruct x; try contradiction; cbn; lia).
  rewrite R, K. split; [exact H1|]. split; [exact H2|]. split; [rewrite qsum_app, H3; destruct x; try contradiction; cbn; lra|]. split; [congruence|exact H5].
Qed.
Lemma tens_up k : S k / 10 = k / 10 \/ S k mod 10 = 0.
Proof. pose proof (Nat.div_mod_eq k 10). pose proof (Nat.div_mod_eq (S k) 10). pose proof (Nat.mod_upper_bound k 10 ltac:(lia)). pose proof (Nat.mod_upper_bound (S k) 10 ltac:(lia)). nia. Qed.
Lemma along_fit fuel ys s s' : fit (timed_env ticks sv A clk X y) fuel ys s = (s', Done tt) -> k0 = tm_iter (tw_master (fst (f_world s))) -> t0 = snd (f_world s) -> tr0 = f_trace s ->
  along (f_world s') (f_trace s').
Proof.
  intros E Hk Ht Hr. refine (fit_invariant (timed_env ticks sv A clk X y) along _ _ _ _ _ _ _ _ fuel _ s s' E _).
  - intros [w t] tr d [w' t'] H I. cbn [timed_env c_solve_rmp fst snd] in H. apply bind_ok in H. destruct H as [[[d0 sn] [m t1]] [Es H]]. injection H as <- <- <-.
    apply timed_solve_clock in Es. destruct Es as ((R1 & R2 & R3) & R4 & R5). destruct I as (u & -> & H1 & H2 & H3 & H4 & H5). cbn [fst snd] in *.
    exists (u ++ [EvSolveRmp (d0, sn)]). rewrite app_assoc. split; [reflexivity|]. cbn [fst snd tw_master]. rewrite readings_app. cbn [readings snd]. rewrite app_nil_r, app_length.
    split; [lia|]. split; [rewrite seq_app, map_app, <- H2, <- H1, <- R2; reflexivity|]. split; [rewrite qsum_app, R3, H3; cbn; lra|].
    rewrite count_app. unfold count at 2 4. cbn [filter is_solve length]. split; [lia|]. intros Hd.
    replace (k0 + (count is_solve u + 1)) with (S (k0 + count is_solve u)) in Hd by lia.
    assert (Hd' : (k0 + count is_solve u) / 10 = k0 / 10).
    { pose proof (Nat.div_le_mono (k0 + count is_solve u) (S (k0 + count is_solve u)) 10 ltac:(lia) ltac:(lia)). pose proof (Nat.div_le_mono k0 (k0 + count is_solve u) 10 ltac:(lia) ltac:(lia)). lia. }
    rewrite <- (H5 Hd'). apply R5. rewrite R4, H4. intros Hm.
    pose proof (Nat.div_mod_eq (k0 + count is_solve u) 10). pose proof (Nat.div_mod_eq (S (k0 + count is_solve u)) 10). pose proof (Nat.mod_upper_bound (k0 + count is_solve u) 10 ltac:(lia)). nia.
  - intros [w t] tr b [w' t'] H I. cbn [timed_env c_improved tree_env] in H. unfold beside in H. cbn [fst snd bind] in H. injection H as <- <- <-. eapply along_quiet; [exact Logic.I|reflexivity|exact I].
  - intros [w t] tr I. cbn [timed_env c_reset_timer tree_env fst snd]. exact I.
  - intros l i d [w t] tr [w' t'] H I. cbn [timed_env c_update tree_env fst snd] in H. apply bind_ok in H. destruct H as [w1 [E1 H]]. injection H as <- <-. eapply along_quiet; [exact Logic.I|eapply update_iter; eauto|exact I].
  - intros l i e [w t] tr I. eapply along_quiet; [exact Logic.I|reflexivity|exact I].
  - intros l i d [w t] tr cols [w' t'] H I. cbn [timed_env c_generate tree_env] in H. unfold beside in H. cbn [fst snd] in H. apply bind_ok in H. destruct H as [[c w1] [E1 H]]. injection H as <- <- <-. eapply along_quiet; [exact Logic.I|eapply generate_iter; eauto|exact I].
  - intros l i c [w t] tr b [w' t'] H I. cbn [timed_env c_add tree_env] in H. unfold beside in H. cbn [fst snd] in H. apply bind_ok in H. destruct H as [[b1 w1] [E1 H]]. injection H as <- <- <-. eapply along_quiet; [exact Logic.I| |exact I].
    unfold tree_add in E1. apply bind_ok in E1. destruct E1 as [[b2 m] [E2 E1]]. injection E1 as <- <-. apply add_pace in E2. destruct E2 as (_ & _ & _ & E2). exact E2.
  - intros [w t] tr b [w' t'] H I. cbn [timed_env c_solve_ip tree_env] in H. unfold beside in H. cbn [fst snd] in H. apply bind_ok in H. destruct H as [[b1 w1] [E1 H]]. injection H as <- <- <-. eapply along_quiet; [exact Logic.I| |exact I].
    unfold tree_solve_ip in E1. apply bind_ok in E1. destruct E1 as [[b2 m] [E2 E1]]. injection E1 as <- <-. unfold solve_ip in E2. apply bind_ok in E2. destruct E2 as [[] [_ E2]]. destruct (tv_ip _ _ _); [|discriminate]. injection E2 as <- <-. reflexivity.
  - intros [w' t'] H. cbn [timed_env c_generate_mp tree_env] in H. apply bind_ok in H. destruct H as [w1 [E1 H]]. injection H as <- <-.
    unfold tree_generate_mp in E1. apply bind_ok in E1. destruct E1 as [m [E1 E2]]. injection E2 as <-. apply generate_mp_iter in E1.
    rewrite <- Hr. exists [EvGenerateMp]. split; [reflexivity|]. cbn. rewrite <- Ht. split; [lia|]. split; [reflexivity|]. split; [lra|]. split; [rewrite E1, Hk; lia|reflexivity].
Qed.
End Run.

(** The readings of the master problem lie inside the intervals of its calls. *)
Lemma inner_spent (tl : @timeline (tduals * list Q) path) : Forall (fun qe => alone (snd qe)) tl -> one_clock tl -> (exists tl0 q e, tl = tl0 ++ [(q, e)] /\ forall x, In x e -> quiet x) ->
  (0 <= qsum inner (concat (map snd tl)) <= spent (holds is_solve) tl)%Q.
Proof.
  induction tl as [|[q e] tl IH]; intros HA HO HL; [cbn; lra|]. apply Forall_cons_iff in HA. destruct HA as [Ha HA]. cbn [snd] in Ha.
  assert (Z : (forall x, In x e -> quiet x) -> (qsum inner e == 0)%Q /\ holds is_solve e = false).
  { clear. intros H. induction e as [|x e IH]; [split; [cbn; lra|reflexivity]|]. destruct IH as [I1 I2]; [intros; apply H; right; assumption|]. cbn [holds existsb]. unfold holds in I2. rewrite I2.
    pose proof (H x (or_introl eq_refl)) as Hx. rewrite qsum_cons, I1. destruct x; try contradiction; split; reflexivity || (cbn; lra). }
  cbn [map concat snd]. rewrite qsum_app. destruct tl as [|[q' e'] tl].
  - destruct HL as (tl0 & q1 & e1 & El & Hq). destruct tl0 as [|? [|? ?]]; try discriminate. cbn in El. inversion El; subst. destruct (Z Hq) as [Z1 _]. rewrite Z1. cbn. lra.
  - assert (J : (0 <= qsum inner (concat (map snd ((q', e') :: tl))) <= spent (holds is_solve) ((q', e') :: tl))%Q).
    { apply IH; [exact HA| |].
      - intros k a b a' b' d sn Ha1 Ha2 Hi. exact (HO (S k) a b a' b' d sn Ha1 Ha2 Hi).
      - destruct HL as (tl0 & q1 & e1 & El & Hq). destruct tl0 as [|z tl0]; [discriminate|]. cbn [app] in El. injection El as _ El. exists tl0, q1, e1. auto. }
    change (spent (holds is_solve) ((q, e) :: (q', e') :: tl)) with ((if holds is_solve e then q' - q else 0) + spent (holds is_solve) ((q', e') :: tl))%Q.
    assert (K : (0 <= qsum inner e <= if holds is_solve e then q' - q else 0)%Q); [|lra].
    destruct (holds is_solve e) eqn:Eh.
    + unfold holds in Eh. apply existsb_exists in Eh. destruct Eh as (x & Hx & Ex). destruct x; try discriminate. destruct d as [d sn].
      assert (e = [EvSolveRmp (d, sn)]) as ->.
      { destruct Ha as [Ha|Ha]; [destruct e as [|z [|? ?]]; cbn in Ha; try lia; [contradiction|]; destruct Hx as [->|[]]; reflexivity|].
        rewrite forallb_forall in Ha. apply Ha in Hx. discriminate. }
      rewrite qsum_cons. cbn [inner snd qsum fold_right]. pose proof (pair_sum_within (length sn) sn q q' (le_n _) (HO 0 q _ q' e' d sn eq_refl eq_refl (or_introl eq_refl))) as P. cbn. lra.
    + destruct Z as [Z1 _]; [|rewrite Z1; lra]. intros x Hx. unfold holds in Eh. destruct x; try exact Logic.I. exfalso.
      assert (T : existsb is_solve e = true) by (apply existsb_exists; eexists; split; [exact Hx|reflexivity]). congruence.
Qed.

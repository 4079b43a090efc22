(** Lemmas about SolveModel.v. *)
From Verif Require Import Base TunerModel SpecTuner TunerObs TunerProofs TunerRunProofs SolveModel SolveObs.
Open Scope Q_scope.

Lemma state_app rng c h o :
  tuner_state rng c (h ++ [o]) = fst (tuner_step rng (tuner_state rng c h) o).
Proof.
  unfold tuner_state. generalize (param_init c). induction h as [|x h IH]; intros p.
  - cbn [app]. rewrite run_cons. reflexivity.
  - rewrite <- app_comm_cons, !run_cons. cbn [fst]. apply IH.
Qed.

Lemma state_values rng c h : pm_values (tuner_state rng c h) = added h.
Proof. unfold tuner_state. rewrite run_values. reflexivity. Qed.

(** A registered tuner always answers, and accepts a score afterwards. *)
Lemma best_then_adjust rng c h s :
  added h <> [] ->
  exists v p1 p2,
    get_best_value rng (tuner_state rng c h) = Ok (v, p1)
    /\ In v (added h)
    /\ p1 = tuner_state rng c (h ++ [TBest])
    /\ adjust_score p1 s None = Ok p2
    /\ p2 = tuner_state rng c (h ++ [TBest; TAdjust s None]).
Proof.
  intros Hne. pose proof (state_inv rng c h) as I.
  destruct (best_ok _ _ _ _ rng I) as (v & p1 & E & Hn & Hv & _ & _ & Hlt & I1).
  { rewrite state_values. exact Hne. }
  assert (E1 : p1 = tuner_state rng c (h ++ [TBest])).
  { rewrite state_app. cbn [tuner_step]. rewrite E. reflexivity. }
  pose proof (adjust_spec c p1 _ _ s None I1) as A. cbv zeta in A.
  destruct (adjust_score p1 s None) as [p2|e] eqn:Ea.
  - exists v, p1, p2. repeat split; auto.
    + rewrite Hv, state_values in Hn. eapply nth_error_In; eauto.
    + replace (h ++ [TBest; TAdjust s None]) with ((h ++ [TBest]) ++ [TAdjust s None]) by (rewrite <- app_assoc; reflexivity).
      rewrite state_app, <- E1. cbn [tuner_step]. rewrite Ea. reflexivity.
  - destruct A as [_ A]. lia.
Qed.

Lemma added_app h1 h2 : added (h1 ++ h2) = added h1 ++ added h2.
Proof. unfold added. apply flat_map_app. Qed.

Lemma Qmax_div g m : 0 < m -> 0 <= g -> g <= m -> 0 <= g / m <= 1.
Proof. intros. split; [apply Qle_shift_div_l|apply Qle_shift_div_r]; lra. Qed.

Lemma Qabs_cases x : (0 <= x /\ Qabs x == x) \/ (x <= 0 /\ Qabs x == - x).
Proof.
  destruct (Qlt_le_dec x 0) as [H|H].
  - right. split; [lra|]. apply Qabs_neg; lra.
  - left. split; auto. apply Qabs_pos; auto.
Qed.

Lemma Qmul_nonneg_cases x y : 0 <= x * y -> (0 <= x /\ 0 <= y) \/ (x <= 0 /\ y <= 0).
Proof.
  intros H. destruct (Qlt_le_dec x 0), (Qlt_le_dec y 0); try (right; split; lra); try (left; split; lra).
  - destruct (Qlt_le_dec 0 y); [|right; split; lra]. exfalso. assert (0 < (-x) * y) by (apply Qmult_lt_0_compat; lra).
    lra.
  - destruct (Qlt_le_dec 0 x); [|right; split; lra]. exfalso. assert (0 < x * (-y)) by (apply Qmult_lt_0_compat; lra).
    lra.
Qed.

Lemma solve_scores_spec tl a : 0 < tl ->
  match solve_scores tl a with
  | Ok (t, g) => ~ zero_gap_failure a /\ 0 <= g <= 1 /\ (g == 0 <-> no_gap a)
                 /\ t = match an_status a with OPTIMAL => an_wall a / tl | _ => 1 end
  | Err e => e = ZeroDivisionError /\ zero_gap_failure a
  end.
Proof.
  intros Htl. unfold solve_scores, zero_gap_failure, no_gap.
  destruct (Qeq_bool tl 0) eqn:E0; [apply Qeq_bool_iff in E0; lra|]. cbn [bind].
  destruct (an_status a).
  - repeat split; try lra; auto; intros [H _]; discriminate.
  - destruct (Qle_bool 0 (an_objective a * an_bound a)) eqn:Es.
    + apply Qle_bool_iff, Qmul_nonneg_cases in Es.
      set (o := an_objective a) in *. set (b := an_bound a) in *.
      set (m := if Qltb (Qabs o) (Qabs b) then Qabs b else Qabs o).
      assert (Hm : Qabs o <= m /\ Qabs b <= m).
      { unfold m. destruct (Qltb (Qabs o) (Qabs b)) eqn:E; [apply Qltb_true in E|apply Qltb_false in E]; split; lra. }
      assert (Hmin : m == Qabs o \/ m == Qabs b) by (unfold m; destruct (Qltb _ _); [right|left]; reflexivity).
      cbv zeta. destruct (Qeq_bool m 0) eqn:Em.
      * apply Qeq_bool_iff in Em. split; auto. split; auto.
        pose proof (Qabs_nonneg o). pose proof (Qabs_nonneg b).
        destruct (Qabs_cases o) as [[? ?]|[? ?]], (Qabs_cases b) as [[? ?]|[? ?]]; split; lra.
      * assert (Hm0 : 0 < m).
        { pose proof (Qabs_nonneg o). destruct (Qlt_le_dec 0 m); auto. exfalso.
          assert (m == 0) by lra. apply Qeq_bool_iff in H0. congruence. }
        assert (Hg : 0 <= Qabs (o - b) /\ Qabs (o - b) <= m).
        { split; [apply Qabs_nonneg|].
          destruct (Qabs_cases (o - b)) as [[? ?]|[? ?]], (Qabs_cases o) as [[? ?]|[? ?]],
            (Qabs_cases b) as [[? ?]|[? ?]]; lra. }
        repeat split.
        -- intros (_ & Ho & Hb). destruct (Qabs_cases o) as [[? ?]|[? ?]], (Qabs_cases b) as [[? ?]|[? ?]]; lra.
        -- apply Qmax_div; lra.
        -- apply Qmax_div; lra.
        -- intros Hz. right. split; auto.
           assert (Hab : Qabs (o - b) == 0).
           { setoid_replace (Qabs (o - b)) with (Qabs (o - b) / m * m) by (field; lra). rewrite Hz. lra. }
           destruct (Qabs_cases (o - b)) as [[? ?]|[? ?]]; lra.
        -- intros [Hc|[_ Hob]]; [discriminate|].
           assert (Hab : Qabs (o - b) == 0) by (rewrite Hob; setoid_replace (b - b) with 0 by ring; reflexivity).
           rewrite Hab. field. lra.
    + apply Qle_bool_false in Es. repeat split; try lra.
      * intros (_ & Ho & _). rewrite Ho in Es. lra.
      * intros [Hc|[_ Hob]]; [discriminate|]. rewrite Hob in Es. pose proof (Qsq_nonneg (an_bound a)). lra.
  - repeat split; try lra.
    + intros [H _]; discriminate.
    + intros [H|[H _]]; discriminate.
Qed.

Lemma solve_model_step rs solver tl s hp hq hl :
  0 < tl -> sub_hist rs s hp hq hl ->
  exists l q z,
    In l [2; 0]%Z /\ In q [2; 1]%Z /\ In z [3; 4; 2]%Z /\
    let a := solver (mkSettings l q z) in
    get_best_value (rng_lns rs) (sub_lns s) = Ok (l, tuner_state (rng_lns rs) (3 # 10) ((base_lns ++ hl) ++ [TBest])) /\
    get_best_value (rng_probing rs) (sub_probing s) = Ok (q, tuner_state (rng_probing rs) (3 # 10) ((base_probing ++ hq) ++ [TBest])) /\
    get_best_value (rng_presolve rs) (sub_presolve s) = Ok (z, tuner_state (rng_presolve rs) (3 # 10) ((base_presolve ++ hp) ++ [TBest])) /\
    match solve_scores tl a with
    | Ok (t, g) =>
        exists s', solve_model rs solver tl s = (s', Ok (mkSettings l q z))
        /\ sub_times s' = sub_times s ++ [an_wall a] /\ sub_gaps s' = sub_gaps s ++ [g]
        /\ sub_hist rs s' (hp ++ [TBest; TAdjust (- (t + g)) None]) (hq ++ [TBest; TAdjust (- (t + g)) None])
                          (hl ++ [TBest; TAdjust (- (t + g)) None])
    | Err e =>
        exists s', solve_model rs solver tl s = (s', Err e)
        /\ sub_times s' = sub_times s /\ sub_gaps s' = sub_gaps s
        /\ sub_hist rs s' (hp ++ [TBest]) (hq ++ [TBest]) (hl ++ [TBest])
    end.
Proof.
  intros Htl [Hp Hq Hl Ap Aq Al].
  assert (Ne1 : added (base_lns ++ hl) <> []) by (rewrite added_app; discriminate).
  assert (Ne2 : added (base_probing ++ hq) <> []) by (rewrite added_app; discriminate).
  assert (Ne3 : added (base_presolve ++ hp) <> []) by (rewrite added_app; discriminate).
  destruct (best_then_adjust (rng_lns rs) (3 # 10) _ 0 Ne1) as (l & pl & _ & El & Il & Sl & _).
  destruct (best_then_adjust (rng_probing rs) (3 # 10) _ 0 Ne2) as (q & pq & _ & Eq_ & Iq & Sq & _).
  destruct (best_then_adjust (rng_presolve rs) (3 # 10) _ 0 Ne3) as (z & pz & _ & Ez & Iz & Sz & _).
  rewrite added_app in Il, Iq, Iz. rewrite Al, app_nil_r in Il. rewrite Aq, app_nil_r in Iq.
  rewrite Ap, app_nil_r in Iz.
  exists l, q, z. split; [exact Il|]. split; [exact Iq|]. split; [exact Iz|].
  rewrite Hl, Hq, Hp. rewrite <- Sl, <- Sq, <- Sz. cbv zeta.
  split; [exact El|]. split; [exact Eq_|]. split; [exact Ez|].
  unfold solve_model. rewrite Hl, El. cbn [sub_probing sub_presolve sub_lns sub_times sub_gaps].
  rewrite Hq, Eq_. cbn [sub_probing sub_presolve sub_lns sub_times sub_gaps]. rewrite Hp, Ez.
  cbn [sub_probing sub_presolve sub_lns sub_times sub_gaps].
  destruct (solve_scores tl (solver (mkSettings l q z))) as [[t g]|e].
  - destruct (best_then_adjust (rng_lns rs) (3 # 10) _ (- (t + g)) Ne1) as (l' & pl' & pl2 & El' & _ & _ & Al2 & Sl2).
    destruct (best_then_adjust (rng_probing rs) (3 # 10) _ (- (t + g)) Ne2) as (q' & pq' & pq2 & Eq' & _ & _ & Aq2 & Sq2).
    destruct (best_then_adjust (rng_presolve rs) (3 # 10) _ (- (t + g)) Ne3) as (z' & pz' & pz2 & Ez' & _ & _ & Az2 & Sz2).
    assert (Xl : pl' = pl) by congruence. assert (Xq : pq' = pq) by congruence. assert (Xz : pz' = pz) by congruence.
    subst pl' pq' pz'.
    rewrite Az2, Aq2, Al2. eexists. split; [reflexivity|].
    cbn [sub_times sub_gaps]. split; [reflexivity|]. split; [reflexivity|].
    constructor; cbn [sub_presolve sub_probing sub_lns];
      try (rewrite ?app_assoc, <- ?app_assoc in *; assumption);
      rewrite added_app, ?Ap, ?Aq, ?Al; reflexivity.
  - eexists. split; [reflexivity|]. cbn [sub_times sub_gaps]. split; [reflexivity|]. split; [reflexivity|].
    constructor; cbn [sub_presolve sub_probing sub_lns]; rewrite ?app_assoc; auto;
      rewrite added_app, ?Ap, ?Aq, ?Al; reflexivity.
Qed.

Lemma sub_hist_init rs : sub_hist rs sub_init [] [] [].
Proof. constructor; try reflexivity. Qed.

Lemma sub_run_hist rs calls :
  (forall c, In c calls -> 0 < snd c) -> exists hp hq hl, sub_hist rs (sub_run rs calls) hp hq hl.
Proof.
  unfold sub_run. intros H.
  assert (G : forall s, (exists hp hq hl, sub_hist rs s hp hq hl) ->
    exists hp hq hl, sub_hist rs (fold_left (fun s c => fst (solve_model rs (fst c) (snd c) s)) calls s) hp hq hl).
  { induction calls as [|c calls IH]; intros s Hs; [exact Hs|]. cbn [fold_left]. apply IH.
    - intros; apply H; right; auto.
    - destruct Hs as (hp & hq & hl & Hs).
      destruct (solve_model_step rs (fst c) (snd c) s hp hq hl) as (l & q & z & _ & _ & _ & _ & _ & _ & R); auto.
      { apply H; left; auto. }
      destruct (solve_scores _ _) as [[t g]|e]; destruct R as (s' & E & _ & _ & Hs'); rewrite E; eauto. }
  apply G. exists [], [], []. apply sub_hist_init.
Qed.

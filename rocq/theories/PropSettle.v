(** C88: what the LP solution satisfies once the cut rounds have nothing left to add. *)
From Verif Require Import Base Lp LpProofs LpCheck TreeModel SpecTree TreeGeoProofs TreePathProofs TreeLpBuild TreeInvProofs TreeFormProofs
  TreeGenProofs TreeBuildProofs TreeCutProofs SpecTreeRun TreeRunProofs TreeMasterProofs SpecTreeLp TreeLpProofs SpecCut PropTree PropTreeMaster PropTreeLp
  PropCut TreeSettleProofs.

Open Scope nat_scope.

Lemma tenth_settle u ops cuts s sv dl s' x pi : valid_setup u -> after u ops cuts s -> sound_solvers sv ->
  S (solves ops) mod 10 = 0 -> solve_rmp sv s = Ok (dl, s') -> tm_answer s' = Some (x, pi) ->
  length (lp_cons (tm_lp s')) < length (lp_cons (tm_lp s)) + su_rounds u ->
  exists kinds more t s2 s3, uinv u kinds (cuts ++ more) (store_lp_solution x t) /\ tm_paths t = tm_paths s /\ tm_rows t = tm_rows s /\ tm_cutmodel t = tm_cutmodel s /\
    (if su_beta u then add_beta_cuts (store_lp_solution x t) else Ok (0, store_lp_solution x t)) = Ok (0, s2) /\
    (if su_gen u then add_cuts (tv_cuts sv (tm_calls s2)) s2 else Ok ([], s2)) = Ok ([], s3) /\
    uinv u kinds (cuts ++ more) s' /\ d_new_cuts dl = more /\ tm_paths s' = tm_paths s /\ tm_rows s' = tm_rows s.
Proof.
  intros V A Hsv Hm E Ea Hlt. destruct (after_inv u ops cuts s V A) as (kinds & H & Hb & Hg & Hr & Hi & _).
  unfold solve_rmp in E. rewrite (ti_gen _ _ _ _ _ _ _ H) in E. cbn [assert bind] in E.
  set (s1 := solve_lp sv (start_iter s)) in *. assert (H1 : uinv u kinds cuts s1) by (apply tinv_solve, tinv_start; exact H).
  change (tm_iter s1) with (S (tm_iter s)) in E. rewrite Hi, Hm in E. cbn [Nat.eqb] in E.
  apply bind_ok in E. destruct E as [[nc s2'] [Er E]].
  assert (Ea2 : tm_answer s2' = Some (x, pi) /\ tm_lp s' = tm_lp s2' /\ s' = store_lp_solution x s2' /\ d_new_cuts dl = nc).
  { destruct (tm_answer s2') as [[y pj]|] eqn:Ey.
    - apply bind_ok in E. destruct E as [d [Ed E]]. injection E as <- <-. cbn [store_lp_solution tm_answer] in Ea. rewrite Ey in Ea. injection Ea as -> ->.
      split; auto. split; auto. split; auto. unfold read_duals in Ed. apply bind_ok in Ed. destruct Ed as [? [_ Ed]]. apply bind_ok in Ed. destruct Ed as [? [_ Ed]].
      apply bind_ok in Ed. destruct Ed as [? [_ Ed]]. injection Ed as <-. reflexivity.
    - injection E as <- <-. congruence. }
  destruct Ea2 as (Ea2 & El & Es' & En). rewrite El in Hlt.
  destruct (rounds_settle u sv V Hsv (tm_rounds s1) s1 kinds cuts [] nc s2' x pi H1 Er Ea2) as (k' & more & t & t2 & t3 & A1 & A2 & A3 & A4 & A5 & A6 & A7 & A8).
  { change (tm_rounds s1) with (tm_rounds s). rewrite Hr. exact Hlt. }
  change (tm_beta_cuts s1) with (tm_beta_cuts s) in A5. rewrite Hb in A5. change (tm_gen_cuts s1) with (tm_gen_cuts s) in A6. rewrite Hg in A6.
  destruct (cut_rounds_ok _ _ _ _ (proj1 V) sv Hsv (tm_rounds s1) s1 kinds cuts [] H1) as (? & ? & ? & ? & Er' & _ & Fr & _).
  { intros a Ha. eexists. exact Ha. }
  rewrite Er in Er'. injection Er' as _ <-. destruct A3 as (f1 & _ & f3 & _). destruct Fr as (g1 & _ & g3 & _).
  exists k', more, t, t2, t3. split; auto. split; auto. split; auto. split; auto. split; auto. split; auto. split.
  { rewrite Es'. apply tinv_store. rewrite A7. apply tinv_total. exact A8. }
  split; [rewrite En; exact A2|]. rewrite Es'. split; [exact g1|exact g3].
Qed.

(** The tenth, twentieth, ... solve with generated cuts: if fewer constraints were added than there are rounds, then every possible row of
    data follows paths with a total LP value of at most 1 + 1e-6 * (number of paths + 1). *)
Theorem C88_cuts : forall u ops cuts s sv dl s' x pi, valid_setup u -> after u ops cuts s -> sound_solvers sv ->
  (forall n, optimal_for (tm_cutmodel s) (tv_cuts sv n)) -> su_gen u = true ->
  S (solves ops) mod 10 = 0 -> solve_rmp sv s = Ok (dl, s') -> tm_answer s' = Some (x, pi) ->
  length (lp_cons (tm_lp s')) < length (lp_cons (tm_lp s)) + su_rounds u ->
  forall z v, possible (su_splits u) z -> path_weight u z (tm_paths s') x v ->
    (v <= 1 + (inject_Z (Z.of_nat (length (tm_paths s'))) + 1) * teps)%Q.
Proof.
  intros u ops cuts s sv dl s' x pi V A Hsv Ho Hg Hm E Ea Hlt z v Hz Hw.
  destruct (tenth_settle u ops cuts s sv dl s' x pi V A Hsv Hm E Ea Hlt) as (kinds & more & t & s2 & s3 & H & P1 & P2 & P3 & E1 & E2 & H' & _ & P4 & P5).
  rewrite Hg in E2. rewrite P4 in *.
  assert (H2 : exists k2, uinv u k2 (cuts ++ more) s2 /\ stored x s2 /\ tm_paths s2 = tm_paths s /\ tm_cutmodel s2 = tm_cutmodel s).
  { destruct (su_beta u).
    - destruct (add_beta_cuts_inv _ _ _ _ kinds _ _ 0 s2 H E1) as (new & rows & m & cs & added & _ & Es & H2 & _). exists (kinds ++ map KRow new).
      split; [exact H2|]. rewrite Es. split; [reflexivity|]. split; [exact P1|exact P3].
    - injection E1 as <-. exists kinds. split; [exact H|]. split; [reflexivity|]. split; [exact P1|exact P3]. }
  destruct H2 as (k2 & H2 & Hx & Q1 & Q2). rewrite <- Q1 in *. rewrite <- Q2 in Ho.
  exact (complete_inv u k2 _ s2 x _ s3 V H2 Hx (Ho _) E2 z v Hz Hw).
Qed.
Print Assumptions C88_cuts.

(** With row cuts: then each training row that was kept, with or without a constraint of its own, follows paths with a total LP value
    of at most 1 + 1e-6, if the LP solver's solution is feasible; and of at least 1 - 1e-6 if it has no constraint. *)
Theorem C88_rows : forall u ops cuts s sv dl s' x pi rows, valid_setup u -> after u ops cuts s -> sound_solvers sv -> su_beta u = true ->
  S (solves ops) mod 10 = 0 -> solve_rmp sv s = Ok (dl, s') -> tm_answer s' = Some (x, pi) ->
  length (lp_cons (tm_lp s')) < length (lp_cons (tm_lp s)) + su_rounds u ->
  lp_feasible (tm_lp s') x -> tm_rows s' = Some rows ->
  exists rws kinds cv, formulated u rws (cuts ++ d_new_cuts dl) kinds cv s' /\
    forall r dr v, nth_error rows r = Some dr -> r_gone dr = false ->
      covered_sum (su_X u) (su_leaves u) (su_splits u) (KRow r) (tm_paths s') x v ->
      (v <= 1 + teps)%Q /\ (~ In r rws -> (1 - teps <= v)%Q).
Proof.
  intros u ops cuts s sv dl s' x pi rows V A Hsv Hb Hm E Ea Hlt Hf Hrows.
  destruct (tenth_settle u ops cuts s sv dl s' x pi V A Hsv Hm E Ea Hlt) as (kinds & more & t & s2 & s3 & H & P1 & P2 & P3 & E1 & E2 & H' & En & P4 & P5).
  pose proof (after_formulated u _ _ _ V H') as F. exists (rows_of kinds), kinds, (cv_of (tm_ns_vars s')). rewrite En. split; [exact F|]. intros r dr v Hdr Hg Hs.
  assert (Hnd : NoDup (tm_paths s')) by (eapply (NoDup_map_inv' p_id), tm_path_ids; eauto).
  apply covered_sum_iff in Hs; auto. rewrite Hb in E1.
  destruct (in_dec Nat.eq_dec r (rows_of kinds)) as [Hin|Hni].
  - apply rows_of_In in Hin. apply In_nth_error in Hin. destruct Hin as [i Hi].
    destruct (Forall2_nth_error _ _ _ _ _ (fm_cons _ _ _ _ _ _ _ _ _ _ F) Hi) as (k & Hk & HB & _). destruct Hf as [_ Hf]. specialize (Hf i k Hk).
    pose proof (form_activity _ _ _ _ _ _ _ _ _ _ F i (KRow r) k x Hi Hk) as Hact. cbn beta iota in Hact. injection HB as B1 B2. rewrite B1, B2 in Hf. destruct Hf as [Hf1 Hf2].
    specialize (Hf2 1%Q eq_refl). split; [rewrite Hs; unfold teps; lra|]. intros Hc. exfalso. apply Hc, rows_of_In. eapply nth_error_In; eauto.
  - destruct (add_beta_cuts_inv _ _ _ _ kinds _ _ 0 s2 H E1) as (new & rows' & m & cs & added & Hr & Es & H2 & Hn & _ & _ & _ & Hall).
    cbn [store_lp_solution tm_rows] in Hr. assert (rows' = rows) by congruence. subst rows'. destruct new; [|discriminate]. cbn [map] in Hall. rewrite app_nil_r in Hall.
    assert (Hlr : r < length (su_X u)).
    { destruct (ti_rows _ _ _ _ _ _ _ H') as (rw & Erw & [Hrl _] & _). assert (rw = rows) by congruence. subst rw. rewrite <- Hrl. apply nth_error_Some. congruence. }
    destruct (Hall ltac:(lia) r dr Hlr Hdr Hg) as (dr' & Hdr' & Hg' & Hvio); [rewrite rows_of_In in Hni; exact Hni|].
    destruct (row_violated_sum _ _ _ _ x kinds _ _ rows r dr' H eq_refl Hr Hdr') as (b & Eb & Hbb).
    assert (b = false) by congruence. subst b.
    assert (Hq : (Qabs (v - 1) <= teps)%Q).
    { rewrite Hs. apply Qnot_lt_le. intros Hc. assert (false = true); [|discriminate]. apply Hbb.
      change (tm_paths (store_lp_solution x t)) with (tm_paths t). rewrite P1, <- P4. exact Hc. }
    apply Qabs_Qle_condition in Hq. split; [lra|]. intros _. lra.
Qed.
Print Assumptions C88_rows.

(** A tenth solve with both kinds of cuts.  The LP solver's first answer in it gives 2 to every path; the constraint of the row that was
    kept is added, the next answer gives 1/2 to every path, and the second of the three rounds finds nothing. *)
Definition settle_sv (n : nat) : tsolvers := mkTsv (fun i _ => Some (if i =? n then fun _ => 2%Q else ex_half, fun _ => 0%Q)) (fun _ => best_cut) (fun _ _ => None).
Lemma settle_sound n : sound_solvers (settle_sv n).
Proof. intros k. exact best_cut_sound. Qed.
Definition settle_ops : list mop := ex_cols ++ repeat (Solve (settle_sv 100)) 9.
Example C88_case : exists s dl s' pi rows dr, after (ex_setup true) settle_ops [] s /\ sound_solvers (settle_sv 9) /\
  (forall n, optimal_for (tm_cutmodel s) (tv_cuts (settle_sv 9) n)) /\ S (solves settle_ops) mod 10 = 0 /\ solve_rmp (settle_sv 9) s = Ok (dl, s') /\
  tm_answer s' = Some (ex_half, pi) /\ length (lp_cons (tm_lp s')) < length (lp_cons (tm_lp s)) + su_rounds (ex_setup true) /\
  length (lp_cons (tm_lp s')) = length (lp_cons (tm_lp s)) + 1 /\ lp_feasible (tm_lp s') ex_half /\
  tm_rows s' = Some rows /\ nth_error rows 1 = Some dr /\ r_gone dr = false.
Proof.
  assert (V : match run_setup (ex_setup true) settle_ops with
              | Ok (cuts, s) => match solve_rmp (settle_sv 9) s with
                  | Ok (dl, s') => match tm_rows s' with
                     | Some rows => match nth_error rows 1 with
                        | Some dr => Some (cuts, closed_model (tm_cutmodel s), length (lp_cons (tm_lp s)), length (lp_cons (tm_lp s')), feasibleb (tm_lp s') ex_half, r_gone dr, tm_calls s')
                        | None => None end
                     | None => None end
                  | Err _ => None end
              | Err _ => None end = Some ([], true, 20, 21, true, false, 13)) by (vm_compute; reflexivity).
  assert (Va : match run_setup (ex_setup true) settle_ops with
              | Ok (cuts, s) => match solve_rmp (settle_sv 9) s with
                  | Ok (dl, s') => tm_answer s'
                  | Err _ => None end
              | Err _ => None end = Some (ex_half, fun _ => 0%Q)) by (vm_compute; reflexivity).
  destruct (run_setup (ex_setup true) settle_ops) as [[cuts s]|] eqn:E; [|discriminate V].
  destruct (solve_rmp (settle_sv 9) s) as [[dl s']|] eqn:Es; [|discriminate V]. destruct (tm_rows s') as [rows|] eqn:Er; [|discriminate V].
  destruct (nth_error rows 1) as [dr|] eqn:Ed; [|discriminate V]. injection V as -> C L1 L2 Fe G _.
  assert (A : after (ex_setup true) settle_ops [] s).
  { apply run_setup_after; [|exact E]. apply Forall_app. split.
    - destruct C39_case as (s1 & d1 & rows1 & (Hl & _) & _). exact Hl.
    - apply Forall_forall. intros o Ho. apply repeat_spec in Ho. subst o. apply settle_sound. }
  exists s, dl, s', (fun _ => 0%Q), rows, dr. split; [exact A|]. split; [apply settle_sound|]. split; [intros n; apply best_cut_optimal; exact C|].
  split; [reflexivity|]. split; [exact Es|]. split; [exact Va|]. split; [rewrite L1, L2; cbn; lia|]. split; [rewrite L1, L2; reflexivity|].
  split; [apply feasibleb_ok; exact Fe|]. split; [exact Er|]. split; [exact Ed|exact G].
Qed.

(** The last cut round: what it looked at when it found nothing to add. *)
From Verif Require Import Base Lp LpProofs TreeModel SpecTree TreeGeoProofs TreePathProofs TreeLpBuild TreeInvProofs TreeFormProofs
  TreeGenProofs TreeBuildProofs TreeCutProofs SpecTreeRun TreeRunProofs TreeMasterProofs.
Open Scope nat_scope.

Lemma beta_cutmodel s n s' : add_beta_cuts s = Ok (n, s') -> tm_cutmodel s' = tm_cutmodel s.
Proof.
  unfold add_beta_cuts. intros E. apply bind_ok in E. destruct E as [a [_ E]]. apply bind_ok in E. destruct E as [b [_ E]].
  apply bind_ok in E. destruct E as [[k [[m cs] ad]] [_ E]]. injection E as _ <-. reflexivity.
Qed.
Lemma cuts_cutmodel sols s n s' : add_cuts sols s = Ok (n, s') -> tm_cutmodel s' = tm_cutmodel s.
Proof.
  unfold add_cuts. intros E. apply bind_ok in E. destruct E as [a [_ E]]. destruct (_ =? 0); [injection E as _ <-; reflexivity|].
  apply bind_ok in E. destruct E as [b [_ E]]. apply bind_ok in E. destruct E as [[[m cs] ad] [_ E]]. injection E as _ <-. reflexivity.
Qed.
Lemma new_cons_length m m' new : with_new_cons m m' new -> length (lp_cons m') = length (lp_cons m) + length new.
Proof. intros (_ & _ & _ & _ & old & -> & F). rewrite app_length, (Forall2_length' _ _ _ F). reflexivity. Qed.

Lemma rounds_settle u sv : valid_setup u -> sound_solvers sv -> forall n s kinds zs new out s' x pi, uinv u kinds zs s ->
  cut_rounds sv n s new = Ok (out, s') -> tm_answer s' = Some (x, pi) -> length (lp_cons (tm_lp s')) < length (lp_cons (tm_lp s)) + n ->
  exists kinds' more t s2 s3, uinv u kinds' (zs ++ more) (store_lp_solution x t) /\ out = new ++ more /\ frame s t /\ tm_cutmodel t = tm_cutmodel s /\
    (if tm_beta_cuts s then add_beta_cuts (store_lp_solution x t) else Ok (0, store_lp_solution x t)) = Ok (0, s2) /\
    (if tm_gen_cuts s then add_cuts (tv_cuts sv (tm_calls s2)) s2 else Ok ([], s2)) = Ok ([], s3) /\ s' = add_total 0 s3 /\ uinv u kinds' (zs ++ more) s3.
Proof.
  intros V Hsv. pose proof V as (wf & _). induction n as [|n IH]; intros s kinds zs new out s' x pi H E Ea Hlt; [cbn [cut_rounds] in E; injection E as <- <-; lia|].
  cbn [cut_rounds] in E. destruct (tm_answer s) as [[y pj]|] eqn:Ey; [|injection E as <- <-; congruence].
  destruct (tinv_store _ _ _ _ kinds zs s y H) as [H1 Hx1].
  destruct (round_ok _ _ _ _ wf sv y (store_lp_solution y s) kinds zs Hsv H1 Hx1)
    as (num & cuts & s2 & s3 & rws & E1 & E2 & Hn & _ & H3 & F3 & G3 & _ & nw & N1 & N2 & _).
  rewrite E1 in E. cbn [bind] in E. rewrite E2 in E. cbn [bind] in E.
  assert (C2 : tm_cutmodel s2 = tm_cutmodel s).
  { destruct (tm_beta_cuts (store_lp_solution y s)); [apply beta_cutmodel in E1; exact E1|injection E1 as _ <-; reflexivity]. }
  assert (C3 : tm_cutmodel s3 = tm_cutmodel s2).
  { destruct (_ && _); [apply cuts_cutmodel in E2; exact E2|injection E2 as _ <-; reflexivity]. }
  pose proof (new_cons_length _ _ _ N1) as L1. cbn [store_lp_solution tm_lp] in L1.
  assert (F13 : frame s s3) by (eapply frame_trans; [|exact F3]; repeat split).
  destruct ((0 <? length cuts) || (0 <? num)) eqn:Ego.
  - apply orb_true_iff in Ego. rewrite !Nat.ltb_lt in Ego.
    assert (H5 : uinv u (kinds ++ map KRow rws ++ map KCut cuts) (zs ++ cuts) (solve_lp sv (add_total (length cuts + num) s3)))
      by (apply tinv_solve, tinv_total; auto).
    destruct (IH _ _ _ _ _ _ x pi H5 E Ea) as (k' & more & t & t2 & t3 & A1 & A2 & A3 & A4 & A5 & A6 & A7 & A8).
    { change (tm_lp (solve_lp sv (add_total (length cuts + num) s3))) with (tm_lp s3). lia. }
    assert (Ft : frame s t) by (eapply frame_trans; [exact F13|]; eapply frame_trans; [|exact A3]; repeat split).
    destruct F13 as (_ & _ & _ & fb & fg & _).
    change (tm_beta_cuts (solve_lp sv (add_total (length cuts + num) s3))) with (tm_beta_cuts s3) in A5.
    change (tm_gen_cuts (solve_lp sv (add_total (length cuts + num) s3))) with (tm_gen_cuts s3) in A6.
    change (tm_cutmodel (solve_lp sv (add_total (length cuts + num) s3))) with (tm_cutmodel s3) in A4.
    rewrite fb in A5. rewrite fg in A6.
    exists k', (cuts ++ more), t, t2, t3. rewrite !app_assoc. split; auto. split; auto. split; auto. split; [congruence|]. split; auto.
  - apply orb_false_iff in Ego. rewrite !Nat.ltb_ge in Ego. assert (length cuts = 0 /\ num = 0) as [Z1 Z2] by lia.
    destruct cuts; [|discriminate]. destruct rws; [|simpl in Hn; lia]. subst num. cbn [length Nat.add] in E. injection E as <- <-.
    cbn [map app] in H3. rewrite !app_nil_r in *.
    assert (Exy : (y, pj) = (x, pi)).
    { assert (B2 : tm_answer s2 = tm_answer s).
      { destruct (tm_beta_cuts (store_lp_solution y s)); [apply add_beta_cuts_same in E1; apply E1|injection E1 as <-; reflexivity]. }
      assert (B3 : tm_answer s3 = tm_answer s2).
      { destruct (tm_gen_cuts s2 && _); [apply add_cuts_same in E2; apply E2|injection E2 as <-; reflexivity]. }
      change (tm_answer (add_total 0 s3)) with (tm_answer s3) in Ea. congruence. }
    injection Exy as -> ->. exists kinds, [], s, s2, s3. rewrite !app_nil_r. split; auto. split; auto. split; [apply frame_refl|]. split; auto. split; auto.
    assert (Gs : tm_gen_cuts s2 = tm_gen_cuts s).
    { destruct (tm_beta_cuts (store_lp_solution x s)); [|injection E1 as <-; reflexivity].
      destruct (add_beta_cuts_inv _ _ _ _ kinds zs _ 0 s2 H1 E1) as (? & ? & ? & ? & ? & _ & -> & _). reflexivity. }
    rewrite Gs in E2. cbn [Nat.eqb] in E2. rewrite andb_true_r in E2. split; auto.
Qed.

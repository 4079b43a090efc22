(** How fast the number of row constraints can grow. *)
From Verif Require Import Base Lp FitModel SpecFit TreeModel TreePricingModel TreeFitModel SpecReport FitProofs FitEventProofs TreeRunProofs CutCountProofs.
Open Scope nat_scope.

Lemma beta_ten rows values rs : forall m cs ad num num' st',
  beta_loop rows values rs (m, cs, ad) num = Ok (num', st') -> num <= 10 -> num' <= 10.
Proof.
  induction rs as [|r rs IH]; intros m cs ad num num' st' E H; cbn [beta_loop] in E; [injection E as <- _; exact H|].
  destruct (getitem rows r) as [dr|]; [|discriminate]. cbn [bind] in E. destruct (r_gone dr); [eapply IH; eauto|].
  destruct (Nat.leb_spec 10 num) as [Hn|Hn]; [injection E as <- _; exact H|]. destruct (getitem ad r) as [a|] eqn:Ea; [|discriminate]. cbn [bind] in E.
  destruct a; [eapply IH; eauto|]. destruct (violated_row_constraint values (r_paths dr)) as [v|]; [|discriminate]. cbn [bind] in E. destruct v; [|eapply IH; eauto].
  destruct (setitem ad r true) as [ad1|] eqn:E1; [|discriminate]. cbn [bind new_con] in E. destruct (setitem cs r _) as [cs1|]; [|discriminate]. cbn [bind] in E.
  eapply IH; [exact E|lia].
Qed.
Lemma beta_cuts_ten s k s' : add_beta_cuts s = Ok (k, s') -> k <= 10 /\ tm_total_cuts s' = tm_total_cuts s /\ tm_gen_cuts s' = tm_gen_cuts s /\ tm_rounds s' = tm_rounds s /\ tm_iter s' = tm_iter s.
Proof.
  unfold add_beta_cuts. destruct (assert _); [|discriminate]. cbn [bind]. destruct (tm_data_rows s); [|discriminate]. cbn [bind].
  destruct (beta_loop _ _ _ _ _) as [[num [[m rc] ad]]|] eqn:E; [|discriminate]. cbn [bind]. intros E'. injection E' as <- <-. apply beta_ten in E; [|lia]. auto.
Qed.
(** Nothing but solving the relaxation changes what the pace depends on. *)
Definition steady_master (s s' : tmaster) : Prop :=
  tm_total_cuts s' = tm_total_cuts s /\ tm_gen_cuts s' = tm_gen_cuts s /\ tm_rounds s' = tm_rounds s /\ tm_iter s' = tm_iter s.
Lemma rounds_pace sv : forall n s new out s', cut_rounds sv n s new = Ok (out, s') -> tm_gen_cuts s = false ->
  tm_total_cuts s' <= tm_total_cuts s + 10 * n /\ tm_gen_cuts s' = false /\ tm_rounds s' = tm_rounds s /\ tm_iter s' = tm_iter s.
Proof.
  induction n as [|n IH]; intros s new out s' E G; cbn [cut_rounds] in E; [injection E as _ <-; repeat split; auto; lia|].
  destruct (tm_answer s) as [[x pi]|]; [|injection E as _ <-; repeat split; auto; lia].
  assert (B : forall nb s2, (if tm_beta_cuts (store_lp_solution x s) then add_beta_cuts (store_lp_solution x s) else Ok (0, store_lp_solution x s)) = Ok (nb, s2) -> nb <= 10 /\ steady_master s s2).
  { intros nb s2 E2. destruct (tm_beta_cuts _); [apply beta_cuts_ten in E2; split; [apply E2|]; unfold steady_master; destruct E2 as (_ & E2); exact E2|injection E2 as <- <-; split; [lia|repeat split]]. }
  destruct (if tm_beta_cuts _ then _ else _) as [[nb s2]|] eqn:E2; [|discriminate]. cbn [bind] in E. destruct (B _ _ eq_refl) as [B1 (B2 & B3 & B4 & B5)]. clear B E2.
  rewrite B3, G in E. cbn [andb bind length] in E.
  destruct ((0 <? 0) || (0 <? nb))%bool; [|injection E as _ <-; cbn [tm_total_cuts tm_gen_cuts tm_rounds tm_iter add_total]; repeat split; lia || congruence].
  apply IH in E; cbn [tm_total_cuts tm_gen_cuts tm_rounds tm_iter add_total solve_lp] in *; [|congruence]. destruct E as (H1 & H2 & H3 & H4). repeat split; try congruence. lia.
Qed.
Lemma solve_pace sv s d s' : solve_rmp sv s = Ok (d, s') -> tm_gen_cuts s = false ->
  tm_total_cuts s' <= tm_total_cuts s + (if tm_iter s' mod 10 =? 0 then 10 * tm_rounds s else 0) /\ tm_gen_cuts s' = false /\ tm_rounds s' = tm_rounds s /\ tm_iter s' = S (tm_iter s).
Proof.
  unfold solve_rmp. destruct (assert _); [|discriminate]. cbn [bind]. intros E G.
  destruct (if _ =? 0 then _ else _) as [[nc s2]|] eqn:E2; [|discriminate]. cbn [bind] in E.
  assert (P : tm_total_cuts s2 <= tm_total_cuts s + (if S (tm_iter s) mod 10 =? 0 then 10 * tm_rounds s else 0) /\ tm_gen_cuts s2 = false /\ tm_rounds s2 = tm_rounds s /\ tm_iter s2 = S (tm_iter s)).
  { change (tm_iter (solve_lp sv (start_iter s))) with (S (tm_iter s)) in E2. destruct (S (tm_iter s) mod 10 =? 0).
    - apply rounds_pace in E2; [|exact G]. exact E2.
    - injection E2 as _ <-. cbn [tm_total_cuts tm_gen_cuts tm_rounds tm_iter solve_lp start_iter]. repeat split; auto; lia. }
  destruct P as (P1 & P2 & P3 & P4).
  destruct (tm_answer s2) as [[x pi]|]; [|injection E as _ <-; rewrite P4; auto]. destruct (read_duals _ _ _); [|discriminate]. cbn [bind] in E. injection E as _ <-.
  cbn [tm_total_cuts tm_gen_cuts tm_rounds tm_iter store_lp_solution]. rewrite P4. auto.
Qed.
Lemma add_pace p s b s' : add_column p s = Ok (b, s') -> steady_master s s'.
Proof.
  unfold add_column. cbn [new_var]. intros E. destruct (column_leaf _ _ _ _ _); [|discriminate]. cbn [bind] in E.
  repeat match type of E with context [bind ?r _] => destruct r as [?|]; [cbn [bind] in E|discriminate E]; repeat match type of E with context [let '(_, _) := ?q in _] => destruct q end end.
  injection E as _ <-. repeat split.
Qed.
Lemma tens k : S k / 10 = k / 10 + (if S k mod 10 =? 0 then 1 else 0).
Proof.
  pose proof (Nat.div_mod_eq k 10). pose proof (Nat.div_mod_eq (S k) 10). pose proof (Nat.mod_upper_bound k 10 ltac:(lia)). pose proof (Nat.mod_upper_bound (S k) 10 ltac:(lia)).
  destruct (Nat.eqb_spec (S k mod 10) 0); nia.
Qed.
Definition paced (m0 : tmaster) (n : nat) (s : tmaster) : Prop :=
  tm_gen_cuts s = false /\ tm_rounds s = tm_rounds m0 /\ tm_iter s = n /\ tm_total_cuts s <= 10 * tm_rounds m0 * (n / 10).
Lemma paced_steady m0 n s s' : steady_master s s' -> paced m0 n s -> paced m0 n s'.
Proof. unfold paced, steady_master. intros (H1 & H2 & H3 & H4) (G1 & G2 & G3 & G4). rewrite H1, H2, H3, H4. auto. Qed.
Lemma fit_paced sv A clk X y fuel s s' m0 : tree_fit sv A clk X y fuel s = (s', Done tt) -> f_trace s = [] -> generate_mp X y (tw_master (f_world s)) = Ok m0 ->
  tm_gen_cuts m0 = false -> tm_iter m0 = 0 -> tm_total_cuts m0 = 0 -> paced m0 (count is_solve (f_trace s')) (tw_master (f_world s')).
Proof.
  intros E Et Em G0 I0 T0. 
  assert (Q : forall t x, is_solve x = false -> count is_solve (t ++ [x]) = count (D := tduals) (C := path) is_solve t) by (intros t x Hx; rewrite count_app; unfold count at 2; cbn; rewrite Hx; cbn; lia).
  refine (fit_invariant (tree_env sv A clk X y) (fun w t => paced m0 (count is_solve t) (tw_master w)) _ _ _ _ _ _ _ _ fuel _ s s' E _).
  - intros w t d w' H I. cbn [c_solve_rmp tree_env] in H. unfold tree_solve_rmp in H. destruct (solve_rmp _ _) as [[d' s1]|] eqn:Es; [|discriminate]. cbn [bind] in H. injection H as _ <-.
    cbn [tw_master]. rewrite count_app. unfold count at 2. cbn [filter is_solve length]. destruct I as (J1 & J2 & J3 & J4). apply solve_pace in Es; [|exact J1]. destruct Es as (K1 & K2 & K3 & K4).
    rewrite Nat.add_1_r. repeat split; try congruence. rewrite K4, J3 in K1. rewrite tens. rewrite J2 in K1. destruct (_ =? 0); nia.
  - intros w t b w' H I. cbn [c_improved tree_env] in H. injection H as _ <-. rewrite Q by reflexivity. exact I.
  - intros w t I. rewrite ?Q by reflexivity. exact I.
  - intros l i d w t w' H I. rewrite Q by reflexivity. cbn [c_update tree_env] in H. unfold tree_update in H. destruct (l =? 0).
    + destruct (heur_update _ _ _) as [[h sp]|]; [|discriminate]. cbn [bind] in H. injection H as <-. eapply paced_steady; [|exact I]. repeat split.
    + destruct (getitem _ i) as [[c lf]|]; [|discriminate]. cbn [bind] in H. destruct (getitem (tw_subs w) i) as [[sub pr]|]; [|discriminate]. cbn [bind] in H.
      destruct (update_subproblem _ _ _ _ _ _ _ _ _ _ _); [|discriminate]. cbn [bind] in H. injection H as <-. exact I.
  - intros l i e w t I. rewrite Q by reflexivity. exact I.
  - intros l i d w t cols w' H I. rewrite Q by reflexivity. cbn [c_generate tree_env] in H. unfold tree_generate in H. destruct (l =? 0).
    + destruct (heur_generate _ _ _ _ _ _ _ _ _ _) as [[ps h]|]; [|discriminate]. cbn [bind] in H. injection H as _ <-. exact I.
    + destruct (getitem _ i) as [[c lf]|]; [|discriminate]. cbn [bind] in H. destruct (getitem (tw_subs w) i) as [[sub pr]|]; [|discriminate]. cbn [bind] in H. destruct (is_sat c).
      * destruct (sat_generate _ _ _ _ _ _ _ _ _ _ _ _ _ _) as [[ps [sub1 pr1]]|]; [|discriminate]. cbn [bind] in H. injection H as _ <-. exact I.
      * destruct (mip_generate _ _ _ _ _ _ _ _ _) as [ps|]; [|discriminate]. cbn [bind] in H. injection H as _ <-. exact I.
  - intros l i c w t b w' H I. rewrite Q by reflexivity. cbn [c_add tree_env] in H. unfold tree_add in H. destruct (add_column c (tw_master w)) as [[b' s1]|] eqn:Ea; [|discriminate]. cbn [bind] in H. injection H as <- <-.
    cbn [tw_master]. eapply paced_steady; [eapply add_pace; eauto|exact I].
  - intros w t b w' H I. rewrite Q by reflexivity. cbn [c_solve_ip tree_env] in H. unfold tree_solve_ip in H. destruct (solve_ip _ _) as [[b' s1]|] eqn:Es; [|discriminate]. cbn [bind] in H. injection H as _ <-.
    cbn [tw_master]. eapply paced_steady; [|exact I]. unfold solve_ip in Es. destruct (assert _); [|discriminate]. cbn [bind] in Es. destruct (tv_ip _ _ _); [|discriminate]. injection Es as _ <-. repeat split.
  - intros w H. cbn [c_generate_mp tree_env] in H. unfold tree_generate_mp in H. rewrite Em in H. cbn [bind] in H. injection H as <-. rewrite Et. cbn. repeat split; auto. rewrite T0. lia.
Qed.

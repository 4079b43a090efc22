(** Lemmas for property C90: the boolean rule classifier. *)
From Verif Require Import Base Lp LpProofs FitModel SpecFit FitInvProofs FitProofs FitMainProofs FitHoareProofs BdrModel SpecBdr BdrProofs BdrFitModel.
From Verif Require Import SpecMore MoreProofs.
Open Scope nat_scope.

(** Clauses are registered under variables of the model. *)
Definition keyed (w : bworld) : Prop := Forall (fun kc : nat * clause => fst kc < num_vars (bm_lp (bw_master w))) (bm_dict (bw_master w)).
Definition more_clauses (w w' : bworld) : Prop := keyed w -> keyed w' /\ exists more, bm_dict (bw_master w') = bm_dict (bw_master w) ++ more.
Lemma more_refl w : more_clauses w w.
Proof. intros H. split; auto. exists []. symmetry. apply app_nil_r. Qed.
Lemma more_same w w' : bw_master w' = bw_master w -> more_clauses w w'.
Proof. intros E H. unfold keyed in *. rewrite E. split; auto. exists []. symmetry. apply app_nil_r. Qed.
Lemma more_trans a b c : more_clauses a b -> more_clauses b c -> more_clauses a c.
Proof. intros H1 H2 Ha. destruct (H1 Ha) as (Hb & m1 & E1). destruct (H2 Hb) as (Hc & m2 & E2). split; auto. exists (m1 ++ m2). rewrite E2, E1, app_assoc. reflexivity. Qed.
Lemma coefs_vars coeffs cs cc n v m m' : set_clause_coeffs coeffs cs cc n v m = Ok m' -> lp_vars m' = lp_vars m.
Proof.
  unfold set_clause_coeffs. intros E. apply bind_ok in E. destruct E as [m1 [E1 E]]. apply bind_ok in E. destruct E as [a [_ E]]. injection E as <-. cbn [set_coef lp_vars].
  refine (for_each_inv _ _ (fun m2 => lp_vars m2 = lp_vars m) _ _ _ (eq_refl _) E1).
  intros j m2 m3 _ H E. apply bind_ok in E. destruct E as [c [_ E]]. apply bind_ok in E. destruct E as [a0 [_ E]]. injection E as <-. exact H.
Qed.
Lemma add_more c s s' b : add_column c s = (s', Ok b) -> Forall (fun kc : nat * clause => fst kc < num_vars (bm_lp s)) (bm_dict s) ->
  Forall (fun kc : nat * clause => fst kc < num_vars (bm_lp s')) (bm_dict s') /\ exists more, bm_dict s' = bm_dict s ++ more.
Proof.
  unfold add_column. intros E H. destruct (bm_generated s); [|discriminate]. cbn [negb] in E. destruct (length c =? 0); [injection E as <- <-; split; auto; exists []; symmetry; apply app_nil_r|].
  destruct (existsb _ _); [discriminate|]. cbn [new_var] in E. destruct (get_objective_coeff_mp _ _ _); [|discriminate]. destruct (get_clause_coeffs _ _ _); [|discriminate].
  destruct (negb _); [discriminate|]. destruct (set_clause_coeffs _ _ _ _ _ _) as [m3|] eqn:E3; [|discriminate]. injection E as <- <-. cbn [bm_lp bm_dict].
  apply coefs_vars in E3. cbn [set_obj lp_vars] in E3. rewrite dict_set_fresh.
  - split; [|eexists; reflexivity]. unfold num_vars in *. rewrite E3, app_length. cbn [length]. apply Forall_app. split; [|constructor; [cbn; lia|constructor]].
    eapply Forall_impl; [|exact H]. cbn. intros; lia.
  - intros Hin. apply in_map_iff in Hin. destruct Hin as (kc & Ek & Hk). rewrite Forall_forall in H. specialize (H kc Hk). unfold num_vars in H. cbn in H, Ek. lia.
Qed.
Lemma bdr_moves sv P clk X y : moves more_clauses (bdr_env sv P clk X y).
Proof.
  unfold moves. cbn [bdr_env c_generate_mp c_solve_rmp c_improved c_reset_timer c_update c_generate c_add c_solve_ip snd]. split; [|split; [|split; [|split; [|split]]]].
  - intros w d w' E. unfold bdr_solve_rmp in E. destruct (sv_lp _ _ _) as [x duals]. apply bind_ok in E. destruct E as [d0 [_ E]]. injection E as <- <-. apply more_same. reflexivity.
  - intros w b w' E. injection E as <- <-. apply more_refl.
  - intros w. apply more_refl.
  - intros l i d w w' E. injection E as <-. apply more_refl.
  - assert (X0 : forall d w cols w', bdr_exact sv X y d w = Ok (cols, w') -> more_clauses w w').
    { intros d w cols w' E. unfold bdr_exact in E. apply bind_ok in E. destruct E as [[cs s] [_ E]]. injection E as <- <-. apply more_same. reflexivity. }
    intros l i d w cols w' E. unfold bdr_generate in E. destruct (bp_heuristic P); [|eauto]. destruct (l =? 0); [|eauto]. apply bind_ok in E. destruct E as [cs [_ E]]. injection E as <- <-. apply more_refl.
  - intros c w b w' E. unfold bdr_add in E. destruct (add_column c (bw_master w)) as [m [b0|]] eqn:Ea; [|discriminate]. injection E as <- <-. intros H. exact (add_more _ _ _ _ Ea H).
Qed.
Lemma ip_dict a s s' b : solve_ip a s = (s', b) -> bm_dict s' = bm_dict s.
Proof.
  unfold solve_ip. destruct (bm_generated s); cbn [negb]; [|intros E; injection E as <- _; reflexivity]. destruct a as [x|]; [|intros E; injection E as <- _; reflexivity].
  destruct (negb _); [intros E; injection E as <- _; reflexivity|]. destruct (for_each _ _ _); intros E; injection E as <- _; reflexivity.
Qed.
Lemma bdr_finish_dict sv P clk X y s : bm_dict (bw_master (f_world (fst (finish (bdr_env sv P clk X y) s)))) = bm_dict (bw_master (f_world s)).
Proof.
  set (I := fun w => bm_dict (bw_master w) = bm_dict (bw_master (f_world s))). change (I (f_world (fst (finish (bdr_env sv P clk X y) s)))).
  apply (keeps_finish (bdr_env sv P clk X y) I); [|reflexivity]. unfold I. cbn [bdr_env c_solve_ip]. intros w b w' E H. unfold bdr_solve_ip in E.
  destruct (solve_ip _ _) as [m [b0|]] eqn:Ei; [|discriminate]. injection E as <- <-. cbn [bw_master]. rewrite (ip_dict _ _ _ _ Ei). exact H.
Qed.
(** The state in which the loop starts. *)
Lemma fit_start {W D C} (E : env W D C) y s s1 : fit E 0 y s = (s1, NoFuel) -> c_generate_mp E (f_world s) = Ok (f_world s1).
Proof.
  unfold fit. unfold mbind at 1, time. unfold mbind at 1, set_tstart. destruct (length _ <=? 1); [discriminate|]. unfold mbind at 1, call_unit, call. cbn [f_world].
  destruct (c_generate_mp E (f_world s)) as [w|]; [|discriminate]. cbn. intros H. injection H as <-. reflexivity.
Qed.

(** The columns of the tree master after training, and what num_col_added_sp_ says about them. *)
From Verif Require Import Base Lp FitModel SpecFit TreeModel TreePricingModel TreeFitModel SpecMain FitEventProofs TreeRunProofs PropFit.
Open Scope nat_scope.

(** * The reported numbers add up *)
Section Trace.
Context {D C : Type}.
Definition adds_in (ls : list (nat * nat)) (t : list (event D C)) : Prop := forall l i c b, In (EvAdd l i c b) t -> In (l, i) ls.
Lemma adds_app ls t1 t2 : adds_in ls t1 -> adds_in ls t2 -> adds_in ls (t1 ++ t2).
Proof. intros H1 H2 l i c b H. apply in_app_or in H. destruct H; eauto. Qed.
Lemma offers_in l i cols ans ls : In (l, i) ls -> adds_in ls (offers l i cols ans).
Proof. intros H l' i' c b Hin. unfold offers in Hin. apply in_map_iff in Hin. destruct Hin as ([c' b'] & E & _). injection E as <- <- _ _. exact H. Qed.
Lemma adds_cons ls x (t : list (event D C)) : (forall l i c b, x <> EvAdd l i c b) -> adds_in ls t -> adds_in ls (x :: t).
Proof. intros Hx H l i c b [E|E]; [exfalso; eapply Hx; eauto|eauto]. Qed.
Lemma adds_more ls ls' (t : list (event D C)) : incl ls ls' -> adds_in ls t -> adds_in ls' t.
Proof. intros H1 H2 l i c b H. apply H1. eauto. Qed.
Lemma sweep_adds limit (d : D) ls t v : sweep limit d ls t v -> adds_in ls t.
Proof.
  induction 1 as [| | |? ? ? ? ? ? ? ? ? ? ? ? IH].
  - intros ? ? ? ? [].
  - apply adds_cons; [discriminate|]. intros ? ? ? ? [].
  - apply adds_cons; [discriminate|]. apply adds_cons; [discriminate|]. apply offers_in. left; auto.
  - apply adds_cons; [discriminate|]. apply adds_cons; [discriminate|]. apply adds_app; [apply offers_in; left; auto|]. eapply adds_more; [|exact IH]. apply incl_tl, incl_refl.
Qed.
Lemma iteration_adds limit ns (t : list (event D C)) v : iteration_trace limit ns t v -> adds_in (all_subproblems ns) t.
Proof.
  intros [d b r evs v' H]. apply adds_cons; [discriminate|]. apply adds_cons; [discriminate|]. apply adds_app; [destruct r; [apply adds_cons; [discriminate|]|]; intros ? ? ? ? []|].
  apply adds_app; [|eapply sweep_adds; eauto]. intros l i c b' Hin. apply in_map_iff in Hin. destruct Hin as (? & E & _). discriminate.
Qed.
Lemma loop_adds max limit ns k (t : list (event D C)) e : loop_trace max limit ns k t e -> adds_in (all_subproblems ns) t.
Proof.
  induction 1 as [| ? ? ? H| ? ? ? H|? ? ? ? ? H ? IH]; [intros ? ? ? ? []| | |apply adds_app; [|exact IH]]; eapply iteration_adds; eauto.
Qed.
Lemma fit_adds max limit ns ip (t : list (event D C)) e : fit_trace max limit ns ip t e -> adds_in (all_subproblems ns) t.
Proof.
  intros (evs & H & ->). apply adds_cons; [discriminate|]. apply adds_app; [eapply loop_adds; eauto|]. destruct ip; [apply adds_cons; [discriminate|]|]; intros ? ? ? ? [].
Qed.

Definition total (t : list (event D C)) (ls : list (nat * nat)) : nat := list_sum (map (fun li => count (is_add (fst li) (snd li)) t) ls).
Lemma count_cons p x (t : list (event D C)) : count p (x :: t) = (if p x then 1 else 0) + count p t.
Proof. unfold count. cbn [filter]. destruct (p x); reflexivity. Qed.
Lemma total_cons x t ls : total (x :: t) ls = list_sum (map (fun li => if is_add (fst li) (snd li) x then 1 else 0) ls) + total t ls.
Proof. unfold total. induction ls as [|li ls IH]; [reflexivity|]. cbn [map list_sum fold_right]. unfold list_sum in *. rewrite IH, count_cons. lia. Qed.
Lemma one_hit (l i : nat) ls : NoDup ls -> list_sum (map (fun li : nat * nat => if ((l =? fst li) && (i =? snd li))%bool then 1 else 0) ls) = if existsb (fun li => (l =? fst li) && (i =? snd li))%bool ls then 1 else 0.
Proof.
  induction 1 as [|[a b] ls Hn H IH]; [reflexivity|]. cbn [map list_sum fold_right existsb fst snd]. unfold list_sum in IH. rewrite IH. destruct ((l =? a) && (i =? b))%bool eqn:E; cbn [orb]; [|reflexivity].
  apply andb_true_iff in E. rewrite !Nat.eqb_eq in E. destruct E as [<- <-]. destruct (existsb _ ls) eqn:Ex; [|reflexivity]. exfalso. apply Hn.
  apply existsb_exists in Ex. destruct Ex as ([a b] & Hin & E). cbn [fst snd] in E. apply andb_true_iff in E. rewrite !Nat.eqb_eq in E. destruct E as [<- <-]. exact Hin.
Qed.
Lemma total_all ls (t : list (event D C)) : NoDup ls -> adds_in ls t -> total t ls = count is_added t.
Proof.
  intros Hn. induction t as [|x t IH]; intros Ha; [unfold total; clear; induction ls as [|a ls IH]; [reflexivity|exact IH]|].
  rewrite total_cons, count_cons. rewrite IH by (intros l i c b H; eapply Ha; right; eauto). f_equal.
  assert (Z : forall (f : nat * nat -> nat), (forall li, f li = 0) -> list_sum (map f ls) = 0) by (intros f Hf; clear - Hf; induction ls as [|a ls IHl]; [reflexivity|]; cbn; rewrite Hf; exact IHl).
  destruct x as [| | | | | | |l i c b|]; cbn [is_added]; try (apply Z; reflexivity). destruct b.
  - assert (E : existsb (fun li => (l =? fst li) && (i =? snd li))%bool ls = true).
    { apply existsb_exists. exists (l, i). split; [eapply Ha; left; reflexivity|]. cbn. rewrite !Nat.eqb_refl. reflexivity. }
    rewrite (map_ext _ (fun li : nat * nat => if ((l =? fst li) && (i =? snd li))%bool then 1 else 0)) by (intros; cbn; rewrite andb_true_r; reflexivity).
    rewrite one_hit, E by exact Hn. reflexivity.
  - apply Z. intros li. cbn. rewrite andb_false_r. reflexivity.
Qed.
End Trace.

Lemma sum_nth (l : list nat) (f : nat -> nat) : (forall i, nth i l 0 = f i) -> list_sum l = list_sum (map f (seq 0 (length l))).
Proof.
  intros H. apply f_equal. apply (nth_ext _ _ 0 0); [rewrite List.map_length, List.seq_length; reflexivity|]. intros i Hi. rewrite H.
  rewrite (nth_indep _ 0 (f 0)) by (rewrite List.map_length, List.seq_length; exact Hi). rewrite List.map_nth, List.seq_nth by exact Hi. reflexivity.
Qed.
(** Two levels: the two reported numbers add up to the number of successful add_column calls. *)
Lemma cols_total {W D C} (E : env W D C) n fuel y s s' t : levels E = [1; n] -> fit E fuel y s = (s', Done tt) -> f_trace s' = f_trace s ++ t ->
  exists c0 l1, f_cols s' = [[c0]; l1] /\ c0 + list_sum l1 = count is_added t.
Proof.
  intros El Ef Et. destruct (C11_column_accounting _ _ _ _ _ _ _ _ _ t Ef Et) as (Hsh & Hn & _). rewrite El in Hsh.
  destruct (f_cols s') as [|l0 [|l1 [|]]]; try discriminate. cbn in Hsh. injection Hsh as H0 H1. destruct l0 as [|c0 [|]]; try discriminate.
  exists c0, l1. split; [reflexivity|]. destruct (C10_call_protocol _ _ _ _ _ _ _ _ _ Ef) as (t' & e & Et' & Ft). rewrite Et in Et'. apply app_inv_head in Et'. subst t'.
  apply fit_adds in Ft. rewrite El in Ft. rewrite <- (total_all (all_subproblems [1; n]) t); [|clear; cbn; rewrite app_nil_r; constructor; [intros H; apply in_map_iff in H; destruct H as (? & ? & _); discriminate|apply FinFun.Injective_map_NoDup; [intros a b E; congruence|apply seq_NoDup]]|exact Ft].
  unfold total. cbn [all_subproblems subproblems_from seq map app]. rewrite app_nil_r, map_map. cbn [list_sum fold_right fst snd]. fold (list_sum (map (fun x => count (is_add 1 x) t) (seq 0 n))).
  rewrite <- H1. rewrite <- (sum_nth l1 (fun i => count (is_add 1 i) t)) by (intros i; exact (Hn 1 i)). f_equal. exact (Hn 0 0).
Qed.

(** * The columns themselves *)
Lemma cut_rounds_paths sv : forall n s new out s', cut_rounds sv n s new = Ok (out, s') -> tm_paths s' = tm_paths s.
Proof.
  induction n as [|n IH]; intros s new out s' E; cbn [cut_rounds] in E; [injection E as _ <-; reflexivity|].
  destruct (tm_answer s) as [[x pi]|]; [|injection E as _ <-; reflexivity].
  assert (B : forall nb s2, (if tm_beta_cuts (store_lp_solution x s) then add_beta_cuts (store_lp_solution x s) else Ok (0, store_lp_solution x s)) = Ok (nb, s2) -> tm_paths s2 = tm_paths s).
  { intros nb s2 E2. destruct (tm_beta_cuts _); [|injection E2 as _ <-; reflexivity]. unfold add_beta_cuts in E2. destruct (assert _); [|discriminate]. cbn [bind] in E2.
    destruct (tm_data_rows _); [|discriminate]. cbn [bind] in E2. destruct (beta_loop _ _ _ _ _) as [[num [[m rc] ad]]|]; [|discriminate]. cbn [bind] in E2. injection E2 as _ <-. reflexivity. }
  destruct (if tm_beta_cuts _ then _ else _) as [[nb s2]|] eqn:E2; [|discriminate]. cbn [bind] in E. specialize (B nb s2 eq_refl).
  assert (G : forall cr s3, (if (tm_gen_cuts s2 && (nb =? 0))%bool then add_cuts (tv_cuts sv (tm_calls s2)) s2 else Ok ([], s2)) = Ok (cr, s3) -> tm_paths s3 = tm_paths s).
  { intros cr s3 E3. destruct (tm_gen_cuts s2 && _)%bool; [|injection E3 as _ <-; exact B]. unfold add_cuts in E3. destruct (map_res _ _); [|discriminate]. cbn [bind] in E3.
    destruct (length _ =? 0); [injection E3 as _ <-; exact B|]. destruct (for_each _ _ _); [|discriminate]. cbn [bind] in E3. destruct (for_each _ _ _) as [[[m cs] ad]|]; [|discriminate]. cbn [bind] in E3. injection E3 as _ <-. exact B. }
  destruct (if (tm_gen_cuts s2 && _)%bool then _ else _) as [[cr s3]|] eqn:E3; [|discriminate]. cbn [bind] in E. specialize (G cr s3 eq_refl).
  destruct ((0 <? length cr) || (0 <? nb))%bool; [apply IH in E; rewrite E; exact G|injection E as _ <-; exact G].
Qed.
Lemma solve_rmp_paths sv s d s' : solve_rmp sv s = Ok (d, s') -> tm_paths s' = tm_paths s.
Proof.
  unfold solve_rmp. destruct (assert _); [|discriminate]. cbn [bind]. intros E.
  destruct (if _ =? 0 then _ else _) as [[nc s2]|] eqn:E2; [|discriminate]. cbn [bind] in E.
  assert (P : tm_paths s2 = tm_paths s) by (destruct (_ =? 0); [apply cut_rounds_paths in E2; exact E2|injection E2 as _ <-; reflexivity]).
  destruct (tm_answer s2) as [[x pi]|]; [|injection E as _ <-; exact P]. destruct (read_duals _ _ _); [|discriminate]. cbn [bind] in E. injection E as _ <-. exact P.
Qed.

Lemma make_vars_bare ps : forall m acc, map bare (snd (fold_left (fun st p => let '(m, ps) := st in let '(v, m1) := new_var (Some 0%Q) None true m in (set_obj v (p_cost p) m1, ps ++ [with_id p v])) ps (m, acc))) = map bare acc ++ map bare ps.
Proof.
  induction ps as [|p ps IH]; intros m acc; cbn [fold_left]; [rewrite app_nil_r; reflexivity|]. cbn [new_var]. rewrite IH, map_app, <- app_assoc. reflexivity.
Qed.
Lemma generate_mp_paths X y s s' : generate_mp X y s = Ok s' -> map bare (tm_paths s') = map bare (tm_paths s).
Proof.
  unfold generate_mp. destruct (tm_generated s); [intros E; injection E as <-; reflexivity|]. destruct (create_cut_gen_model _ _ _); [|discriminate]. cbn [bind].
  destruct (make_path_vars (tm_paths s) (tm_lp s)) as [m1 ps] eqn:Em. destruct (make_leaf_cons _ _ _) as [[m3 lc]|]; [|discriminate]. cbn [bind].
  destruct (match tm_rows s with None => _ | Some _ => _ end) as [[ns rows]|]; [|discriminate]. cbn [bind]. destruct (make_row_cons _ _ _ _ _ _ _) as [[[m4 rc] ad]|]; [|discriminate]. cbn [bind].
  destruct (for_ns _ _ _ _) as [[[m5 nv] nc]|]; [|discriminate]. cbn [bind]. intros E. injection E as <-. cbn [tm_paths].
  unfold make_path_vars in Em. pose proof (make_vars_bare (tm_paths s) (tm_lp s) []) as G. rewrite Em in G. exact G.
Qed.

Lemma added_app {D} (t1 t2 : list (event D path)) : added_paths (t1 ++ t2) = added_paths t1 ++ added_paths t2.
Proof. unfold added_paths. apply flat_map_app. Qed.
Lemma added_count {D} (t : list (event D path)) : length (added_paths t) = count is_added t.
Proof. induction t as [|x t IH]; [reflexivity|]. rewrite count_cons, <- IH. unfold added_paths. cbn [flat_map]. rewrite app_length. f_equal. destruct x as [| | | | | | |l i c b|]; try reflexivity. destruct b; reflexivity. Qed.

Lemma tree_fit_paths sv A clk X y fuel s s' : tree_fit sv A clk X y fuel s = (s', Done tt) -> f_trace s = [] ->
  map bare (tm_paths (tw_master (f_world s'))) = map bare (tm_paths (tw_master (f_world s))) ++ map bare (added_paths (f_trace s')).
Proof.
  intros E Et. set (P := map bare (tm_paths (tw_master (f_world s)))).
  refine (fit_invariant (tree_env sv A clk X y) (fun w t => map bare (tm_paths (tw_master w)) = P ++ map bare (added_paths t)) _ _ _ _ _ _ _ _ fuel _ s s' E _).
  - intros w t d w' H I. cbn [c_solve_rmp tree_env] in H. unfold tree_solve_rmp in H. destruct (solve_rmp _ _) as [[d' s1]|] eqn:Es; [|discriminate]. cbn [bind] in H. injection H as _ <-.
    cbn [tw_master]. rewrite added_app, app_nil_r, (solve_rmp_paths _ _ _ _ Es). exact I.
  - intros w t b w' H I. cbn [c_improved tree_env] in H. injection H as _ <-. rewrite added_app, app_nil_r. exact I.
  - intros w t I. cbn. exact I.
  - intros l i d w t w' H I. cbn [c_update tree_env] in H. unfold tree_update in H. rewrite added_app, app_nil_r. destruct (l =? 0).
    + destruct (heur_update _ _ _) as [[h sp]|]; [|discriminate]. cbn [bind] in H. injection H as <-. exact I.
    + destruct (getitem _ i) as [[c lf]|]; [|discriminate]. cbn [bind] in H. destruct (getitem (tw_subs w) i) as [[sub pr]|]; [|discriminate]. cbn [bind] in H.
      destruct (update_subproblem _ _ _ _ _ _ _ _ _ _ _); [|discriminate]. cbn [bind] in H. injection H as <-. exact I.
  - intros l i e w t I. rewrite added_app, app_nil_r. exact I.
  - intros l i d w t cols w' H I. cbn [c_generate tree_env] in H. unfold tree_generate in H. rewrite added_app, app_nil_r. destruct (l =? 0).
    + destruct (heur_generate _ _ _ _ _ _ _ _ _ _) as [[ps h]|]; [|discriminate]. cbn [bind] in H. injection H as _ <-. exact I.
    + destruct (getitem _ i) as [[c lf]|]; [|discriminate]. cbn [bind] in H. destruct (getitem (tw_subs w) i) as [[sub pr]|]; [|discriminate]. cbn [bind] in H. destruct (is_sat c).
      * destruct (sat_generate _ _ _ _ _ _ _ _ _ _ _ _ _ _) as [[ps [sub1 pr1]]|]; [|discriminate]. cbn [bind] in H. injection H as _ <-. exact I.
      * destruct (mip_generate _ _ _ _ _ _ _ _ _) as [ps|]; [|discriminate]. cbn [bind] in H. injection H as _ <-. exact I.
  - intros l i c w t b w' H I. cbn [c_add tree_env] in H. unfold tree_add in H. destruct (add_column c (tw_master w)) as [[b' s1]|] eqn:Ea; [|discriminate]. cbn [bind] in H. injection H as <- <-.
    cbn [tw_master]. rewrite added_app, map_app. assert (G : b' = true /\ exists v, tm_paths s1 = tm_paths (tw_master w) ++ [with_id c v]).
    { clear - Ea. unfold add_column in Ea. cbn [new_var] in Ea. destruct (column_leaf _ _ _ _ _); [|discriminate]. cbn [bind] in Ea. destruct (getitem _ _); [|discriminate]. cbn [bind] in Ea.
      destruct (get_satisfied_rows _ _ _); [|discriminate]. cbn [bind] in Ea. destruct (tm_data_rows _); [|discriminate]. cbn [bind] in Ea. destruct (column_rows _ _ _ _ _) as [[m4 r1]|]; [|discriminate]. cbn [bind] in Ea.
      destruct (for_ns _ _ _ _); [|discriminate]. cbn [bind] in Ea. destruct (get_satisfied_cuts _ _ _); [|discriminate]. cbn [bind] in Ea. destruct (column_cuts _ _ _ _); [|discriminate]. cbn [bind] in Ea.
      destruct (path_literals _ _ _); [|discriminate]. cbn [bind] in Ea. injection Ea as <- <-. split; [reflexivity|]. eexists. reflexivity. }
    destruct G as [-> (v & ->)]. rewrite map_app, I, <- app_assoc. reflexivity.
  - intros w t b w' H I. cbn [c_solve_ip tree_env] in H. unfold tree_solve_ip in H. destruct (solve_ip _ _) as [[b' s1]|] eqn:Es; [|discriminate]. cbn [bind] in H. injection H as _ <-.
    cbn [tw_master]. rewrite added_app, app_nil_r. unfold solve_ip in Es. destruct (assert _); [|discriminate]. cbn [bind] in Es. destruct (tv_ip _ _ _); [|discriminate]. injection Es as _ <-. exact I.
  - intros w H. rewrite Et. cbn [c_generate_mp tree_env] in H. unfold tree_generate_mp in H. destruct (generate_mp X y _) as [s1|] eqn:Eg; [|discriminate]. cbn [bind] in H. injection H as <-.
    cbn [tw_master added_paths flat_map app map]. rewrite app_nil_r. apply (generate_mp_paths X y _ _ Eg).
Qed.

(** * The statistics of the heuristic *)
Lemma heur_round_counts rand order n y rows leaves nodes splits dl g f k g' f' k' :
  heur_round rand order n y rows leaves nodes splits dl (g, f, k) = Ok (g', f', k') -> length g' + f' = S (length g + f).
Proof.
  unfold heur_round. destruct (choice rand k leaves) as [[lf k1]|]; [|discriminate]. cbn [bind]. destruct (pick_splits _ _ _ _ _) as [[ch k2]|]; [|discriminate]. cbn [bind].
  destruct ch as [ss|]; [|intros E; injection E as <- <- _; lia]. destruct (get_satisfied_rows _ _ _); [|discriminate]. cbn [bind]. destruct (choose_target _ _ _ _) as [[flags [target count]]|]; [|discriminate]. cbn [bind].
  destruct (same_as_any _ _) as [[|]|]; cbn [bind]; [intros E; injection E as <- <- _; lia| |discriminate]. destruct (get_reduced_cost _ _ _ _ _ _) as [rc|]; [|discriminate]. cbn [bind].
  destruct (Qltb teps rc); intros E; injection E as <- <- _; rewrite ?app_length; cbn [length]; lia.
Qed.
Lemma heur_rounds_counts body : (forall g f k g' f' k', body (g, f, k) = Ok (g', f', k') -> length g' + f' = S (length g + f)) ->
  forall n g f k g' f' k', heur_rounds n body (g, f, k) = Ok (g', f', k') -> length g' + f' = n + (length g + f).
Proof.
  intros Hb. induction n as [|n IH]; intros g f k g' f' k' E; cbn [heur_rounds] in E; [injection E as <- <- _; reflexivity|].
  destruct (body (g, f, k)) as [[[g1 f1] k1]|] eqn:E1; [|discriminate]. cbn [bind] in E. apply IH in E. apply Hb in E1. lia.
Qed.
Lemma heur_counts rand order n y rows leaves nodes splits dl h ps h' : heur_generate rand order n y rows leaves nodes splits dl h = Ok (ps, h') ->
  h_success h' = h_success h + length ps /\ h_success h' + h_failed h' = 100 + (h_success h + h_failed h).
Proof.
  unfold heur_generate. destruct (heur_rounds _ _ _) as [[[g f] k]|] eqn:E; [|discriminate]. cbn [bind]. intros E'. injection E' as <- <-. cbn [h_success h_failed]. split; [reflexivity|].
  eapply heur_rounds_counts in E; [|intros g0 f0 k0 g1 f1 k1 H; eapply heur_round_counts; exact H]. cbn [length] in E. lia.
Qed.
Lemma heuristic_stats sv A clk X y fuel s s' : tree_fit sv A clk X y fuel s = (s', Done tt) -> f_trace s = [] -> tw_heur (f_world s) = heur_init ->
  let h := tw_heur (f_world s') in h_success h = heuristic_paths (f_trace s') /\ h_success h + h_failed h = 100 * heuristic_calls (f_trace s').
Proof.
  intros E Et Eh.
  assert (P : forall t1 t2 : list (event tduals path), heuristic_paths (t1 ++ t2) = heuristic_paths t1 + heuristic_paths t2) by (intros; unfold heuristic_paths; rewrite map_app, list_sum_app; reflexivity).
  assert (Cc : forall t1 t2 : list (event tduals path), heuristic_calls (t1 ++ t2) = heuristic_calls t1 + heuristic_calls t2) by (intros; unfold heuristic_calls; rewrite filter_app, app_length; reflexivity).
  refine (fit_invariant (tree_env sv A clk X y) (fun w t => h_success (tw_heur w) = heuristic_paths t /\ h_success (tw_heur w) + h_failed (tw_heur w) = 100 * heuristic_calls t) _ _ _ _ _ _ _ _ fuel _ s s' E _).
  - intros w t d w' H I. rewrite P, Cc. change (heuristic_paths [EvSolveRmp d]) with 0. change (heuristic_calls [EvSolveRmp d]) with 0. rewrite !Nat.add_0_r.
    cbn [c_solve_rmp tree_env] in H. unfold tree_solve_rmp in H. destruct (solve_rmp _ _) as [[d' s1]|]; [|discriminate]. cbn [bind] in H. injection H as _ <-. exact I.
  - intros w t b w' H I. rewrite P, Cc. change (heuristic_paths [EvImproved b]) with 0. change (heuristic_calls [EvImproved b]) with 0. rewrite !Nat.add_0_r. cbn [c_improved tree_env] in H. injection H as _ <-. exact I.
  - intros w t I. exact I.
  - intros l i d w t w' H I. rewrite P, Cc. change (heuristic_paths [EvUpdate l i d]) with 0. change (heuristic_calls [EvUpdate l i d]) with 0. rewrite !Nat.add_0_r.
    cbn [c_update tree_env] in H. unfold tree_update in H. destruct (l =? 0).
    + destruct (heur_update _ _ _) as [[h sp]|] eqn:Eu; [|discriminate]. cbn [bind] in H. injection H as <-. cbn [tw_heur]. unfold heur_update in Eu. destruct (for_each _ _ _); [|discriminate]. cbn [bind] in Eu. injection Eu as <- _. exact I.
    + destruct (getitem _ i) as [[c lf]|]; [|discriminate]. cbn [bind] in H. destruct (getitem (tw_subs w) i) as [[sub pr]|]; [|discriminate]. cbn [bind] in H.
      destruct (update_subproblem _ _ _ _ _ _ _ _ _ _ _); [|discriminate]. cbn [bind] in H. injection H as <-. exact I.
  - intros l i e w t I. rewrite P, Cc. change (heuristic_paths [EvCheck l i e]) with 0. change (heuristic_calls [EvCheck l i e]) with 0. rewrite !Nat.add_0_r. exact I.
  - intros l i d w t cols w' H [I1 I2]. rewrite P, Cc. cbn [c_generate tree_env] in H. unfold tree_generate in H. destruct l as [|l].
    + change (0 =? 0) with true in H. cbv iota in H. destruct (heur_generate _ _ _ _ _ _ _ _ _ _) as [[ps h]|] eqn:Eg; [|discriminate]. cbn [bind] in H. injection H as <- <-. cbn [tw_heur]. apply heur_counts in Eg. destruct Eg as [G1 G2].
      unfold heuristic_paths at 2, heuristic_calls at 2. cbn [map filter list_sum fold_right length]. lia.
    + change (heuristic_paths [EvGenerate (S l) i d cols]) with 0. change (heuristic_calls [EvGenerate (S l) i d cols]) with 0. rewrite !Nat.add_0_r. change (S l =? 0) with false in H. cbv iota in H.
      destruct (getitem _ i) as [[c lf]|]; [|discriminate]. cbn [bind] in H. destruct (getitem (tw_subs w) i) as [[sub pr]|]; [|discriminate]. cbn [bind] in H. destruct (is_sat c).
      * destruct (sat_generate _ _ _ _ _ _ _ _ _ _ _ _ _ _) as [[ps [sub1 pr1]]|]; [|discriminate]. cbn [bind] in H. injection H as _ <-. auto.
      * destruct (mip_generate _ _ _ _ _ _ _ _ _) as [ps|]; [|discriminate]. cbn [bind] in H. injection H as _ <-. auto.
  - intros l i c w t b w' H I. rewrite P, Cc. change (heuristic_paths [EvAdd l i c b]) with 0. change (heuristic_calls [EvAdd l i c b]) with 0. rewrite !Nat.add_0_r.
    cbn [c_add tree_env] in H. unfold tree_add in H. destruct (add_column c (tw_master w)) as [[b' s1]|]; [|discriminate]. cbn [bind] in H. injection H as _ <-. exact I.
  - intros w t b w' H I. rewrite P, Cc. change (heuristic_paths [EvSolveIp b]) with 0. change (heuristic_calls [EvSolveIp b]) with 0. rewrite !Nat.add_0_r.
    cbn [c_solve_ip tree_env] in H. unfold tree_solve_ip in H. destruct (solve_ip _ _) as [[b' s1]|]; [|discriminate]. cbn [bind] in H. injection H as _ <-. exact I.
  - intros w H. rewrite Et. cbn [c_generate_mp tree_env] in H. unfold tree_generate_mp in H. destruct (generate_mp X y _) as [s1|]; [|discriminate]. cbn [bind] in H. injection H as <-. cbn [tw_heur]. rewrite Eh. split; reflexivity.
Qed.

(** The counter total_cuts_added counts the constraints that cut rounds add. *)
From Verif Require Import Base Lp FitModel SpecFit TreeModel TreePricingModel TreeFitModel SpecReport FitEventProofs TreeRunProofs.
Open Scope nat_scope.

Lemma map_nth_length {A} (f : A -> A) l : forall i, length (map_nth f l i) = length l.
Proof. induction l as [|a l IH]; intros [|i]; cbn; auto. Qed.
Lemma set_coef_cons c v q m : num_cons (set_coef c v q m) = num_cons m.
Proof. unfold num_cons. cbn [lp_cons set_coef]. apply map_nth_length. Qed.
Lemma marked_app l1 l2 : marked (l1 ++ l2) = marked l1 + marked l2.
Proof. unfold marked. rewrite filter_app, app_length. reflexivity. Qed.
Lemma marked_set l : forall i, nth_error l i = Some false -> marked (set_nth l i true) = S (marked l).
Proof.
  induction l as [|b l IH]; intros [|i] H; try discriminate; cbn [nth_error] in H.
  - injection H as ->. reflexivity.
  - specialize (IH i H). unfold marked in *. cbn [set_nth filter]. destruct b; cbn [length]; rewrite IH; reflexivity.
Qed.
Lemma setitem_inv {A} (l l' : list A) i a : setitem l i a = Ok l' -> l' = set_nth l i a /\ i < length l.
Proof. unfold setitem. destruct (Nat.ltb_spec i (length l)); [|discriminate]. intros E. injection E as <-. auto. Qed.
Lemma set_nth_len {A} (l : list A) : forall i a, length (set_nth l i a) = length l.
Proof. induction l as [|b l IH]; intros [|i] a; cbn; auto. Qed.
Lemma fold_coef_cons (f : nat -> nat) (q : Q) c l : forall m, num_cons (fold_left (fun m i => set_coef c (f i) q m) l m) = num_cons m.
Proof. induction l as [|i l IH]; intros m; cbn [fold_left]; [reflexivity|]. rewrite IH. apply set_coef_cons. Qed.

Lemma beta_count rows values rs : forall m cs ad num num' m' cs' ad',
  beta_loop rows values rs (m, cs, ad) num = Ok (num', (m', cs', ad')) ->
  num' + num_cons m = num + num_cons m' /\ num' + marked ad = num + marked ad' /\ length ad' = length ad.
Proof.
  induction rs as [|r rs IH]; intros m cs ad num num' m' cs' ad' E; cbn [beta_loop] in E; [injection E as <- <- <- <-; auto|].
  destruct (getitem rows r) as [dr|]; [|discriminate]. cbn [bind] in E. destruct (r_gone dr); [eapply IH; eauto|].
  destruct (10 <=? num); [injection E as <- <- <- <-; auto|]. destruct (getitem ad r) as [a|] eqn:Ea; [|discriminate]. cbn [bind] in E.
  destruct a; [eapply IH; eauto|]. destruct (violated_row_constraint values (r_paths dr)) as [v|]; [|discriminate]. cbn [bind] in E. destruct v; [|eapply IH; eauto].
  destruct (setitem ad r true) as [ad1|] eqn:E1; [|discriminate]. cbn [bind new_con] in E. destruct (setitem cs r _) as [cs1|]; [|discriminate]. cbn [bind] in E.
  apply setitem_inv in E1. destruct E1 as [-> Hr]. apply getitem_ok in Ea. apply IH in E. destruct E as (H1 & H2 & H3).
  rewrite (fold_coef_cons (fun i => i)) in H1. rewrite marked_set in H2 by exact Ea. rewrite set_nth_len in H3. unfold num_cons in *. cbn [lp_cons] in H1. rewrite app_length in H1. cbn [length] in H1. lia.
Qed.
Lemma make_cut_count paths cut m cs ad m' cs' ad' : make_cut_con paths cut (m, cs, ad) = Ok (m', cs', ad') ->
  num_cons m' = S (num_cons m) /\ ad' = ad ++ [true].
Proof.
  unfold make_cut_con. cbn [new_con]. destruct (for_each _ _ _) as [m2|] eqn:E; [|discriminate]. cbn [bind]. intros E'. injection E' as <- _ <-. split; [|reflexivity].
  refine (for_each_inv _ _ (fun m => num_cons m = _) _ _ _ _ E).
  - intros i m3 m4 _ H E3. destruct (getitem paths i); [|discriminate]. cbn [bind] in E3. destruct (getitem cut i) as [b|]; [|discriminate]. cbn [bind] in E3. injection E3 as <-. destruct b; [rewrite set_coef_cons|]; exact H.
  - unfold num_cons. cbn [lp_cons]. rewrite app_length. cbn. lia.
Qed.
Lemma make_cuts_count paths : forall cuts m cs ad m' cs' ad', for_each cuts (fun c st => make_cut_con paths (fst c) st) (m, cs, ad) = Ok (m', cs', ad') ->
  num_cons m' = num_cons m + length (cuts : list (list bool * list bool)) /\ ad' = ad ++ repeat true (length cuts).
Proof.
  induction cuts as [|c cuts IH]; intros m cs ad m' cs' ad' E; cbn [for_each] in E; [injection E as <- _ <-; cbn; rewrite app_nil_r; auto|].
  destruct (make_cut_con paths (fst c) (m, cs, ad)) as [[[m1 cs1] ad1]|] eqn:E1; [|discriminate]. cbn [bind] in E. apply make_cut_count in E1. destruct E1 as [H1 ->].
  apply IH in E. destruct E as [H2 ->]. cbn [length repeat]. rewrite <- app_assoc. cbn [app]. split; [lia|reflexivity].
Qed.
Lemma marked_repeat k : marked (repeat true k) = k.
Proof. unfold marked. induction k as [|k IH]; cbn; [reflexivity|f_equal; exact IH]. Qed.

(** [s'] has [k] more constraints than [s] and as many more marks. *)
Definition grown (k : nat) (s s' : tmaster) : Prop :=
  num_cons (tm_lp s') = num_cons (tm_lp s) + k /\ marked (tm_added s') = marked (tm_added s) + k /\ tm_total_cuts s' = tm_total_cuts s /\
  tm_gen_cuts s' = tm_gen_cuts s /\ tm_beta_cuts s' = tm_beta_cuts s.
Lemma beta_cuts_grown s k s' : add_beta_cuts s = Ok (k, s') -> grown k s s' /\ length (tm_added s') = length (tm_added s).
Proof.
  unfold add_beta_cuts. destruct (assert _); [|discriminate]. cbn [bind]. destruct (tm_data_rows s); [|discriminate]. cbn [bind].
  destruct (beta_loop _ _ _ _ _) as [[num [[m rc] ad]]|] eqn:E; [|discriminate]. cbn [bind]. intros E'. injection E' as <- <-. apply beta_count in E.
  unfold grown. cbn [tm_lp tm_added tm_total_cuts tm_gen_cuts tm_beta_cuts with_cons]. repeat split; lia.
Qed.
Lemma cuts_grown sols s rows s' : add_cuts sols s = Ok (rows, s') -> grown (length rows) s s' /\ length (tm_added s') = length (tm_added s) + length rows.
Proof.
  unfold add_cuts. destruct (map_res _ _); [|discriminate]. cbn [bind]. set (cuts := fold_left _ _ _). destruct (length cuts =? 0); [intros E; injection E as <- <-; unfold grown; cbn; repeat split; lia|].
  destruct (for_each _ _ _); [|discriminate]. cbn [bind]. destruct (for_each _ _ _) as [[[m cs] ad]|] eqn:E; [|discriminate]. cbn [bind]. intros E'. injection E' as <- <-. apply make_cuts_count in E. destruct E as [H1 ->].
  unfold grown. cbn [tm_lp tm_added tm_total_cuts tm_gen_cuts tm_beta_cuts with_cons]. rewrite H1, marked_app, marked_repeat, map_length, app_length, repeat_length. repeat split; lia.
Qed.

(** The counter moves with the constraints and the marks; marks are made for rows as long as no cuts are generated. *)
Definition counted (s s' : tmaster) : Prop :=
  tm_total_cuts s' + num_cons (tm_lp s) = tm_total_cuts s + num_cons (tm_lp s') /\
  tm_total_cuts s' + marked (tm_added s) = tm_total_cuts s + marked (tm_added s') /\
  tm_gen_cuts s' = tm_gen_cuts s /\ (tm_gen_cuts s = false -> length (tm_added s') = length (tm_added s)) /\ tm_total_cuts s <= tm_total_cuts s' /\
  tm_beta_cuts s' = tm_beta_cuts s /\ (tm_beta_cuts s = false -> tm_gen_cuts s = false -> tm_total_cuts s' = tm_total_cuts s).
Lemma counted_refl s : counted s s.
Proof. unfold counted. repeat split; lia. Qed.
Lemma counted_trans a b c : counted a b -> counted b c -> counted a c.
Proof.
  unfold counted. intros (H1 & H2 & H3 & H4 & H5 & H6 & H7) (G1 & G2 & G3 & G4 & G5 & G6 & G7). repeat split; try lia; try congruence.
  - intros H. rewrite G4, H4; congruence.
  - intros Hb Hg. rewrite G7, H7; congruence.
Qed.
Lemma counted_same s s' : tm_total_cuts s' = tm_total_cuts s -> num_cons (tm_lp s') = num_cons (tm_lp s) -> tm_added s' = tm_added s -> tm_gen_cuts s' = tm_gen_cuts s ->
  tm_beta_cuts s' = tm_beta_cuts s -> counted s s'.
Proof. unfold counted. intros -> -> -> -> ->. repeat split; lia. Qed.
Lemma rounds_counted sv : forall n s new out s', cut_rounds sv n s new = Ok (out, s') -> counted s s'.
Proof.
  induction n as [|n IH]; intros s new out s' E; cbn [cut_rounds] in E; [injection E as _ <-; apply counted_refl|].
  destruct (tm_answer s) as [[x pi]|]; [|injection E as _ <-; apply counted_refl].
  set (s1 := store_lp_solution x s) in *. assert (C1 : counted s s1) by (apply counted_same; reflexivity).
  assert (B : forall nb s2, (if tm_beta_cuts s1 then add_beta_cuts s1 else Ok (0, s1)) = Ok (nb, s2) -> grown nb s1 s2 /\ length (tm_added s2) = length (tm_added s1) /\ (tm_beta_cuts s1 = false -> nb = 0)).
  { intros nb s2 E2. destruct (tm_beta_cuts s1) eqn:Eb; [apply beta_cuts_grown in E2; split; [apply E2|]; split; [apply E2|discriminate]|injection E2 as <- <-; unfold grown; repeat split; lia]. }
  destruct (if tm_beta_cuts s1 then _ else _) as [[nb s2]|] eqn:E2; [|discriminate]. cbn [bind] in E. destruct (B _ _ eq_refl) as [(B1 & B2 & B3 & B4 & B5) [B6 B7]]. clear B E2.
  assert (G : forall cr s3, (if (tm_gen_cuts s2 && (nb =? 0))%bool then add_cuts (tv_cuts sv (tm_calls s2)) s2 else Ok ([], s2)) = Ok (cr, s3) ->
    grown (length cr) s2 s3 /\ (tm_gen_cuts s2 = false -> length (tm_added s3) = length (tm_added s2) /\ length cr = 0)).
  { intros cr s3 E3. destruct (tm_gen_cuts s2); cbn [andb] in E3; [destruct (nb =? 0); [apply cuts_grown in E3; split; [apply E3|discriminate]|]|]; injection E3 as <- <-; unfold grown; cbn [length]; repeat split; lia. }
  destruct (if (tm_gen_cuts s2 && _)%bool then _ else _) as [[cr s3]|] eqn:E3; [|discriminate]. cbn [bind] in E. destruct (G _ _ eq_refl) as [(G1 & G2 & G3 & G4 & G5) G6]. clear G E3.
  assert (C4 : counted s (add_total (length cr + nb) s3)).
  { eapply counted_trans; [exact C1|]. unfold counted. cbn [tm_total_cuts tm_lp tm_added tm_gen_cuts tm_beta_cuts add_total]. repeat split; try lia; try congruence.
    - intros H. destruct G6 as [G6 _]; congruence.
    - intros H1 H2. destruct G6 as [_ G6]; [congruence|]. rewrite (B7 H1). lia. }
  destruct ((0 <? length cr) || (0 <? nb))%bool; [|injection E as _ <-; exact C4]. apply IH in E. eapply counted_trans; [exact C4|]. eapply counted_trans; [|exact E]. apply counted_same; reflexivity.
Qed.
Lemma solve_counted sv s d s' : solve_rmp sv s = Ok (d, s') -> counted s s'.
Proof.
  unfold solve_rmp. destruct (assert _); [|discriminate]. cbn [bind]. intros E.
  destruct (if _ =? 0 then _ else _) as [[nc s2]|] eqn:E2; [|discriminate]. cbn [bind] in E.
  assert (P : counted s s2) by (eapply counted_trans; [apply (counted_same s (solve_lp sv (start_iter s))); reflexivity|]; destruct (_ =? 0); [apply rounds_counted in E2; exact E2|injection E2 as _ <-; apply counted_refl]).
  destruct (tm_answer s2) as [[x pi]|]; [|injection E as _ <-; exact P]. destruct (read_duals _ _ _); [|discriminate]. cbn [bind] in E. injection E as _ <-.
  eapply counted_trans; [exact P|apply counted_same; reflexivity].
Qed.
Lemma con_one_cons cs i v m m' : set_con_one cs i v m = Ok m' -> num_cons m' = num_cons m.
Proof. unfold set_con_one. destruct (getitem cs i) as [[c|]|]; cbn [bind]; try discriminate. intros E. injection E as <-. apply set_coef_cons. Qed.
Lemma add_counted p s b s' : add_column p s = Ok (b, s') -> counted s s'.
Proof.
  unfold add_column. cbn [new_var]. intros E. set (m2 := set_obj _ _ _) in E. assert (H2 : num_cons m2 = num_cons (tm_lp s)) by reflexivity.
  destruct (column_leaf _ _ _ _ _) as [m3|] eqn:E3; [|discriminate]. cbn [bind] in E. assert (H3 : num_cons m3 = num_cons (tm_lp s)).
  { unfold column_leaf in E3. refine (for_each_inv _ _ (fun m => num_cons m = num_cons (tm_lp s)) _ _ _ H2 E3). intros lf m m' _ H Em. destruct (_ =? _); [rewrite (con_one_cons _ _ _ _ _ Em)|injection Em as <-]; exact H. }
  destruct (getitem _ _) as [lf|]; [|discriminate]. cbn [bind] in E. destruct (get_satisfied_rows _ _ _) as [sat|]; [|discriminate]. cbn [bind] in E. destruct (tm_data_rows s) as [rows|]; [|discriminate]. cbn [bind] in E.
  destruct (column_rows _ _ _ _ _) as [[m4 r1]|] eqn:E4; [|discriminate]. cbn [bind] in E. assert (H4 : num_cons m4 = num_cons (tm_lp s)).
  { unfold column_rows in E4. refine (for_each_inv _ _ (fun mr => num_cons (fst mr) = num_cons (tm_lp s)) (m3, rows) (m4, r1) _ H3 E4). intros r [m rs] [m' rs'] _ H Em. destruct (getitem rs r); [|discriminate]. cbn [bind] in Em.
    destruct (getitem (tm_added s) r) as [fl|]; [|discriminate]. cbn [bind] in Em. destruct fl; [|injection Em as <- _; exact H]. destruct (set_con_one _ _ _ m) as [m1|] eqn:E1; [|discriminate]. cbn [bind] in Em. injection Em as <- _.
    cbn [fst]. rewrite (con_one_cons _ _ _ _ _ E1). exact H. }
  destruct (for_ns _ _ _ _) as [m5|] eqn:E5; [|discriminate]. cbn [bind] in E. assert (H5 : num_cons m5 = num_cons (tm_lp s)).
  { unfold for_ns in E5. refine (for_each_inv _ _ (fun m => num_cons m = num_cons (tm_lp s)) _ _ _ H4 E5). intros lf' m m' _ H Em. cbv beta in Em.
    refine (for_each_inv _ _ (fun m => num_cons m = num_cons (tm_lp s)) _ _ _ H Em). intros i m1 m1' _ Hm Em1. cbv beta in Em1. destruct (getitem _ i) as [nd|]; [|discriminate]. cbn [bind] in Em1.
    refine (for_each_inv _ _ (fun m => num_cons m = num_cons (tm_lp s)) _ _ _ Hm Em1). intros k ma mb _ Hk Ek. cbv beta in Ek. unfold column_ns in Ek. destruct (lookup _ _ _); [|discriminate]. cbn [bind] in Ek.
    destruct (uses _ _ _ _) as [b'|]; [|discriminate]. cbn [bind] in Ek. injection Ek as <-. destruct b'; [rewrite set_coef_cons|]; exact Hk. }
  destruct (get_satisfied_cuts _ _ _) as [cuts|]; [|discriminate]. cbn [bind] in E. destruct (column_cuts _ _ _ _) as [m6|] eqn:E6; [|discriminate]. cbn [bind] in E. assert (H6 : num_cons m6 = num_cons (tm_lp s)).
  { unfold column_cuts in E6. refine (for_each_inv _ _ (fun m => num_cons m = num_cons (tm_lp s)) _ _ _ H5 E6). intros k m m' _ H Em. cbv beta in Em. destruct (getitem _ k); [|discriminate]. cbn [bind] in Em. injection Em as <-. rewrite set_coef_cons. exact H. }
  destruct (path_literals _ _ _); [|discriminate]. cbn [bind] in E. injection E as _ <-. apply counted_same; try reflexivity. exact H6.
Qed.

Lemma fit_counted sv A clk X y fuel s s' m0 : tree_fit sv A clk X y fuel s = (s', Done tt) -> generate_mp X y (tw_master (f_world s)) = Ok m0 ->
  counted m0 (tw_master (f_world s')).
Proof.
  intros E Em. refine (fit_invariant (tree_env sv A clk X y) (fun w _ => counted m0 (tw_master w)) _ _ _ _ _ _ _ _ fuel _ s s' E _).
  - intros w t d w' H I. cbn [c_solve_rmp tree_env] in H. unfold tree_solve_rmp in H. destruct (solve_rmp _ _) as [[d' s1]|] eqn:Es; [|discriminate]. cbn [bind] in H. injection H as _ <-.
    cbn [tw_master]. eapply counted_trans; [exact I|eapply solve_counted; eauto].
  - intros w t b w' H I. cbn [c_improved tree_env] in H. injection H as _ <-. exact I.
  - intros w t I. exact I.
  - intros l i d w t w' H I. cbn [c_update tree_env] in H. unfold tree_update in H. destruct (l =? 0).
    + destruct (heur_update _ _ _) as [[h sp]|]; [|discriminate]. cbn [bind] in H. injection H as <-. eapply counted_trans; [exact I|]. apply counted_same; reflexivity.
    + destruct (getitem _ i) as [[c lf]|]; [|discriminate]. cbn [bind] in H. destruct (getitem (tw_subs w) i) as [[sub pr]|]; [|discriminate]. cbn [bind] in H.
      destruct (update_subproblem _ _ _ _ _ _ _ _ _ _ _); [|discriminate]. cbn [bind] in H. injection H as <-. exact I.
  - intros l i e w t I. exact I.
  - intros l i d w t cols w' H I. cbn [c_generate tree_env] in H. unfold tree_generate in H. destruct (l =? 0).
    + destruct (heur_generate _ _ _ _ _ _ _ _ _ _) as [[ps h]|]; [|discriminate]. cbn [bind] in H. injection H as _ <-. exact I.
    + destruct (getitem _ i) as [[c lf]|]; [|discriminate]. cbn [bind] in H. destruct (getitem (tw_subs w) i) as [[sub pr]|]; [|discriminate]. cbn [bind] in H. destruct (is_sat c).
      * destruct (sat_generate _ _ _ _ _ _ _ _ _ _ _ _ _ _) as [[ps [sub1 pr1]]|]; [|discriminate]. cbn [bind] in H. injection H as _ <-. exact I.
      * destruct (mip_generate _ _ _ _ _ _ _ _ _) as [ps|]; [|discriminate]. cbn [bind] in H. injection H as _ <-. exact I.
  - intros l i c w t b w' H I. cbn [c_add tree_env] in H. unfold tree_add in H. destruct (add_column c (tw_master w)) as [[b' s1]|] eqn:Ea; [|discriminate]. cbn [bind] in H. injection H as <- <-.
    cbn [tw_master]. eapply counted_trans; [exact I|eapply add_counted; eauto].
  - intros w t b w' H I. cbn [c_solve_ip tree_env] in H. unfold tree_solve_ip in H. destruct (solve_ip _ _) as [[b' s1]|] eqn:Es; [|discriminate]. cbn [bind] in H. injection H as _ <-.
    cbn [tw_master]. eapply counted_trans; [exact I|]. unfold solve_ip in Es. destruct (assert _); [|discriminate]. cbn [bind] in Es. destruct (tv_ip _ _ _); [|discriminate]. injection Es as _ <-. apply counted_same; reflexivity.
  - intros w H. cbn [c_generate_mp tree_env] in H. unfold tree_generate_mp in H. rewrite Em in H. cbn [bind] in H. injection H as <-. apply counted_refl.
Qed.

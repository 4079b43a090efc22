(** Lemmas about ParamsModel.v. *)
From Coq Require Import String.
From Verif Require Import Base FitModel BdrModel BdrFitModel ParamsModel SpecParams.
Open Scope nat_scope.

(** Two estimators whose subproblems answer alike for the existing levels and positions run alike. *)
Section Ext.
Context {W D C : Type}.
Variable E : env W D C.
Variable g : nat -> nat -> D -> W -> res (list C * W).
Definition with_generate : env W D C :=
  mkEnv _ _ _ (max_iterations E) (time_limit E) (levels E) (rmp_is_ip E) (clock E) (c_generate_mp E) (c_solve_rmp E) (c_improved E) (c_reset_timer E)
    (c_update E) g (c_add E) (c_solve_ip E).
Definition agree_at (l i : nat) := forall d w, g l i d w = c_generate E l i d w.

Lemma mbind_ext {A B} (m m' : @M W D C A) (f f' : A -> @M W D C B) s : m s = m' s -> (forall a s1, f a s1 = f' a s1) -> mbind m f s = mbind m' f' s.
Proof. intros H K. unfold mbind. rewrite H. destruct (m' s) as [s1 [a| |]]; auto. Qed.
Lemma add_columns_ext l i cols : forall u, add_columns with_generate l i cols u = add_columns E l i cols u.
Proof. induction cols as [|c cols IH]; intros u; [reflexivity|]. cbn [add_columns]. reflexivity. Qed.
Lemma price_row_ext l is d : (forall i, In i is -> agree_at l i) -> forall u s, price_row with_generate l is d u s = price_row E l is d u s.
Proof.
  induction is as [|i is IH]; intros HA u s; [reflexivity|]. cbn [price_row].
  apply mbind_ext; [reflexivity|]. intros t s1. apply mbind_ext; [reflexivity|]. intros t0 s2. apply mbind_ext; [reflexivity|]. intros _ s3.
  apply mbind_ext; [reflexivity|]. intros _ s4. change (time_limit with_generate) with (time_limit E).
  destruct (Qltb 0 (time_limit E) && Qltb (time_limit E) (t - t0)); [reflexivity|].
  apply mbind_ext; [reflexivity|]. intros t1 s5. apply mbind_ext.
  { unfold call. cbn [with_generate c_generate]. rewrite (HA i (or_introl eq_refl)). reflexivity. }
  intros cols s6. apply mbind_ext; [reflexivity|]. intros t2 s7. apply mbind_ext; [reflexivity|]. intros _ s8. apply mbind_ext; [reflexivity|]. intros t3 s9.
  apply mbind_ext; [rewrite add_columns_ext; reflexivity|]. intros u' s10. apply mbind_ext; [reflexivity|]. intros t4 s11. apply mbind_ext; [reflexivity|].
  intros _ s12. destruct u'; [reflexivity|]. apply IH. intros j Hj. apply HA. right. exact Hj.
Qed.
Lemma price_all_ext d ns : forall l, (forall k n i, nth_error ns k = Some n -> i < n -> agree_at (l + k) i) ->
  forall u s, price_all with_generate l ns d u s = price_all E l ns d u s.
Proof.
  induction ns as [|n ns IH]; intros l HA u s; [reflexivity|]. cbn [price_all]. apply mbind_ext.
  { apply price_row_ext. intros i Hi. apply in_seq in Hi. rewrite <- (Nat.add_0_r l). apply (HA 0 n); [reflexivity|lia]. }
  intros u' s1. apply mbind_ext; [reflexivity|]. intros t s2. apply mbind_ext; [reflexivity|]. intros t0 s3. apply mbind_ext; [reflexivity|]. intros _ s4.
  apply mbind_ext; [reflexivity|]. intros tlr s5. destruct tlr; [reflexivity|]. destruct u'; [reflexivity|]. apply IH.
  intros k n' i Hk Hi. replace (S l + k) with (l + S k) by lia. apply (HA (S k) n'); assumption.
Qed.
Hypothesis HA : forall l n i, nth_error (levels E) l = Some n -> i < n -> agree_at l i.
Lemma iteration_ext s : iteration with_generate s = iteration E s.
Proof.
  unfold iteration. do 11 (first [apply mbind_ext; [reflexivity|]; intros ? ?|idtac]). cbn [with_generate levels].
  apply price_all_ext. intros k n i. cbn. apply HA.
Qed.
Lemma loop_ext fuel : forall s, loop with_generate fuel s = loop E fuel s.
Proof.
  induction fuel as [|fuel IH]; intros s; [reflexivity|]. cbn [loop]. apply mbind_ext; [reflexivity|]. intros k s1.
  change (max_iterations with_generate) with (max_iterations E). destruct (_ && _); [reflexivity|].
  apply mbind_ext; [apply iteration_ext|]. intros u s2. destruct u; [apply IH|reflexivity].
Qed.
Lemma fit_ext fuel y s : fit with_generate fuel y s = fit E fuel y s.
Proof.
  unfold fit. apply mbind_ext; [reflexivity|]. intros t s1. apply mbind_ext; [reflexivity|]. intros _ s2. destruct (_ <=? 1); [reflexivity|].
  apply mbind_ext; [reflexivity|]. intros _ s3. apply mbind_ext; [reflexivity|]. intros _ s4. apply mbind_ext; [apply loop_ext|]. reflexivity.
Qed.
End Ext.

(** * set_params *)
Lemma set_params_rest l : forall o, ro_heuristic (fst (set_params l o)) = ro_heuristic o /\ ro_time_limit (fst (set_params l o)) = ro_time_limit o
  /\ ro_solvers (fst (set_params l o)) = ro_solvers o /\ ro_state (fst (set_params l o)) = ro_state o.
Proof.
  induction l as [|x l IH]; intros o; [auto|]. cbn [set_params]. destruct (assign x (ro_args o)) as [a|]; [|auto].
  destruct (IH (with_args o a)) as (A & B & C & D). auto.
Qed.
Lemma set_params_built_in l : forall o, Forall built_in l ->
  snd (set_params l o) = Ok tt /\ ra_iterations (ro_args (fst (set_params l o))) = ra_iterations (ro_args o)
  /\ ra_sub_params (ro_args (fst (set_params l o))) = ra_sub_params (ro_args o).
Proof.
  induction l as [|x l IH]; intros o H; [auto|]. inversion H as [|? ? Hx Hl]; subst. cbn [set_params].
  destruct (assign x (ro_args o)) as [a|] eqn:EA.
  - destruct (IH (with_args o a) Hl) as (A & B & C). split; [exact A|]. rewrite B, C. cbn [with_args ro_args].
    destruct (ro_args o) as [i c p rp rs ip ss sp]. destruct x; cbn in Hx; try contradiction; cbn [assign] in EA; inversion EA; auto.
  - exfalso. destruct (ro_args o) as [i c p rp rs ip ss sp]. destruct x; cbn in Hx; try contradiction; cbn [assign] in EA; discriminate.
Qed.
Lemma set_params_result l : forall o, snd (set_params l o) = if forallb (fun x => match keyword x with Some _ => true | None => false end) l then Ok tt else Err ValueError.
Proof.
  induction l as [|x l IH]; intros o; [reflexivity|]. cbn [set_params forallb].
  destruct (ro_args o) as [i c p rp rs ip ss sp] eqn:EO. destruct x; cbn [assign keyword andb]; try apply IH. reflexivity.
Qed.
Lemma value_of_assign n x o a nv : assign x (ro_args o) = Some a -> keyword x = Some nv ->
  value_of n (with_args o a) = if String.eqb n (fst nv) then Some (snd nv) else value_of n o.
Proof.
  unfold value_of, rule_params. cbn [with_args ro_args]. destruct (ro_args o) as [i c p rp rs ip ss sp]. intros EA EK.
  destruct x; cbn [assign] in EA; inversion EA; subst a; cbn [keyword] in EK; inversion EK; subst nv; cbn [fst snd find ra_C ra_ip_params ra_iterations ra_p ra_rmp_solver ra_rmp_params ra_sub_params ra_sub_solver];
  repeat match goal with |- context[String.eqb n ?s] => destruct (String.eqb n s) eqn:?; cbn [option_map snd] end; try reflexivity;
  repeat match goal with H : String.eqb _ _ = true |- _ => apply String.eqb_eq in H end; subst; discriminate.
Qed.
Lemma find_app {A} (f : A -> bool) l l' : find f (l ++ l') = match find f l with Some x => Some x | None => find f l' end.
Proof. induction l as [|x l IH]; [reflexivity|]. cbn. destruct (f x); auto. Qed.
Lemma last_value_app n a b : last_value n (a ++ b) = match last_value n b with Some v => Some v | None => last_value n a end.
Proof. unfold last_value. rewrite rev_app_distr, find_app. destruct (find _ (rev b)); reflexivity. Qed.
Lemma set_params_values n l : forall o, value_of n (fst (set_params l o)) = match last_value n (accepted l) with Some v => Some v | None => value_of n o end.
Proof.
  induction l as [|x l IH]; intros o; [reflexivity|]. cbn [set_params accepted].
  destruct (assign x (ro_args o)) as [a|] eqn:EA; destruct (keyword x) as [nv|] eqn:EK.
  - rewrite IH. change (nv :: accepted l) with ([nv] ++ accepted l). rewrite last_value_app. destruct (last_value n (accepted l)); [reflexivity|].
    rewrite (value_of_assign n x o a nv EA EK). unfold last_value. cbn [rev app find]. destruct (String.eqb n (fst nv)); reflexivity.
  - exfalso. destruct x; try discriminate. destruct (ro_args o). discriminate.
  - exfalso. destruct (ro_args o). destruct x; discriminate.
  - reflexivity.
Qed.
Lemma rule_fit_rest sv clk X y fuel o : ro_heuristic (fst (rule_fit sv clk X y fuel o)) = ro_heuristic o /\ ro_args (fst (rule_fit sv clk X y fuel o)) = ro_args o
  /\ ro_time_limit (fst (rule_fit sv clk X y fuel o)) = ro_time_limit o /\ ro_solvers (fst (rule_fit sv clk X y fuel o)) = ro_solvers o.
Proof. unfold rule_fit. destruct (fit _ _ _ _) as [s r]. auto. Qed.
Lemma history_values n h : forall o, value_of n (fold_left perform h o) = match last_value n (accepted_in h) with Some v => Some v | None => value_of n o end.
Proof.
  induction h as [|x h IH]; intros o; [reflexivity|]. cbn [fold_left]. rewrite IH. unfold accepted_in. cbn [flat_map]. rewrite last_value_app.
  fold (accepted_in h). destruct (last_value n (accepted_in h)); [reflexivity|]. destruct x as [l|sv clk X y fuel].
  - apply set_params_values.
  - cbn [perform]. unfold value_of, rule_params. destruct (rule_fit_rest sv clk X y fuel o) as (_ & -> & _). reflexivity.
Qed.
Lemma history_class h : forall o, ro_heuristic (fold_left perform h o) = ro_heuristic o.
Proof.
  induction h as [|x h IH]; intros o; [reflexivity|]. cbn [fold_left]. rewrite IH. destruct x as [l|sv clk X y fuel]; cbn [perform].
  - apply set_params_rest.
  - apply rule_fit_rest.
Qed.

(** * fit *)
Lemma getitem_same {A B} (f : A -> B) l l' i : map f l = map f l' -> (let* x := getitem l i in Ok (f x)) = (let* x := getitem l' i in Ok (f x)).
Proof.
  intros H. unfold getitem. assert (K : nth_error (map f l) i = nth_error (map f l') i) by (rewrite H; reflexivity). rewrite !nth_error_map in K.
  destruct (nth_error l i), (nth_error l' i); cbn in *; congruence.
Qed.
Lemma getitem_in {A} (l : list A) i : i < length l -> exists x, getitem l i = Ok x /\ nth_error l i = Some x.
Proof. intros H. unfold getitem. destruct (nth_error l i) eqn:E; [eauto|]. apply nth_error_None in E. lia. Qed.
Lemma entry_shape {A} (f : unit -> res A) (ps ps' : list string) i : length ps = length ps' ->
  (let* _ := getitem ps i in f tt) = (let* _ := getitem ps' i in f tt).
Proof.
  intros H. unfold getitem. destruct (nth_error ps i) eqn:E, (nth_error ps' i) eqn:E'; cbn; try reflexivity; exfalso.
  - apply nth_error_None in E'. assert (i < length ps) by (apply nth_error_Some; congruence). lia.
  - apply nth_error_None in E. assert (i < length ps') by (apply nth_error_Some; congruence). lia.
Qed.
Lemma rule_generate_shape sv X y P nm ps ps' l i d w : map (@length string) ps = map (@length string) ps' ->
  rule_generate sv X y P nm ps l i d w = rule_generate sv X y P nm ps' l i d w.
Proof.
  intros H. unfold rule_generate. pose proof (getitem_same (@length string) ps ps' l H) as G. destruct (getitem ps l) as [q|], (getitem ps' l) as [q'|]; cbn in G; try congruence.
  - cbn [bind]. assert (L : length q = length q') by congruence. exact (entry_shape (fun _ => bdr_generate (sv nm) P X y l i d w) q q' i L).
Qed.
Lemma bdr_generate_params sv P P' X y l i d w : bp_heuristic P = bp_heuristic P' -> bdr_generate sv P X y l i d w = bdr_generate sv P' X y l i d w.
Proof. unfold bdr_generate. intros ->. reflexivity. Qed.

Lemma rule_fit_same sv clk X y fuel o o' : ro_heuristic o' = ro_heuristic o -> ro_time_limit o' = ro_time_limit o -> ro_solvers o' = ro_solvers o -> ro_state o' = ro_state o ->
  ra_iterations (ro_args o') = ra_iterations (ro_args o) -> shape o' = shape o ->
  ro_state (fst (rule_fit sv clk X y fuel o')) = ro_state (fst (rule_fit sv clk X y fuel o)) /\ snd (rule_fit sv clk X y fuel o') = snd (rule_fit sv clk X y fuel o).
Proof.
  intros H1 H2 H3 H4 H5 H6. unfold rule_fit. rewrite H4.
  assert (EE : fit (rule_env sv clk X y o') fuel (map Z.of_nat y) (ro_state o) = fit (rule_env sv clk X y o) fuel (map Z.of_nat y) (ro_state o)).
  { rewrite <- (fit_ext (rule_env sv clk X y o) (c_generate (rule_env sv clk X y o'))).
    - unfold with_generate, rule_env. rewrite H1, H2, H3, H5. reflexivity.
    - intros l n i _ _ d w. unfold rule_env. cbn [c_generate]. rewrite H1, H2, H3, H5. apply rule_generate_shape. exact H6. }
  rewrite EE. destruct (fit (rule_env sv clk X y o) fuel (map Z.of_nat y) (ro_state o)) as [s r]. split; reflexivity.
Qed.

Lemma construct_shape h ps : construct (rule_levels h) (map (@length string) ps) = Ok tt ->
  if h then exists a b, ps = [[a]; [b]] else exists a, ps = [[a]].
Proof.
  assert (L1 : forall q : list string, length q = 1 -> exists a, q = [a]) by (intros [|a [|b q]] H; try discriminate; eauto).
  unfold construct, rule_levels. destruct h; destruct ps as [|q [|q' [|q2 ps]]]; try discriminate; cbn [map length].
  - intros H. cbn in H. destruct (length q) as [|[|k]] eqn:Eq; cbn in H; try discriminate. destruct (length q') as [|[|k]] eqn:Eq'; cbn in H; try discriminate.
    destruct (L1 q Eq) as (a & ->). destruct (L1 q' Eq') as (b & ->). eauto.
  - intros H. cbn in H. destruct (length q) as [|[|k]] eqn:Eq; cbn in H; try discriminate. destruct (L1 q Eq) as (a & ->). eauto.
Qed.
Lemma new_rule_ok h a o : new_rule h a = Ok o ->
  construct (rule_levels h) (map (@length string) (ra_sub_params a)) = Ok tt
  /\ o = mkRule h a (-1) (ra_rmp_solver a, ra_sub_solver a) (new_estimator (bdr_init (mkBparams (ra_C a) (ra_p a) (ra_iterations a) (-1) (if h then Some 1 else None)))).
Proof. unfold new_rule. destruct (construct _ _) as [[]|]; intros H; [|discriminate]. inversion H. auto. Qed.
Lemma new_rule_fit sv clk X y fuel h a o : new_rule h a = Ok o ->
  (ro_state (fst (rule_fit sv clk X y fuel o)), snd (rule_fit sv clk X y fuel o)) = direct_fit sv clk X y fuel h a.
Proof.
  intros HN. apply new_rule_ok in HN as (HC & ->). unfold direct_fit. cbv zeta. unfold rule_fit, bdr_fit. cbn [ro_state].
  set (P := mkBparams (ra_C a) (ra_p a) (ra_iterations a) (-1) (if h then Some 1 else None)).
  set (o := mkRule h a (-1) (ra_rmp_solver a, ra_sub_solver a) (new_estimator (bdr_init P))).
  set (sv' := sv (ra_rmp_solver a, ra_sub_solver a)).
  assert (EE : fit (rule_env sv clk X y o) fuel (map Z.of_nat y) (new_estimator (bdr_init P)) = fit (bdr_env sv' P clk X y) fuel (map Z.of_nat y) (new_estimator (bdr_init P))).
  { rewrite <- (fit_ext (bdr_env sv' P clk X y) (c_generate (rule_env sv clk X y o))).
    - reflexivity.
    - intros l n i Hl Hi d w. cbn [rule_env c_generate bdr_env o ro_args ro_solvers ro_heuristic ro_time_limit levels P bp_heuristic] in *. unfold rule_generate.
      apply construct_shape in HC. destruct h.
      + destruct HC as (u & v & ->). destruct l as [|[|l]]; cbn in Hl; [| |destruct l; discriminate]; inversion Hl; subst n; (assert (i = 0) as -> by lia); reflexivity.
      + destruct HC as (u & ->). destruct l as [|l]; cbn in Hl; [|destruct l; discriminate]; inversion Hl; subst n; (assert (i = 0) as -> by lia); reflexivity. }
  rewrite EE. destruct (fit (bdr_env sv' P clk X y) fuel (map Z.of_nat y) (new_estimator (bdr_init P))) as [s r]. reflexivity.
Qed.

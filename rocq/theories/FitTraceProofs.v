(** Index-based facts about the trace of fit used by the claims. *)
From Verif Require Import Base FitModel SpecFit FitProofs FitRunProofs FitMainProofs FitTimeProofs.
Open Scope Q_scope.

Section T.
Context {D C : Type}.
Notation ev := (event D C).
Local Arguments count {D C} p t : simpl never.

(** Accepted columns between two master solves come from one subproblem. *)
Definition one_source (t : list ev) : Prop := forall j1 j2 l1 i1 c1 l2 i2 c2,
  nth_error t j1 = Some (EvAdd l1 i1 c1 true) -> nth_error t j2 = Some (EvAdd l2 i2 c2 true) ->
  count is_solve (firstn j1 t) = count is_solve (firstn j2 t) -> l1 = l2 /\ i1 = i2.

(** Every request for columns directly follows a passed time check. *)
Definition checked (limit : Q) (t : list ev) : Prop := forall j l i d cols,
  nth_error t j = Some (EvGenerate l i d cols) ->
  exists j' e, j = S j' /\ nth_error t j' = Some (EvCheck l i e) /\ ~ (0 < limit /\ limit < e).

Lemma checked_app limit t u : checked limit t -> checked limit u -> checked limit (t ++ u).
Proof.
  intros Ht Hu j l i d cols Hj. destruct (Nat.lt_ge_cases j (length t)) as [Hl|Hl].
  - rewrite nth_error_app1 in Hj by auto. destruct (Ht _ _ _ _ _ Hj) as (j' & e & -> & H1 & H2).
    exists j', e. rewrite nth_error_app1 by lia. auto.
  - rewrite nth_error_app2 in Hj by auto. destruct (Hu _ _ _ _ _ Hj) as (j' & e & Ej & H1 & H2).
    exists (length t + j')%nat, e. split; [lia|]. rewrite nth_error_app2 by lia.
    replace (length t + j' - length t)%nat with j' by lia. auto.
Qed.

Lemma checked_none limit t : (forall x, In x t -> match x with EvGenerate _ _ _ _ => False | _ => True end) -> checked limit t.
Proof. intros H j l i d cols Hj. apply nth_error_In in Hj. specialize (H _ Hj). contradiction. Qed.

Lemma checked_offers limit l i (cols : list C) ans : checked limit (offers l i cols ans).
Proof.
  apply checked_none. intros x Hx. apply in_offers in Hx. destruct Hx as (c & b & -> & _). exact I.
Qed.

Lemma checked_pair limit l i e d cols : ~ (0 < limit /\ limit < e) -> checked limit [EvCheck l i e; EvGenerate l i d cols].
Proof.
  intros He [|[|j]] l' i' d' cols' Hj; cbn in Hj; try discriminate.
  - inversion Hj; subst. exists 0%nat, e. auto.
  - destruct j; discriminate.
Qed.

Lemma sweep_checked limit d A evs v : sweep limit d A evs v -> checked limit evs.
Proof.
  induction 1.
  - intros [|j] l i d' cols Hj; discriminate.
  - apply checked_none. intros x [<-|[]]. exact I.
  - change (checked limit ([EvCheck l i e; EvGenerate l i d cols] ++ offers l i cols answers)).
    apply checked_app; auto using checked_pair, checked_offers.
  - change (checked limit ([EvCheck l i e; EvGenerate l i d cols] ++ offers l i cols answers ++ evs)).
    repeat apply checked_app; auto using checked_pair, checked_offers.
Qed.

Lemma iteration_checked limit levels evs v : iteration_trace limit levels evs v -> checked limit evs.
Proof.
  destruct 1 as [d b r evs v Hs].
  apply (checked_app limit [EvSolveRmp d; EvImproved b]).
  { apply checked_none. intros x [<-|[<-|[]]]; exact I. }
  apply checked_app; [|apply checked_app; [|eapply sweep_checked; eauto]].
  - apply checked_none. destruct r; [intros x [<-|[]]; exact I|intros x []].
  - apply checked_none. intros x Hx. apply in_map_iff in Hx. destruct Hx as (li & <- & _). exact I.
Qed.

Lemma loop_checked max limit levels k evs e : loop_trace max limit levels k evs e -> checked limit evs.
Proof.
  induction 1; eauto using iteration_checked, checked_app.
  apply checked_none. intros x [].
Qed.

Lemma iteration_one_source limit levels d body v : iteration_body limit levels d body v ->
  forall l1 i1 c1 l2 i2 c2, In (EvAdd l1 i1 c1 true : ev) body -> In (EvAdd l2 i2 c2 true) body -> l1 = l2 /\ i1 = i2.
Proof.
  intros (b & r & evs & Hs & ->) l1 i1 c1 l2 i2 c2 H1 H2.
  assert (HB : forall l i c, In (EvAdd l i c true : ev) (EvImproved b :: (if r then [EvResetTimer] else []) ++
      map (fun li => EvUpdate (fst li) (snd li) d) (all_subproblems levels) ++ evs) -> In (EvAdd l i c true) evs).
  { intros l i c [H|H]; [discriminate|]. apply in_app_iff in H. destruct H as [H|H].
    - destruct r; [destruct H as [H|[]]; discriminate|contradiction].
    - apply in_app_iff in H. destruct H as [H|H]; auto. apply in_map_iff in H. destruct H as (li & H & _). discriminate. }
  apply HB in H1, H2.
  destruct v; try (exfalso; assert (HZ := sweep_no_add _ _ _ _ _ Hs ltac:(discriminate)); unfold count in HZ;
    assert (HF : In (EvAdd l1 i1 c1 true) (filter is_added evs)) by (apply filter_In; auto);
    destruct (filter is_added evs); [contradiction|discriminate]).
  destruct (sweep_one_source _ _ _ _ _ Hs eq_refl) as (l & i & _ & _ & _ & Hall).
  pose proof (Hall _ H1 eq_refl) as K1. pose proof (Hall _ H2 eq_refl) as K2. cbn in K1, K2.
  rewrite !andb_true_iff, !Nat.eqb_eq in K1, K2. intuition congruence.
Qed.

Lemma count_firstn_le (p : ev -> bool) j t : (count p (firstn j t) <= count p t)%nat.
Proof.
  rewrite <- (firstn_skipn j t) at 2. rewrite count_app. lia.
Qed.

Lemma loop_head max limit levels k (evs : list ev) e : loop_trace max limit levels k evs e ->
  evs = [] \/ exists d body, evs = EvSolveRmp d :: body.
Proof.
  destruct 1; auto; right; destruct (iteration_shape _ _ _ _ H0) as (d & body & -> & _); cbn; eauto.
Qed.

Lemma loop_one_source max limit levels k evs e : loop_trace max limit levels k evs e -> one_source evs.
Proof.
  assert (HI : forall limit levels evs v, iteration_trace limit levels evs v -> one_source evs).
  { intros li le ee v It j1 j2 l1 i1 c1 l2 i2 c2 H1 H2 _.
    destruct (iteration_shape _ _ _ _ It) as (d & body & -> & Hb).
    apply nth_error_In in H1, H2. destruct H1 as [H1|H1]; [discriminate|]. destruct H2 as [H2|H2]; [discriminate|].
    eapply iteration_one_source; eauto. }
  induction 1 as [k C1 C2|k evs NC It|k evs NC It|k evs evs' e NC It Lt IH]; eauto.
  - intros [|j1] j2; discriminate.
  - pose proof (HI _ _ _ _ It) as Hs.
    destruct (iteration_shape _ _ _ _ It) as (d & body & He & Hb).
    destruct (iteration_body_facts _ _ _ _ _ Hb) as (F1 & _).
    assert (Hc : count is_solve evs = 1%nat) by (rewrite He, count_cons, F1; reflexivity).
    assert (HL : forall j l i c, nth_error (evs ++ evs') j = Some (EvAdd l i c true) -> (j < length evs)%nat ->
        nth_error evs j = Some (EvAdd l i c true) /\ firstn j (evs ++ evs') = firstn j evs
        /\ (count is_solve (firstn j evs) <= 1)%nat).
    { intros j l i c Hj Hl. rewrite nth_error_app1 in Hj by auto. split; auto. split.
      - rewrite firstn_app. replace (j - length evs)%nat with 0%nat by lia. rewrite app_nil_r. reflexivity.
      - pose proof (count_firstn_le is_solve j evs). lia. }
    assert (HG : forall j l i c, nth_error (evs ++ evs') j = Some (EvAdd l i c true) -> (length evs <= j)%nat ->
        nth_error evs' (j - length evs) = Some (EvAdd l i c true)
        /\ count is_solve (firstn j (evs ++ evs')) = (1 + count is_solve (firstn (j - length evs) evs'))%nat
        /\ (1 <= count is_solve (firstn (j - length evs) evs'))%nat).
    { intros j l i c Hj Hl. rewrite nth_error_app2 in Hj by auto. split; auto. split.
      - rewrite firstn_app, firstn_all2 by auto. rewrite count_app. lia.
      - destruct (loop_head _ _ _ _ _ _ Lt) as [->|(d' & body' & ->)].
        + destruct (j - length evs)%nat; discriminate.
        + destruct (j - length evs)%nat; [discriminate|]. cbn [firstn]. rewrite count_cons. cbn. lia. }
    intros j1 j2 l1 i1 c1 l2 i2 c2 H1 H2 Hcc.
    destruct (Nat.lt_ge_cases j1 (length evs)) as [L1|L1], (Nat.lt_ge_cases j2 (length evs)) as [L2|L2].
    + apply HL in H1, H2; auto. destruct H1 as (N1 & E1 & _), H2 as (N2 & E2 & _).
      apply (Hs j1 j2 l1 i1 c1 l2 i2 c2); auto. congruence.
    + apply HL in H1; auto. apply HG in H2; auto. destruct H1 as (N1 & E1 & B1), H2 as (N2 & E2 & B2).
      exfalso. rewrite E1 in Hcc. lia.
    + apply HG in H1; auto. apply HL in H2; auto. destruct H1 as (N1 & E1 & B1), H2 as (N2 & E2 & B2).
      exfalso. rewrite E2 in Hcc. lia.
    + apply HG in H1, H2; auto. destruct H1 as (N1 & E1 & B1), H2 as (N2 & E2 & B2).
      eapply IH; eauto. lia.
Qed.

(** A failed time check is the last event of the loop; it occurs iff the loop ended by the time limit. *)
Lemma loop_late max limit levels k (evs : list ev) e : loop_trace max limit levels k evs e ->
  match e with
  | TimeUp => exists pre x, evs = pre ++ [x] /\ late limit x /\ forall y, In y pre -> ~ late limit y
  | _ => forall y, In y evs -> ~ late limit y
  end.
Proof.
  assert (HB : forall limit levels evs v, iteration_trace (D:=D) (C:=C) limit levels evs v ->
     match v with
     | TimedOut => exists pre x, evs = pre ++ [x] /\ late limit x /\ forall y, In y pre -> ~ late limit y
     | _ => forall y, In y evs -> ~ late limit y
     end).
  { intros li le ee v It. destruct It as [d b r evs0 v Hs].
    assert (HP : forall y, In y (EvSolveRmp d :: EvImproved b :: (if r then [EvResetTimer] else []) ++
       map (fun li => EvUpdate (fst li) (snd li) d) (all_subproblems le)) -> ~ late (C:=C) li y).
    { intros y [<-|[<-|Hy]]; cbn; auto. apply in_app_iff in Hy. destruct Hy as [Hy|Hy].
      - destruct r; [destruct Hy as [<-|[]]|contradiction]. cbn. auto.
      - apply in_map_iff in Hy. destruct Hy as (q & <- & _). cbn. auto. }
    replace (EvSolveRmp d :: EvImproved b :: (if r then [EvResetTimer] else []) ++
       map (fun li => EvUpdate (fst li) (snd li) d) (all_subproblems le) ++ evs0)
      with ((EvSolveRmp d :: EvImproved b :: (if r then [EvResetTimer] else []) ++
       map (fun li => EvUpdate (fst li) (snd li) d) (all_subproblems le)) ++ evs0)
      by (cbn; rewrite <- !app_assoc; reflexivity).
    set (P := EvSolveRmp d :: _) in *.
    pose proof (sweep_late_iff _ _ _ _ _ Hs) as HI.
    destruct v.
    - intros y Hy Hl. apply in_app_iff in Hy. destruct Hy as [Hy|Hy]; [eapply HP; eauto|].
      destruct HI as [_ HI]. enough (Exhausted = TimedOut) by discriminate. eauto.
    - destruct (sweep_late_last _ _ _ _ _ Hs eq_refl) as (pre & x & -> & Hx & Hp).
      exists (P ++ pre), x. rewrite app_assoc. split; auto. split; auto.
      intros y Hy. apply in_app_iff in Hy. destruct Hy; eauto.
    - intros y Hy Hl. apply in_app_iff in Hy. destruct Hy as [Hy|Hy]; [eapply HP; eauto|].
      destruct HI as [_ HI]. enough (Updated = TimedOut) by discriminate. eauto. }
  induction 1 as [k C1 C2|k evs NC It|k evs NC It|k evs evs' e NC It Lt IH].
  - intros y [].
  - exact (HB _ _ _ _ It).
  - exact (HB _ _ _ _ It).
  - pose proof (HB _ _ _ _ It) as H1. cbn in H1. destruct e.
    + intros y Hy. apply in_app_iff in Hy. destruct Hy; eauto.
    + intros y Hy. apply in_app_iff in Hy. destruct Hy; eauto.
    + destruct IH as (pre & x & -> & Hx & Hp). exists (evs ++ pre), x. rewrite app_assoc. split; auto. split; auto.
      intros y Hy. apply in_app_iff in Hy. destruct Hy; eauto.
Qed.
(** A loop ended by the cap performed exactly max_iterations iterations. *)
Lemma loop_capped_count max limit levels k (evs : list ev) e : loop_trace max limit levels k evs e ->
  e = Capped -> (0 < max)%Z /\ ((Z.of_nat k <= max)%Z -> Z.of_nat (k + count is_solve evs) = max).
Proof.
  induction 1 as [k C1 C2|k evs NC It|k evs NC It|k evs evs' e NC It Lt IH]; intros He; try discriminate.
  - rewrite count_nil. split; lia.
  - destruct (IH He) as (I1 & I2). split; auto. intros Hk.
    destruct (iteration_shape _ _ _ _ It) as (d & body & -> & Hb).
    destruct (iteration_body_facts _ _ _ _ _ Hb) as (F1 & _).
    rewrite count_app, count_cons, F1. cbn [is_solve]. specialize (I2 ltac:(lia)). lia.
Qed.
End T.

Section S.
Context {W D C : Type}.
Variable E : env W D C.
Notation st := (fstate W D C).
Notation ev := (event D C).
Implicit Types s : st.
Local Arguments count {D C} p t : simpl never.

(** ** Counting master solves in every outcome *)
Definition solves {A} (k : nat) (m : @M W D C A) : Prop := forall s,
  exists t, f_trace (fst (m s)) = f_trace s ++ t /\ (count is_solve t <= k)%nat.

Lemma solves_bind {A B} k1 k2 (m : @M W D C A) (f : A -> @M W D C B) :
  solves k1 m -> (forall a, solves k2 (f a)) -> solves (k1 + k2) (mbind m f).
Proof.
  intros H1 H2 s. unfold mbind. destruct (H1 s) as (t1 & T1 & C1).
  destruct (m s) as [s1 [a|e|]]; cbn [fst] in *; try (solve [exists t1; split; [auto|lia]]).
  destruct (H2 a s1) as (t2 & T2 & C2). exists (t1 ++ t2). rewrite T2, T1, app_assoc, count_app. split; auto. lia.
Qed.

Lemma solves_bind0 {A B} k (m : @M W D C A) (f : A -> @M W D C B) :
  solves 0 m -> (forall a, solves k (f a)) -> solves k (mbind m f).
Proof. intros. apply (solves_bind 0 k); auto. Qed.

Lemma solves_call {A} (f : W -> res (A * W)) g : (forall a, is_solve (g a) = false) -> solves 0 (call f g).
Proof.
  intros Hg s. unfold call. destruct (f (f_world s)) as [[a w]|e]; cbn.
  - exists [g a]. rewrite count_cons, count_nil, Hg. auto.
  - exists []. rewrite app_nil_r, count_nil. auto.
Qed.

Lemma solves_log x : is_solve x = false -> solves 0 (log x).
Proof. intros Hx s. exists [x]. cbn. rewrite count_cons, count_nil, Hx. auto. Qed.

Lemma solves_same {A} (m : @M W D C A) k : (forall s, f_trace (fst (m s)) = f_trace s) -> solves k m.
Proof. intros H s. exists []. rewrite app_nil_r, count_nil. split; [auto|lia]. Qed.

Lemma solves_add_tsp l i q k : solves k (add_tsp (W:=W) (D:=D) (C:=C) l i q).
Proof. apply solves_same. intros s. unfold add_tsp. destruct (update2 _ _ _ _); cbn; auto. Qed.
Lemma solves_add_cols l i q k : solves k (add_cols (W:=W) (D:=D) (C:=C) l i q).
Proof. apply solves_same. intros s. unfold add_cols. destruct (update2 _ _ _ _); cbn; auto. Qed.

Ltac case_if := match goal with |- context [if ?b then _ else _] => destruct b end.
Ltac slv := repeat first
  [ (apply solves_bind0; [|intros ?]) | (apply solves_call; intros ?; reflexivity) | (apply solves_log; reflexivity)
  | apply solves_add_tsp | apply solves_add_cols
  | (apply solves_same; intros ?s; cbn; reflexivity) ].

Lemma solves_update_row l is d : solves 0 (update_row E l is d).
Proof. induction is; simpl; slv. exact IHis. Qed.
Lemma solves_update_all ns d : forall l, solves 0 (update_all E l ns d).
Proof. induction ns; intros l; simpl; slv; auto using solves_update_row. Qed.
Lemma solves_add_columns l i cols : forall u, solves 0 (add_columns E l i cols u).
Proof. induction cols; intros u; simpl; slv; auto. Qed.
Lemma solves_price_row l is d : forall u, solves 0 (price_row E l is d u).
Proof.
  induction is as [|i is IH]; intros u; simpl; slv.
  case_if; slv; auto using solves_add_columns.
  case_if; slv. apply IH.
Qed.
Lemma solves_price_all ns d : forall l u, solves 0 (price_all E l ns d u).
Proof.
  induction ns as [|n ns IH]; intros l u; simpl; slv; auto using solves_price_row.
  case_if; slv. case_if; slv. apply IH.
Qed.

Lemma solves_iteration : solves 1 (iteration E).
Proof.
  unfold iteration. apply solves_bind0; [slv|intros ?]. apply solves_bind0; [slv|intros ?].
  apply solves_bind0; [slv|intros ?]. apply (solves_bind 1 0).
  { intros s. unfold call. destruct (c_solve_rmp E (f_world s)) as [[dd w]|e]; cbn.
    - exists [EvSolveRmp dd]. rewrite count_cons, count_nil. auto.
    - exists []. rewrite app_nil_r, count_nil. auto. }
  intros d. slv.
  - case_if; slv.
  - apply solves_same. intros s. destruct (c_reset_timer E (f_world s)); cbn; auto.
  - case_if; slv.
  - apply solves_update_all.
  - apply solves_price_all.
Qed.

Lemma solves_loop fuel : forall s, f_tlr s = false -> (0 < max_iterations E)%Z -> (Z.of_nat (f_iter s) <= max_iterations E)%Z ->
  exists t, f_trace (fst (loop E fuel s)) = f_trace s ++ t
    /\ (Z.of_nat (f_iter s + count is_solve t) <= max_iterations E)%Z.
Proof.
  induction fuel as [|fuel IH]; intros s Ht Hm Hk.
  - exists []. cbn. rewrite app_nil_r, count_nil. split; [auto|lia].
  - cbn [loop]. unfold mbind at 1. cbn [get_iter].
    destruct (Z.ltb_spec 0 (max_iterations E)); [|lia].
    destruct (Z.leb_spec (max_iterations E) (Z.of_nat (f_iter s))); cbn [andb].
    { exists []. cbn. rewrite app_nil_r, count_nil. split; [auto|lia]. }
    unfold mbind at 1. destruct (solves_iteration s) as (t1 & T1 & C1).
    destruct (iteration E s) as [s1 [u|e|]] eqn:EI; cbn [fst] in *; try (solve [exists t1; split; [auto|lia]]).
    destruct (iteration_spec E _ _ _ EI Ht) as (evs & v & It & Dl & U & T). destruct Dl.
    apply iteration_count in It.
    destruct u.
    + destruct (IH s1) as (t2 & T2 & C2); [destruct v; auto; discriminate|auto|lia|].
      exists (evs ++ t2). rewrite T2, d_trace, app_assoc, count_app. split; auto. lia.
    + unfold mbind. cbn. exists evs. destruct (f_tlr s1); cbn; split; auto; lia.
Qed.

Lemma fit_solves fuel y s t : (0 < max_iterations E)%Z -> f_trace (fst (fit E fuel y s)) = f_trace s ++ t ->
  (Z.of_nat (count is_solve t) <= max_iterations E)%Z.
Proof.
  intros Hm. rewrite fit_unfold.
  assert (HN : forall a b : list ev, a = a ++ b -> b = []).
  { intros a b H. rewrite <- (app_nil_r a) in H at 1. apply app_inv_head in H. auto. }
  destruct (_ <=? 1)%nat; [cbn; intros H; apply HN in H; subst; rewrite count_nil; lia|].
  destruct (c_generate_mp E (f_world s)) as [w|e]; [|cbn; intros H; apply HN in H; subst; rewrite count_nil; lia].
  destruct (solves_loop fuel (loop_start E w s)) as (t3 & E3 & C3); [reflexivity|auto|cbn; lia|].
  cbn in E3, C3. rewrite <- app_assoc in E3. cbn in E3.
  assert (HF : forall s3, exists t4, f_trace (fst (finish E s3)) = f_trace s3 ++ t4 /\ count is_solve t4 = 0%nat).
  { intros s3. unfold finish, mbind. cbn. destruct (rmp_is_ip E); cbn.
    - unfold call. cbn. destruct (c_solve_ip E (f_world s3)) as [[[] w']|e]; cbn.
      + exists [EvSolveIp true]. auto.
      + exists [EvSolveIp false]. auto.
      + exists []. rewrite app_nil_r. auto.
    - exists []. rewrite app_nil_r. auto. }
  destruct (loop E fuel (loop_start E w s)) as [s3 [u|e|]]; cbn [fst] in *.
  - destruct (HF s3) as (t4 & E4 & C4). rewrite E4, E3, <- app_assoc. intros H. apply app_inv_head in H. subst t.
    cbn [app]. rewrite count_cons, count_app. cbn [is_solve]. lia.
  - rewrite E3. intros H. apply app_inv_head in H. subst t. rewrite count_cons. cbn [is_solve]. lia.
  - rewrite E3. intros H. apply app_inv_head in H. subst t. rewrite count_cons. cbn [is_solve]. lia.
Qed.

(** ** Recorded time checks are clock readings minus the start time *)
Definition reads (lo hi : nat) (start : Q) (t : list ev) : Prop := forall l i e, In (EvCheck l i e) t ->
  exists k, (lo <= k < hi)%nat /\ e = clock E k - start.

Definition chk s s' : Prop := (f_tick s <= f_tick s')%nat /\ f_tstart s' = f_tstart s /\
  exists t, f_trace s' = f_trace s ++ t /\ reads (f_tick s) (f_tick s') (f_tstart s) t.

Lemma chk_refl s : chk s s.
Proof. split; [lia|]. split; auto. exists []. rewrite app_nil_r. split; auto. intros l i e []. Qed.

Lemma chk_trans s s1 s2 : chk s s1 -> chk s1 s2 -> chk s s2.
Proof.
  intros (L1 & S1 & t1 & T1 & R1) (L2 & S2 & t2 & T2 & R2). split; [lia|]. split; [congruence|].
  exists (t1 ++ t2). rewrite T2, T1, app_assoc. split; auto. intros l i e He. apply in_app_iff in He.
  destruct He as [He|He].
  - destruct (R1 _ _ _ He) as (k & Hk & ->). exists k. split; [lia|auto].
  - destruct (R2 _ _ _ He) as (k & Hk & ->). exists k. split; [lia|]. congruence.
Qed.

Definition chkM {A} (m : @M W D C A) : Prop := forall s s' a, m s = (s', Done a) -> chk s s'.

Lemma chk_bind {A B} (m : @M W D C A) (f : A -> @M W D C B) : chkM m -> (forall a, chkM (f a)) -> chkM (mbind m f).
Proof.
  intros H1 H2 s s' b H. apply mbind_done in H. destruct H as (s1 & a & Ha & Hb).
  eapply chk_trans; [eapply H1|eapply H2]; eauto.
Qed.

Lemma chk_call {A} (f : W -> res (A * W)) g :
  (forall a, match g a with EvCheck _ _ _ => False | _ => True end) -> chkM (call f g).
Proof.
  intros Hg s s' a H. unfold call in H. destruct (f (f_world s)) as [[a' w]|]; [|discriminate]. inversion H; subst.
  split; [cbn; lia|]. split; auto. exists [g a]. split; auto. intros l i e [He|[]]. specialize (Hg a).
  rewrite He in Hg. contradiction.
Qed.

Lemma chk_same {A} (m : @M W D C A) : (forall s, (f_tick s <= f_tick (fst (m s)))%nat
   /\ f_tstart (fst (m s)) = f_tstart s /\ f_trace (fst (m s)) = f_trace s) -> chkM m.
Proof.
  intros H s s' a Hm. specialize (H s). rewrite Hm in H. cbn in H. destruct H as (H1 & H2 & H3).
  split; auto. split; auto. exists []. rewrite app_nil_r. split; auto. intros l i e [].
Qed.

Lemma chk_add_tsp l i q : chkM (add_tsp (W:=W) (D:=D) (C:=C) l i q).
Proof. apply chk_same. intros s. unfold add_tsp. destruct (update2 _ _ _ _); cbn; auto. Qed.
Lemma chk_add_cols l i q : chkM (add_cols (W:=W) (D:=D) (C:=C) l i q).
Proof. apply chk_same. intros s. unfold add_cols. destruct (update2 _ _ _ _); cbn; auto. Qed.

Ltac ck := repeat first
  [ (apply chk_bind; [|intros ?]) | (apply chk_call; intros ?; exact I)
  | apply chk_add_tsp | apply chk_add_cols
  | (apply chk_same; intros ?s; cbn; repeat split; auto; lia) ].

Lemma chk_update_row l is d : chkM (update_row E l is d).
Proof. induction is; simpl; ck. exact IHis. Qed.
Lemma chk_update_all ns d : forall l, chkM (update_all E l ns d).
Proof. induction ns; intros l; simpl; ck; auto using chk_update_row. Qed.
Lemma chk_add_columns l i cols : forall u, chkM (add_columns E l i cols u).
Proof. induction cols; intros u; simpl; ck; auto. Qed.

Lemma chk_price_row l is d : forall u, chkM (price_row E l is d u).
Proof.
  induction is as [|i is IH]; intros u; simpl; [ck|].
  intros s s' x H.
  apply mbind_done in H. destruct H as (s1 & t & H1 & H).
  apply mbind_done in H. destruct H as (s2 & t0 & H2 & H).
  apply mbind_done in H. destruct H as (s3 & [] & H3 & H).
  apply mbind_done in H. destruct H as (s4 & [] & H4 & H).
  inversion H1; subst; clear H1. inversion H2; subst; clear H2. inversion H3; subst; clear H3.
  inversion H4; subst; clear H4. cbn in *.
  eapply chk_trans; [|].
  2: { revert H. match goal with |- ?m _ = _ -> _ => assert (K : chkM m); [|intros H; exact (K _ _ _ H)] end.
       case_if; ck; auto using chk_add_columns. case_if; ck. apply IH. }
  split; [cbn; lia|]. split; auto. eexists. cbn. split; [reflexivity|].
  intros l' i' e [He|[]]. inversion He; subst. exists (f_tick s). split; [cbn; lia|reflexivity].
Qed.

Lemma chk_price_all ns d : forall l u, chkM (price_all E l ns d u).
Proof.
  induction ns as [|n ns IH]; intros l u; simpl; ck; auto using chk_price_row.
  case_if; ck. case_if; ck. apply IH.
Qed.

Lemma call_trace {A} (f : W -> res (A * W)) g s s' a : call f g s = (s', Done a) ->
  f_trace s' = f_trace s ++ [g a] /\ f_tick s' = f_tick s /\ f_tstart s' = f_tstart s.
Proof.
  unfold call. destruct (f (f_world s)) as [[a' w]|]; [|discriminate]. intros H; inversion H; subst. auto.
Qed.

(** In one iteration the checks are relative to the start time in force at its end. *)
Lemma iteration_reads s s' u : iteration E s = (s', Done u) ->
  exists t, f_trace s' = f_trace s ++ t /\ reads (f_tick s) (f_tick s') (f_tstart s') t
    /\ (f_tick s <= f_tick s')%nat
    /\ (f_tstart s' = f_tstart s \/
        (exists k, (f_tick s <= k < f_tick s')%nat /\ f_tstart s' = clock E k) /\ (0 < count is_reset t)%nat).
Proof.
  unfold iteration. intros H.
  apply mbind_done in H. destruct H as (s1 & [] & H1 & H). inversion H1; subst; clear H1.
  apply mbind_done in H. destruct H as (s2 & x & H2 & H). inversion H2; subst; clear H2.
  apply mbind_done in H. destruct H as (s3 & m0 & H3 & H). inversion H3; subst; clear H3.
  apply mbind_done in H. destruct H as (s4 & d & H4 & H).
  apply call_trace in H4. destruct H4 as (T4 & L4 & B4). cbn in T4, L4, B4.
  apply mbind_done in H. destruct H as (s5 & m1 & H5 & H). inversion H5; subst; clear H5.
  apply mbind_done in H. destruct H as (s6 & [] & H6 & H). inversion H6; subst; clear H6.
  apply mbind_done in H. destruct H as (s7 & b & H7 & H).
  apply call_trace in H7. destruct H7 as (T7 & L7 & B7). cbn in T7, L7, B7.
  apply mbind_done in H. destruct H as (s8 & [] & H8 & H).
  assert (E8 : f_trace s8 = f_trace s7 /\ f_tick s8 = f_tick s7 /\ f_tstart s8 = f_tstart s7) by (destruct b; inversion H8; subst; auto).
  destruct E8 as (E8 & K8 & B8). clear H8.
  apply mbind_done in H. destruct H as (s9 & r & H9 & H).
  assert (E9 : f_trace s9 = f_trace s8 /\ f_tick s9 = f_tick s8 /\ f_tstart s9 = f_tstart s8)
    by (destruct (c_reset_timer E (f_world s8)); inversion H9; subst; auto).
  destruct E9 as (E9 & K9 & B9). clear H9.
  apply mbind_done in H. destruct H as (s10 & [] & H10 & H).
  assert (E10 : f_trace s10 = f_trace s9 ++ (if r then [EvResetTimer] else []) /\ (f_tick s9 <= f_tick s10)%nat
    /\ (if r then f_tstart s10 = clock E (f_tick s9) /\ (f_tick s9 < f_tick s10)%nat else f_tstart s10 = f_tstart s9)).
  { destruct r; [|inversion H10; subst; rewrite app_nil_r; auto].
    apply mbind_done in H10. destruct H10 as (z1 & t & G1 & H10). inversion G1; subst; clear G1.
    apply mbind_done in H10. destruct H10 as (z2 & [] & G2 & H10). inversion G2; subst z2; clear G2.
    inversion H10; subst; clear H10. cbn. auto. }
  destruct E10 as (E10 & K10 & B10). clear H10.
  apply mbind_done in H. destruct H as (s11 & [] & H11 & H).
  apply chk_update_all in H11. apply chk_price_all in H.
  destruct (chk_trans _ _ _ H11 H) as (L12 & S12 & t12 & T12 & R12).
  exists ([EvSolveRmp d] ++ [EvImproved b] ++ (if r then [EvResetTimer] else []) ++ t12).
  split. { rewrite T12, E10, E9, E8, T7, T4, <- !app_assoc. reflexivity. }
  split.
  - intros l i e He. cbn [app In] in He. destruct He as [He|[He|He]]; [discriminate|discriminate|].
    apply in_app_iff in He. destruct He as [He|He]; [destruct r; [destruct He as [He|He]; [discriminate|contradiction]|contradiction]|].
    destruct (R12 _ _ _ He) as (k & Hk & ->). exists k. split; [lia|congruence].
  - split; [lia|]. destruct r.
    + right. destruct B10 as [B10 B10']. split.
      * exists (f_tick s9). split; [lia|congruence].
      * cbn [app]. rewrite !count_cons. cbn [is_reset]. lia.
    + left. congruence.
Qed.

(** In a whole run every check is the difference of two clock readings; without timer resets the second one is the
    reading at the start of the loop. *)
Lemma loop_reads fuel : forall s s' u, loop E fuel s = (s', Done u) ->
  exists t, f_trace s' = f_trace s ++ t /\ (f_tick s <= f_tick s')%nat /\
    forall l i e, In (EvCheck l i e) t -> exists k, (f_tick s <= k < f_tick s')%nat /\
      ((exists k0, (f_tick s <= k0 < f_tick s')%nat /\ e = clock E k - clock E k0 /\ (0 < count is_reset t)%nat)
       \/ e = clock E k - f_tstart s).
Proof.
  induction fuel as [|fuel IH]; intros s s' u H; simpl in H; [discriminate|].
  apply mbind_done in H. destruct H as (s1 & k & H1 & H). inversion H1; subst; clear H1.
  destruct (_ && _).
  { inversion H; subst. exists []. rewrite app_nil_r. split; auto. split; auto. intros l i e []. }
  apply mbind_done in H. destruct H as (s2 & b & H2 & H).
  destruct (iteration_reads _ _ _ H2) as (t1 & T1 & R1 & K2 & TS).
  assert (P1 : forall l i e, In (EvCheck l i e) t1 -> exists k, (f_tick s1 <= k < f_tick s2)%nat /\
      ((exists k0, (f_tick s1 <= k0 < f_tick s2)%nat /\ e = clock E k - clock E k0 /\ (0 < count is_reset t1)%nat)
       \/ e = clock E k - f_tstart s1)).
  { intros l i e He. destruct (R1 _ _ _ He) as (k & Hk & ->). exists k. split; auto.
    destruct TS as [->|[(k0 & Hk0 & ->) Hr]]; eauto 10. }
  destruct b.
  - destruct (IH _ _ _ H) as (t2 & T2 & K3 & P2). exists (t1 ++ t2).
    split; [rewrite T2, T1, app_assoc; auto|]. split; [lia|].
    intros l i e He. rewrite count_app. apply in_app_iff in He. destruct He as [He|He].
    + destruct (P1 _ _ _ He) as (k & Hk & Hc). exists k. split; [lia|].
      destruct Hc as [(k0 & A1 & A2 & A3)|Hc]; auto. left. exists k0. repeat split; auto; lia.
    + destruct (P2 _ _ _ He) as (k & Hk & Hc). exists k. split; [lia|].
      destruct Hc as [(k0 & A1 & A2 & A3)|Hc].
      * left. exists k0. repeat split; auto; lia.
      * destruct TS as [Ht|[(k0 & Hk0 & Ht) Hr]].
        -- right. congruence.
        -- left. exists k0. repeat split; try lia. congruence.
  - apply mbind_done in H. destruct H as (s3 & tl & H3 & H). inversion H3; subst; clear H3.
    exists t1. destruct (f_tlr s3); inversion H; subst; auto.
Qed.

Lemma fit_reads fuel y s s' u t : fit E fuel y s = (s', Done u) -> f_trace s' = f_trace s ++ t ->
  forall l i e, In (EvCheck l i e) t ->
    exists k0 k, (f_tick s <= k0)%nat /\ (f_tick s <= k)%nat /\ e = clock E k - clock E k0
      /\ (count is_reset t = 0%nat -> k0 = f_tick s).
Proof.
  intros H Ht. rewrite fit_unfold in H.
  destruct (_ <=? 1)%nat; [discriminate|]. destruct (c_generate_mp E (f_world s)) as [w|]; [|discriminate].
  destruct (loop E fuel (loop_start E w s)) as [s3 [[]|e|]] eqn:L; try discriminate.
  apply loop_reads in L. destruct L as (t1 & T1 & K1 & P1). cbn in T1, K1.
  assert (HF : exists t4, f_trace s' = f_trace s3 ++ t4 /\ count is_reset t4 = 0%nat
                 /\ forall l i e, ~ In (EvCheck l i e) t4).
  { unfold finish, mbind in H. cbn in H. destruct (rmp_is_ip E); cbn in H.
    - unfold call in H. cbn in H. destruct (c_solve_ip E (f_world s3)) as [[[] w']|e]; cbn in H; try discriminate.
      inversion H; subst. exists [EvSolveIp true]. cbn. repeat split; auto. intros l i e [X|[]]. discriminate.
    - inversion H; subst. exists []. cbn. rewrite app_nil_r. repeat split; auto. }
  destruct HF as (t4 & T4 & C4 & N4). rewrite T4, T1, <- !app_assoc in Ht. apply app_inv_head in Ht. subst t.
  intros l i e He. destruct He as [He|He]; [discriminate|]. cbn [app] in He.
  apply in_app_iff in He. destruct He as [He|He]; [|exfalso; eapply N4; eauto].
  destruct (P1 _ _ _ He) as (k & Hk & Hc). cbn in Hk, Hc.
  cbn [app]. rewrite count_cons, count_app. cbn [is_reset].
  destruct Hc as [(k0 & A1 & A2 & A3)|Hc].
  - exists k0, k. repeat split; auto; try lia.
  - exists (f_tick s), k. repeat split; auto; lia.
Qed.
End S.

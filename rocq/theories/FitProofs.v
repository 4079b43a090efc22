(** Lemmas about FitModel.v. *)
From Verif Require Import Base FitModel SpecFit.
Open Scope Q_scope.

Section P.
Context {W D C : Type}.
Variable E : env W D C.
Notation st := (fstate W D C).
Notation ev := (event D C).
Implicit Types s : st.
Local Arguments count {D C} p t : simpl never.

Lemma mbind_done {A B} (m : @M W D C A) (f : A -> @M W D C B) s s' b :
  mbind m f s = (s', Done b) -> exists s1 a, m s = (s1, Done a) /\ f a s1 = (s', Done b).
Proof.
  unfold mbind. destruct (m s) as [s1 [a|e|]]; intros H; [eauto|discriminate|discriminate].
Qed.

Lemma count_app (p : ev -> bool) t u : count p (t ++ u) = (count p t + count p u)%nat.
Proof. unfold count. rewrite filter_app, app_length. reflexivity. Qed.

Definition entry (m : list (list nat)) (l i : nat) : nat := nth i (nth l m []) 0%nat.
Local Arguments entry m l i : simpl never.

(** Effect of a piece of fit whose calls were [evs]. *)
Record delta (s s' : st) (evs : list ev) : Prop := {
  d_trace : f_trace s' = f_trace s ++ evs;
  d_iter : f_iter s' = (f_iter s + count is_solve evs)%nat;
  d_perf : f_performed s' = f_performed s;
  d_impr : f_improving s' = (f_improving s + count is_improved evs)%nat;
  d_opt : f_optimal s' = f_optimal s;
  d_fit : f_fitted s' = f_fitted s;
  d_shape : map (@length nat) (f_cols s') = map (@length nat) (f_cols s);
  d_shape2 : map (@length Q) (f_tsp s') = map (@length Q) (f_tsp s);
  d_cols : forall l i, entry (f_cols s') l i = (entry (f_cols s) l i + count (is_add l i) evs)%nat
}.

Lemma delta_refl s : delta s s [].
Proof. constructor; simpl; auto; try rewrite app_nil_r; auto; intros; unfold count; simpl; lia. Qed.

Lemma delta_trans s s1 s2 e1 e2 : delta s s1 e1 -> delta s1 s2 e2 -> delta s s2 (e1 ++ e2).
Proof.
  intros [] []. constructor; try congruence.
  - rewrite d_trace1, d_trace0, app_assoc. reflexivity.
  - rewrite count_app. lia.
  - rewrite count_app. lia.
  - intros l i. rewrite d_cols1, d_cols0, count_app. lia.
Qed.

(** Primitive steps that record nothing and touch only clocks. *)
Definition quiet (s s' : st) : Prop := delta s s' [] /\ f_tlr s' = f_tlr s.

Lemma quiet_refl s : quiet s s.
Proof. split; [apply delta_refl|reflexivity]. Qed.

Lemma quiet_trans s s1 s2 : quiet s s1 -> quiet s1 s2 -> quiet s s2.
Proof. intros [H1 T1] [H2 T2]. split; [exact (delta_trans _ _ _ _ _ H1 H2)|congruence]. Qed.

Lemma quiet_delta s s1 s2 evs : quiet s s1 -> delta s1 s2 evs -> delta s s2 evs.
Proof. intros [H _] H2. exact (delta_trans _ _ _ _ _ H H2). Qed.

Lemma delta_quiet s s1 s2 evs : delta s s1 evs -> quiet s1 s2 -> delta s s2 evs.
Proof. intros H [H2 _]. rewrite <- (app_nil_r evs). exact (delta_trans _ _ _ _ _ H H2). Qed.

Ltac solve_delta := constructor; cbn; rewrite ?app_nil_r; auto; intros; cbn; auto; try lia.

Lemma time_quiet s s' t : time E s = (s', Done t) -> quiet s s'.
Proof. intros H. inversion H; subst. split; [|reflexivity]. solve_delta. Qed.

Lemma set_elapsed_quiet q s s' u : set_elapsed q s = (s', Done u) -> quiet s s'.
Proof. intros H. inversion H; subst. split; [|reflexivity]. solve_delta. Qed.

Lemma get_tstart_quiet s s' q : get_tstart s = (s', Done q) -> s' = s /\ q = f_tstart s.
Proof. intros H. inversion H; auto. Qed.

Lemma get_tlr_quiet s s' q : get_tlr s = (s', Done q) -> s' = s /\ q = f_tlr s.
Proof. intros H. inversion H; auto. Qed.

Lemma set_tstart_quiet q s s' u : set_tstart q s = (s', Done u) -> quiet s s'.
Proof. intros H. inversion H; subst. split; [|reflexivity]. solve_delta. Qed.

Lemma add_tmaster_quiet q s s' u : add_tmaster q s = (s', Done u) -> quiet s s'.
Proof. intros H. inversion H; subst. split; [|reflexivity]. solve_delta. Qed.

Lemma add_tip_quiet q s s' u : add_tip q s = (s', Done u) -> quiet s s'.
Proof. intros H. inversion H; subst. split; [|reflexivity]. solve_delta. Qed.

Lemma add_tadd_quiet q s s' u : add_tadd q s = (s', Done u) -> quiet s s'.
Proof. intros H. inversion H; subst. split; [|reflexivity]. solve_delta. Qed.

Lemma set_nth_self {A} (l : list A) i a : nth_error l i = Some a -> set_nth l i a = l.
Proof. revert i; induction l as [|x l IH]; intros [|i]; simpl; intros H; try congruence. f_equal; auto. Qed.

Lemma map_set_nth {A B} (f : A -> B) l i a : map f (set_nth l i a) = set_nth (map f l) i (f a).
Proof. revert i; induction l as [|x l IH]; intros [|i]; simpl; auto. f_equal; auto. Qed.

Lemma update2_shape {A} (m m' : list (list A)) l i f :
  update2 m l i f = Ok m' -> map (@length A) m' = map (@length A) m.
Proof.
  unfold update2. intros H. inv_ok. apply getitem_ok in E0.
  rewrite map_set_nth, length_set_nth. apply set_nth_self.
  rewrite nth_error_map, E0. reflexivity.
Qed.

Lemma nth_set_nth {A} (l : list A) i j a d :
  nth j (set_nth l i a) d = if (j =? i)%nat && (i <? length l)%nat then a else nth j l d.
Proof.
  pose proof (nth_error_set_nth l i j a) as H.
  destruct (nth_error (set_nth l i a) j) as [x|] eqn:Ex.
  - rewrite (nth_error_nth _ _ d Ex). destruct ((j =? i)%nat && (i <? length l)%nat); [congruence|].
    symmetry. apply nth_error_nth. auto.
  - destruct ((j =? i)%nat && (i <? length l)%nat); [congruence|].
    rewrite nth_overflow by (apply nth_error_None; auto). symmetry. apply nth_overflow.
    apply nth_error_None. auto.
Qed.

Lemma update2_entry m m' l i k :
  update2 m l i (fun x => x + k)%nat = Ok m' ->
  forall l' i', entry m' l' i' = (entry m l' i' + if (l =? l')%nat && (i =? i')%nat then k else 0)%nat.
Proof.
  unfold update2. intros H. inv_ok. apply getitem_ok in E0, E1. rename v into row, v0 into a.
  intros l' i'. unfold entry. rewrite nth_set_nth.
  assert (Hl : (l < length m)%nat) by (apply nth_error_Some; congruence).
  apply Nat.ltb_lt in Hl. rewrite Hl, andb_true_r.
  rewrite (Nat.eqb_sym l l'), (Nat.eqb_sym i i').
  destruct (Nat.eqb_spec l' l) as [->|Hne]; [|rewrite andb_false_l; lia].
  rewrite nth_set_nth. assert (Hi : (i < length row)%nat) by (apply nth_error_Some; congruence).
  apply Nat.ltb_lt in Hi. rewrite Hi, andb_true_r, andb_true_l.
  rewrite (nth_error_nth m l [] E0).
  destruct (Nat.eqb_spec i' i) as [->|Hne]; [|lia].
  rewrite (nth_error_nth row i 0%nat E1). reflexivity.
Qed.

Lemma add_tsp_quiet l i q s s' u : add_tsp l i q s = (s', Done u) -> quiet s s'.
Proof.
  unfold add_tsp. destruct (update2 _ _ _ _) as [t|e] eqn:U; [|discriminate]. intros H; inversion H; subst.
  split; [|reflexivity]. apply update2_shape in U. solve_delta.
Qed.

Definition neutral (x : ev) : Prop :=
  is_solve x = false /\ is_improved x = false /\ forall l i, is_add l i x = false.

Lemma count_one (p : ev -> bool) x : count p [x] = if p x then 1%nat else 0%nat.
Proof. unfold count. simpl. destruct (p x); reflexivity. Qed.

Lemma call_spec {A} (f : W -> res (A * W)) (g : A -> ev) s s' a :
  call f g s = (s', Done a) ->
  (forall x, neutral (g x)) ->
  delta s s' [g a] /\ f_tlr s' = f_tlr s /\ exists w, f (f_world s) = Ok (a, w) /\ f_world s' = w.
Proof.
  unfold call. destruct (f (f_world s)) as [[x w]|e]; [|discriminate]. intros H N; inversion H; subst.
  destruct (N a) as (N1 & N2 & N3). split; [|split; [reflexivity|eauto]].
  constructor; cbn; auto; intros; rewrite ?count_one, ?N1, ?N2, ?N3; lia.
Qed.

Lemma log_spec x s s' u : log x s = (s', Done u) -> neutral x -> delta s s' [x] /\ f_tlr s' = f_tlr s.
Proof.
  intros H (N1 & N2 & N3). inversion H; subst. split; [|reflexivity].
  constructor; cbn; auto; intros; rewrite ?count_one, ?N1, ?N2, ?N3; lia.
Qed.

Lemma add_columns_spec l i cols : forall u s s' u',
  add_columns E l i cols u s = (s', Done u') ->
  exists answers, length answers = length cols
    /\ delta s s' (offers l i cols answers) /\ f_tlr s' = f_tlr s
    /\ u' = (u || existsb (fun b => b) answers).
Proof.
  induction cols as [|c cols IH]; intros u s s' u' H; simpl in H.
  - inversion H; subst. exists []. repeat split; try apply delta_refl; auto. rewrite orb_false_r. auto.
  - apply mbind_done in H. destruct H as (s1 & b & H1 & H).
    apply mbind_done in H. destruct H as (s2 & [] & H2 & H).
    destruct (IH _ _ _ _ H) as (answers & Hl & Hd & Ht & Hu).
    exists (b :: answers). split; [simpl; auto|].
    assert (Hd1 : delta s s2 [EvAdd l i c b] /\ f_tlr s2 = f_tlr s).
    { unfold call in H1. destruct (c_add E c (f_world s)) as [[b' w]|e]; [|discriminate].
      inversion H1; subst. clear H1.
      unfold add_cols in H2. destruct (update2 _ _ _ _) as [t|e] eqn:U; [|discriminate]. cbn in U.
      inversion H2; subst. clear H2. split; [|reflexivity].
      pose proof (update2_shape _ _ _ _ _ U) as Us. pose proof (update2_entry _ _ _ _ _ U) as Ue.
      constructor; cbn; auto; intros; rewrite ?count_one; cbn; try lia.
      rewrite Ue. destruct b; destruct ((l =? l0)%nat && (i =? i0)%nat); simpl; lia. }
    destruct Hd1 as [Hd1 Ht1]. split.
    + change (offers l i (c :: cols) (b :: answers)) with ([EvAdd l i c b] ++ offers (D:=D) l i cols answers).
      eapply delta_trans; eauto.
    + split; [congruence|]. simpl. rewrite Hu, orb_assoc. reflexivity.
Qed.

Lemma update_row_spec l is d : forall s s' u,
  update_row E l is d s = (s', Done u) ->
  delta s s' (map (fun i => EvUpdate l i d) is) /\ f_tlr s' = f_tlr s.
Proof.
  induction is as [|i is IH]; intros s s' u H; simpl in H.
  - inversion H; subst. split; [apply delta_refl|reflexivity].
  - apply mbind_done in H. destruct H as (s1 & t0 & H1 & H). apply time_quiet in H1.
    apply mbind_done in H. destruct H as (s2 & [] & H2 & H).
    unfold call_unit in H2; apply call_spec in H2; [|intros; repeat split; auto]. destruct H2 as (H2 & T2 & _).
    apply mbind_done in H. destruct H as (s3 & t1 & H3 & H). apply time_quiet in H3.
    apply mbind_done in H. destruct H as (s4 & [] & H4 & H). apply add_tsp_quiet in H4.
    destruct (IH _ _ _ H) as [H5 T5]. split.
    + simpl. change (EvUpdate l i d :: ?x) with ([EvUpdate l i d] ++ x).
      eapply delta_trans; [|exact H5].
      eapply quiet_delta; [exact H1|]. eapply delta_quiet; [|exact H4]. eapply delta_quiet; eauto.
    + destruct H1 as [_ H1], H3 as [_ H3], H4 as [_ H4]. congruence.
Qed.

Lemma update_all_spec ns d : forall l s s' u,
  update_all E l ns d s = (s', Done u) ->
  delta s s' (map (fun li => EvUpdate (fst li) (snd li) d) (subproblems_from l ns)) /\ f_tlr s' = f_tlr s.
Proof.
  induction ns as [|n ns IH]; intros l s s' u H; simpl in H.
  - inversion H; subst. split; [apply delta_refl|reflexivity].
  - apply mbind_done in H. destruct H as (s1 & [] & H1 & H). apply update_row_spec in H1. destruct H1 as [H1 T1].
    destruct (IH _ _ _ _ H) as [H2 T2]. split; [|congruence].
    simpl. rewrite map_app, map_map. simpl. eapply delta_trans; eauto.
Qed.

Lemma Qltb_and_false a b c d : Qltb a b && Qltb c d = false -> ~ (a < b /\ c < d).
Proof.
  intros H [H1 H2]. apply Qltb_true in H1, H2. rewrite H1, H2 in H. discriminate.
Qed.

Lemma existsb_id_true l : existsb (fun b : bool => b) l = true <-> In true l.
Proof.
  rewrite existsb_exists. split.
  - intros (b & H & ->). auto.
  - intros H. exists true. auto.
Qed.

Lemma existsb_id_false l : existsb (fun b : bool => b) l = false <-> ~ In true l.
Proof.
  rewrite <- existsb_id_true. destruct (existsb _ l); split; congruence.
Qed.

(** One level: the sweep over its subproblems. *)
Lemma price_row_spec l d : forall is s s' u,
  price_row E l is d false s = (s', Done u) -> f_tlr s = false ->
  exists evs v, sweep (time_limit E) d (map (fun i => (l, i)) is) evs v
    /\ delta s s' evs
    /\ u = (match v with Updated => true | _ => false end)
    /\ f_tlr s' = (match v with TimedOut => true | _ => false end).
Proof.
  induction is as [|i is IH]; intros s s' u H Ht; simpl in H.
  - inversion H; subst. exists [], Exhausted. repeat split; auto; try apply delta_refl. constructor.
  - apply mbind_done in H. destruct H as (s1 & t & H1 & H). apply time_quiet in H1.
    apply mbind_done in H. destruct H as (s2 & t0 & H2 & H). apply get_tstart_quiet in H2. destruct H2 as [-> ->].
    apply mbind_done in H. destruct H as (s3 & [] & H3 & H). apply set_elapsed_quiet in H3.
    apply mbind_done in H. destruct H as (s4 & [] & H4 & H).
    apply log_spec in H4; [|repeat split; auto]. destruct H4 as [H4 T4].
    set (e := t - f_tstart s1) in *.
    assert (D4 : delta s s4 [EvCheck l i e]).
    { eapply quiet_delta; [eapply quiet_trans; eauto|exact H4]. }
    assert (T4' : f_tlr s4 = false) by (destruct H1 as [_ H1], H3 as [_ H3]; congruence).
    destruct (Qltb 0 (time_limit E) && Qltb (time_limit E) e) eqn:L.
    + apply mbind_done in H. destruct H as (s5 & [] & H5 & H). inversion H; subst. inversion H5; subst.
      exists [EvCheck l i e], TimedOut. apply andb_true_iff in L. destruct L as [L1 L2].
      apply Qltb_true in L1, L2. repeat split; auto.
      * constructor; auto.
      * apply D4.
      * cbn. apply D4.
      * apply D4.
      * apply D4.
      * apply D4.
      * apply D4.
      * apply D4.
      * apply D4.
      * apply D4.
    + apply Qltb_and_false in L.
      apply mbind_done in H. destruct H as (s5 & q0 & H5 & H). apply time_quiet in H5.
      apply mbind_done in H. destruct H as (s6 & cols & H6 & H).
      apply call_spec in H6; [|intros; repeat split; auto]. destruct H6 as (H6 & T6 & _).
      apply mbind_done in H. destruct H as (s7 & q1 & H7 & H). apply time_quiet in H7.
      apply mbind_done in H. destruct H as (s8 & [] & H8 & H). apply add_tsp_quiet in H8.
      apply mbind_done in H. destruct H as (s9 & a0 & H9 & H). apply time_quiet in H9.
      apply mbind_done in H. destruct H as (s10 & u1 & H10 & H).
      apply add_columns_spec in H10. destruct H10 as (answers & Hl & H10 & T10 & Hu1).
      apply mbind_done in H. destruct H as (s11 & a1 & H11 & H). apply time_quiet in H11.
      apply mbind_done in H. destruct H as (s12 & [] & H12 & H). apply add_tadd_quiet in H12.
      simpl in Hu1.
      assert (D12 : delta s s12 (EvCheck l i e :: EvGenerate l i d cols :: offers l i cols answers)).
      { change (delta s s12 ([EvCheck l i e] ++ [EvGenerate l i d cols] ++ offers l i cols answers)).
        eapply delta_trans; [exact D4|]. eapply delta_trans.
        - eapply quiet_delta; [exact H5|exact H6].
        - eapply delta_quiet; [|exact (quiet_trans _ _ _ H11 H12)].
          eapply quiet_delta; [|exact H10]. eapply quiet_trans; [exact H7|]. eapply quiet_trans; eauto. }
      assert (T12 : f_tlr s12 = false).
      { destruct H5 as [_ H5], H7 as [_ H7], H8 as [_ H8], H9 as [_ H9], H11 as [_ H11], H12 as [_ H12]. congruence. }
      destruct u1.
      * inversion H; subst. eexists _, Updated. split; [|split; [exact D12|split; [reflexivity|exact T12]]].
        constructor; auto. apply existsb_id_true. auto.
      * destruct (IH _ _ _ H T12) as (evs & v & Hs & Hd & Hu & Hv).
        exists (EvCheck l i e :: EvGenerate l i d cols :: offers l i cols answers ++ evs), v.
        split; [|split; [|split; auto]].
        -- simpl. constructor; auto. apply existsb_id_false. auto.
        -- change (delta s s' ((EvCheck l i e :: EvGenerate l i d cols :: offers l i cols answers) ++ evs)).
           eapply delta_trans; eauto.
Qed.

Lemma sweep_app limit (d : D) A B : forall e1 v1 e2 v2,
  sweep limit d A e1 v1 ->
  (v1 = Exhausted -> sweep limit d B e2 v2) ->
  sweep limit d (A ++ B) (match v1 with Exhausted => e1 ++ e2 | _ => e1 end)
                         (match v1 with Exhausted => v2 | _ => v1 end) (C:=C).
Proof.
  induction A as [|[l i] A IH]; intros e1 v1 e2 v2 H1 H2.
  - inversion H1; subst. simpl. auto.
  - inversion H1; subst; simpl.
    + constructor; auto.
    + constructor; auto.
    + specialize (IH evs v1 e2 v2 H9 H2). destruct v1; simpl in *.
      * rewrite <- app_assoc. constructor; auto.
      * constructor; auto.
      * constructor; auto.
Qed.

Lemma price_all_spec d : forall ns l s s' u,
  price_all E l ns d false s = (s', Done u) -> f_tlr s = false ->
  exists evs v, sweep (time_limit E) d (subproblems_from l ns) evs v
    /\ delta s s' evs
    /\ u = (match v with Updated => true | _ => false end)
    /\ f_tlr s' = (match v with TimedOut => true | _ => false end).
Proof.
  induction ns as [|n ns IH]; intros l s s' u H Ht; simpl in H.
  - inversion H; subst. exists [], Exhausted. repeat split; auto; try apply delta_refl. constructor.
  - apply mbind_done in H. destruct H as (s1 & u1 & H1 & H).
    destruct (price_row_spec _ _ _ _ _ _ H1 Ht) as (e1 & v1 & S1 & D1 & U1 & T1).
    apply mbind_done in H. destruct H as (s2 & t & H2 & H). apply time_quiet in H2.
    apply mbind_done in H. destruct H as (s3 & t0 & H3 & H). apply get_tstart_quiet in H3. destruct H3 as [-> ->].
    apply mbind_done in H. destruct H as (s4 & [] & H4 & H). apply set_elapsed_quiet in H4.
    apply mbind_done in H. destruct H as (s5 & tlr & H5 & H). apply get_tlr_quiet in H5. destruct H5 as [-> ->].
    assert (Q4 : quiet s1 s4) by (eapply quiet_trans; eauto).
    assert (T4 : f_tlr s4 = match v1 with TimedOut => true | _ => false end) by (destruct Q4; congruence).
    assert (D4 : delta s s4 e1) by (eapply delta_quiet; eauto).
    destruct v1; rewrite T4 in H; rewrite ?U1 in H.
    + destruct (IH _ _ _ _ H) as (e2 & v2 & S2 & D2 & U2 & T2); [auto|].
      exists (e1 ++ e2), v2. split; [|split; [eapply delta_trans; eauto|auto]].
      simpl. exact (sweep_app _ _ _ _ _ _ e2 v2 S1 (fun _ => S2)).
    + inversion H; subst. exists e1, TimedOut. split; [|auto].
      simpl. exact (sweep_app _ _ _ _ _ _ [] Exhausted S1 (fun X => match X with eq_refl => I end)).
    + inversion H; subst. exists e1, Updated. split; [|auto].
      simpl. exact (sweep_app _ _ _ _ _ _ [] Exhausted S1 (fun X => match X with eq_refl => I end)).
Qed.

Lemma iteration_spec s s' u :
  iteration E s = (s', Done u) -> f_tlr s = false ->
  exists evs v, iteration_trace (time_limit E) (levels E) evs v
    /\ delta s s' evs
    /\ u = (match v with Updated => true | _ => false end)
    /\ f_tlr s' = (match v with TimedOut => true | _ => false end).
Proof.
  unfold iteration. intros H Ht.
  apply mbind_done in H. destruct H as (s1 & [] & H1 & H).
  apply mbind_done in H. destruct H as (s2 & x & H2 & H). apply time_quiet in H2.
  apply mbind_done in H. destruct H as (s3 & m0 & H3 & H). apply time_quiet in H3.
  apply mbind_done in H. destruct H as (s4 & d & H4 & H).
  assert (D4 : delta s s4 [EvSolveRmp d] /\ f_tlr s4 = false).
  { destruct (quiet_trans _ _ _ H2 H3) as [Q TQ]. clear H2 H3.
    inversion H1; subst s1; clear H1. unfold call in H4.
    destruct (c_solve_rmp E (f_world s3)) as [[d' w]|e]; [|discriminate]. inversion H4; subst; clear H4.
    destruct Q. cbn in *. split; [|congruence]. constructor; cbn; auto; try congruence.
    - rewrite d_trace0, app_nil_r. reflexivity.
    - unfold count in *; cbn in *; lia. }
  destruct D4 as [D4 T4]. clear H1 H2 H3 H4.
  apply mbind_done in H. destruct H as (s5 & m1 & H5 & H). apply time_quiet in H5.
  apply mbind_done in H. destruct H as (s6 & [] & H6 & H). apply add_tmaster_quiet in H6.
  apply mbind_done in H. destruct H as (s7 & b & H7 & H).
  apply mbind_done in H. destruct H as (s8 & [] & H8 & H).
  assert (D8 : delta s6 s8 [EvImproved b] /\ f_tlr s8 = f_tlr s6).
  { unfold call in H7. destruct (c_improved E (f_world s6)) as [[b' w]|e]; [|discriminate].
    inversion H7; subst; clear H7. destruct b; inversion H8; subst; split; try reflexivity;
      constructor; cbn; auto; rewrite ?count_one; cbn; try lia. }
  destruct D8 as [D8 T8]. clear H7 H8.
  apply mbind_done in H. destruct H as (s9 & r & H9 & H).
  assert (Q9 : quiet s8 s9).
  { destruct (c_reset_timer E (f_world s8)) as [r' w]. inversion H9; subst. split; [|reflexivity]. solve_delta. }
  clear H9.
  apply mbind_done in H. destruct H as (s10 & [] & H10 & H).
  assert (D10 : delta s9 s10 (if r then [EvResetTimer] else []) /\ f_tlr s10 = f_tlr s9).
  { destruct r.
    - apply mbind_done in H10. destruct H10 as (z1 & t & G1 & H10). apply time_quiet in G1.
      apply mbind_done in H10. destruct H10 as (z2 & [] & G2 & H10). apply set_tstart_quiet in G2.
      apply log_spec in H10; [|repeat split; auto]. destruct H10 as [G3 T3]. split.
      + eapply quiet_delta; [exact (quiet_trans _ _ _ G1 G2)|exact G3].
      + destruct G1, G2. congruence.
    - inversion H10; subst. split; [apply delta_refl|reflexivity]. }
  destruct D10 as [D10 T10]. clear H10.
  apply mbind_done in H. destruct H as (s11 & [] & H11 & H).
  apply update_all_spec in H11. destruct H11 as [D11 T11].
  assert (T11' : f_tlr s11 = false).
  { destruct H5 as [_ H5], H6 as [_ H6], Q9 as [_ Q9]. congruence. }
  destruct (price_all_spec _ _ _ _ _ _ H T11') as (evs & v & Sw & Dv & U & T).
  eexists _, v. split; [exact (iteration_intro _ _ d b r evs v Sw)|]. split; [|auto].
  change (delta s s' ([EvSolveRmp d] ++ [EvImproved b] ++ (if r then [EvResetTimer] else [])
     ++ map (fun li => EvUpdate (fst li) (snd li) d) (all_subproblems (levels E)) ++ evs)).
  eapply delta_trans; [exact D4|]. eapply delta_trans.
  { eapply quiet_delta; [exact (quiet_trans _ _ _ H5 H6)|exact D8]. }
  eapply delta_trans.
  { eapply quiet_delta; [exact Q9|exact D10]. }
  eapply delta_trans; [exact D11|exact Dv].
Qed.

Lemma iteration_count evs v : iteration_trace (C:=C) (D:=D) (time_limit E) (levels E) evs v -> count is_solve evs = 1%nat.
Proof.
  intros H. inversion H; subst. change (S (count is_solve ((if r then [EvResetTimer] else []) ++
    map (fun li => EvUpdate (fst li) (snd li) d) (all_subproblems (levels E)) ++ evs0)) = 1%nat).
  f_equal. rewrite !count_app.
  assert (H1 : forall l, count (is_solve (C:=C)) (map (fun li => EvUpdate (fst li) (snd li) d) l) = 0%nat).
  { induction l; unfold count in *; simpl; auto. }
  rewrite H1.
  assert (H2 : forall l e w, sweep (time_limit E) d l e w -> count (is_solve (C:=C)) e = 0%nat).
  { assert (HO : forall l i cols ans, count is_solve (offers (D:=D) (C:=C) l i cols ans) = 0%nat).
    { intros l i cols. unfold offers. induction cols as [|c cols IHc]; intros [|a ans]; unfold count in *; simpl; auto. }
    intros l e w Hs. induction Hs; auto.
    - unfold count in *. simpl. apply HO.
    - unfold count in *. simpl. rewrite filter_app, app_length. rewrite HO. auto. }
  rewrite (H2 _ _ _ H0). destruct r; reflexivity.
Qed.

Lemma loop_spec fuel : forall s s' u,
  loop E fuel s = (s', Done u) -> f_tlr s = false -> f_optimal s = false ->
  exists evs e, loop_trace (max_iterations E) (time_limit E) (levels E) (f_iter s) evs e
    /\ delta s (mkF (f_world s') (f_tick s') (f_trace s') (f_tstart s') (f_iter s') (f_performed s') (f_improving s')
                    false (f_tlr s') (f_cols s') (f_tsp s') (f_tadd s') (f_tmaster s') (f_tip s') (f_elapsed s')
                    (f_fitted s')) evs
    /\ f_optimal s' = (match e with Optimal => true | _ => false end)
    /\ f_tlr s' = (match e with TimeUp => true | _ => false end).
Proof.
  induction fuel as [|fuel IH]; intros s s' u H Ht Ho; simpl in H; [discriminate|].
  apply mbind_done in H. destruct H as (s0 & k & H0 & H). inversion H0; subst s0 k. clear H0.
  destruct ((0 <? max_iterations E)%Z && (max_iterations E <=? Z.of_nat (f_iter s))%Z) eqn:Cap.
  - inversion H; subst. apply andb_true_iff in Cap. destruct Cap as [C1 C2].
    apply Z.ltb_lt in C1. apply Z.leb_le in C2. exists [], Capped. split; [constructor; auto|].
    split; [|auto]. destruct s'; cbn in *; subst. apply delta_refl.
  - assert (NC : ~ (0 < max_iterations E <= Z.of_nat (f_iter s))%Z).
    { intros [C1 C2]. apply Z.ltb_lt in C1. apply Z.leb_le in C2. rewrite C1, C2 in Cap. discriminate. }
    apply mbind_done in H. destruct H as (s1 & upd & H1 & H).
    destruct (iteration_spec _ _ _ H1 Ht) as (evs & v & It & Dv & U & T).
    destruct v; subst upd.
    + apply mbind_done in H. destruct H as (s2 & tlr & H2 & H). apply get_tlr_quiet in H2. destruct H2 as [-> ->].
      rewrite T in H. inversion H; subst. exists evs, Optimal. split; [constructor; auto|]. split; [|auto].
      cbn. pose proof (d_opt _ _ _ Dv) as Eo. rewrite Ho in Eo. destruct s1; cbn in *. rewrite Eo in Dv. exact Dv.
    + apply mbind_done in H. destruct H as (s2 & tlr & H2 & H). apply get_tlr_quiet in H2. destruct H2 as [-> ->].
      rewrite T in H. inversion H; subst. exists evs, TimeUp. split; [constructor; auto|].
      pose proof (d_opt _ _ _ Dv) as Eo. split; [|split; [congruence|auto]].
      rewrite Ho in Eo. destruct s'; cbn in *. rewrite Eo in Dv. exact Dv.
    + pose proof (d_opt _ _ _ Dv) as Eo.
      destruct (IH _ _ _ H T) as (evs' & e & Lt & Dl & Eopt & Etlr); [congruence|].
      exists (evs ++ evs'), e. split; [|split; [eapply delta_trans; eauto|auto]].
      eapply loop_more; eauto. pose proof (d_iter _ _ _ Dv) as Ei. rewrite (iteration_count _ _ It) in Ei.
      rewrite Ei in Lt. rewrite Nat.add_1_r in Lt. exact Lt.
Qed.

End P.

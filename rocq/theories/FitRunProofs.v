(** Lemmas about complete runs of fit. *)
From Verif Require Import Base FitModel SpecFit FitProofs.
Open Scope Q_scope.

(** ** Facts about legal traces (no model involved) *)
Section T.
Context {D C : Type}.
Notation ev := (event D C).
Local Arguments count {D C} p t : simpl never.
Implicit Types t evs : list ev.

Lemma count_cons (p : ev -> bool) x t : count p (x :: t) = ((if p x then 1 else 0) + count p t)%nat.
Proof. unfold count. simpl. destruct (p x); reflexivity. Qed.

Lemma count_nil (p : ev -> bool) : count p [] = 0%nat.
Proof. reflexivity. Qed.

Lemma count_zero (p : ev -> bool) t : (forall x, In x t -> p x = false) -> count p t = 0%nat.
Proof.
  induction t as [|x t IH]; intros H; [reflexivity|]. rewrite count_cons, (H x), IH; auto; [intros; apply H; right; auto|left; auto].
Qed.

Lemma count_updates (p : ev -> bool) d l :
  (forall a b, p (EvUpdate a b d) = false) -> count p (map (fun li => EvUpdate (fst li) (snd li) d) l) = 0%nat.
Proof.
  intros H. apply count_zero. intros x Hx. apply in_map_iff in Hx. destruct Hx as (li & <- & _). apply H.
Qed.

Lemma in_offers l i (cols : list C) ans (x : ev) :
  In x (offers l i cols ans) -> exists c b, x = EvAdd l i c b /\ In c cols /\ In b ans.
Proof.
  unfold offers. rewrite in_map_iff. intros ([c b] & <- & H). exists c, b.
  split; [reflexivity|]. split; [apply in_combine_l in H|apply in_combine_r in H]; auto.
Qed.

Lemma offers_true l i (cols : list C) ans : length ans = length cols ->
  In true ans -> exists c, In (EvAdd l i c true) (offers (D:=D) l i cols ans).
Proof.
  revert cols; induction ans as [|b ans IH]; intros [|c cols] Hl H; simpl in *; try contradiction; try discriminate.
  destruct H as [->|H].
  - exists c. left. reflexivity.
  - destruct (IH cols) as [c' Hc]; auto. exists c'. right. exact Hc.
Qed.

(** *** Events of a sweep *)
Definition sweep_event (d : D) (A : list (nat * nat)) (x : ev) : Prop :=
  match x with
  | EvCheck l i _ | EvAdd l i _ _ => In (l, i) A
  | EvGenerate l i d' _ => In (l, i) A /\ d' = d
  | _ => False
  end.

Lemma sweep_events limit d A evs v : sweep limit d A evs v -> forall x, In x evs -> sweep_event d A x.
Proof.
  induction 1; intros x Hx.
  - contradiction.
  - destruct Hx as [<-|[]]. simpl. auto.
  - destruct Hx as [<-|[<-|Hx]]; simpl; auto.
    apply in_offers in Hx. destruct Hx as (c & b & -> & _). simpl. auto.
  - destruct Hx as [<-|[<-|Hx]]; simpl; auto.
    apply in_app_iff in Hx. destruct Hx as [Hx|Hx].
    + apply in_offers in Hx. destruct Hx as (c & b & -> & _). simpl. auto.
    + specialize (IHsweep x Hx). destruct x; simpl in *; tauto.
Qed.

Lemma sweep_asked_prefix limit d A evs v : sweep limit d A evs v ->
  exists k, asked evs = map (fun li => (li, d)) (firstn k A) /\ (v = Exhausted -> firstn k A = A).
Proof.
  induction 1.
  - exists 0%nat. auto.
  - exists 0%nat. split; auto. discriminate.
  - exists 1%nat. simpl. split; [|discriminate]. f_equal.
    assert (HN : forall cs an, asked (offers (D:=D) (C:=C) l i cs an) = (@nil (nat * nat * D))).
    { unfold offers. induction cs as [|c cs IHc]; intros [|a an]; simpl; auto. }
    apply HN.
  - destruct IHsweep as (k & Ek & Hk). exists (S k). simpl. split.
    + f_equal. unfold asked in *. rewrite flat_map_app, Ek.
      assert (HN : forall cs an, flat_map (fun x : ev => match x with EvGenerate a b c _ => [(a, b, c)] | _ => [] end)
                     (offers (D:=D) (C:=C) l i cs an) = (@nil (nat * nat * D))).
      { unfold offers. induction cs as [|c cs IHc]; intros [|a an]; simpl; auto. }
      rewrite HN. reflexivity.
    + intros Hv. f_equal. auto.
Qed.

Lemma sweep_no_add limit d A evs v : sweep limit d A evs v -> v <> Updated -> count is_added evs = 0%nat.
Proof.
  induction 1; intros Hv; auto; try congruence.
  rewrite !count_cons, count_app. simpl. rewrite IHsweep by auto. rewrite Nat.add_0_r.
  apply count_zero. intros x Hx. apply in_offers in Hx. destruct Hx as (c & b & -> & _ & Hb). simpl.
  destruct b; auto. contradiction.
Qed.

Lemma sweep_one_source limit d A evs v : sweep limit d A evs v -> v = Updated ->
  exists l i, In (l, i) A /\ (1 <= count is_added evs)%nat
    /\ count is_added evs = count (is_add l i) evs
    /\ forall x, In x evs -> is_added x = true -> is_add l i x = true.
Proof.
  induction 1; intros Hv; try discriminate.
  - exists l, i. split; [left; auto|].
    assert (HE : forall x, In x (EvCheck l i e :: EvGenerate l i d cols :: offers l i cols answers) ->
                           is_added x = is_add l i x).
    { intros x [<-|[<-|Hx]]; auto. apply in_offers in Hx. destruct Hx as (c & b & -> & _). simpl.
      rewrite !Nat.eqb_refl. reflexivity. }
    split; [|split].
    + destruct (offers_true l i cols answers H0 H1) as [c Hc].
      rewrite !count_cons. simpl. unfold count.
      assert (HF : In (EvAdd l i c true) (filter is_added (offers (D:=D) l i cols answers))) by (apply filter_In; auto).
      destruct (filter is_added (offers l i cols answers)); [contradiction|simpl; lia].
    + unfold count. f_equal. apply filter_ext_in. exact HE.
    + intros x Hx Ha. rewrite <- HE; auto.
  - destruct (IHsweep Hv) as (l' & i' & HA & Hc & Heq & Hall). exists l', i'.
    assert (HZ : forall x, In x (EvCheck l i e :: EvGenerate l i d cols :: offers l i cols answers) -> is_added x = false).
    { intros x [<-|[<-|Hx]]; auto. apply in_offers in Hx. destruct Hx as (c & b & -> & _ & Hb). simpl.
      destruct b; auto; contradiction. }
    assert (HZ' : forall x, In x (EvCheck l i e :: EvGenerate l i d cols :: offers l i cols answers) -> is_add l' i' x = false).
    { intros x Hx. specialize (HZ x Hx). destruct x; simpl in *; auto. rewrite HZ. apply andb_false_r. }
    change (EvCheck l i e :: EvGenerate l i d cols :: offers l i cols answers ++ evs)
      with ((EvCheck l i e :: EvGenerate l i d cols :: offers l i cols answers) ++ evs).
    rewrite !count_app. rewrite (count_zero is_added _ HZ), (count_zero (is_add l' i') _ HZ'). simpl.
    split; [right; auto|]. split; [auto|]. split; [auto|].
    intros x Hx Ha. change (In x ((EvCheck l i e :: EvGenerate l i d cols :: offers l i cols answers) ++ evs)) in Hx.
    apply in_app_iff in Hx. destruct Hx as [Hx|Hx]; [rewrite (HZ x Hx) in Ha; discriminate|auto].
Qed.

Lemma sweep_late_iff limit d A evs v : sweep limit d A evs v ->
  (v = TimedOut <-> exists x, In x evs /\ late limit x).
Proof.
  assert (HO : forall l i cols ans x, In x (offers (D:=D) (C:=C) l i cols ans) -> ~ late limit x).
  { intros l i cols ans x Hx. apply in_offers in Hx. destruct Hx as (c & b & -> & _). simpl. tauto. }
  induction 1.
  - split; [discriminate|]. intros (x & [] & _).
  - split; auto. intros _. eexists. split; [left; reflexivity|]. simpl. auto.
  - split; [discriminate|]. intros (x & [<-|[<-|Hx]] & Hl); [contradiction|contradiction|].
    exfalso. eapply HO; eauto.
  - rewrite IHsweep. split.
    + intros (x & Hx & Hl). exists x. split; auto. right; right. apply in_app_iff. auto.
    + intros (x & [<-|[<-|Hx]] & Hl); [contradiction|contradiction|].
      apply in_app_iff in Hx. destruct Hx as [Hx|Hx]; [exfalso; eapply HO; eauto|]. eauto.
Qed.

(** The failing time check is the last event of the sweep. *)
Lemma sweep_late_last limit d A evs v : sweep limit d A evs v -> v = TimedOut ->
  exists pre x, evs = pre ++ [x] /\ late limit x /\ forall y, In y pre -> ~ late limit y.
Proof.
  assert (HO : forall l i cols ans x, In x (offers (D:=D) (C:=C) l i cols ans) -> ~ late limit x).
  { intros l i cols ans x Hx. apply in_offers in Hx. destruct Hx as (c & b & -> & _). simpl. tauto. }
  induction 1; intros Hv; try discriminate.
  - exists [], (EvCheck l i e). simpl. split; [reflexivity|]. split; [auto|]. intros y [].
  - destruct (IHsweep Hv) as (pre & x & -> & Hx & Hp).
    exists (EvCheck l i e :: EvGenerate l i d cols :: offers l i cols answers ++ pre), x.
    split; [simpl; rewrite <- app_assoc; reflexivity|]. split; auto.
    intros y [<-|[<-|Hy]]; simpl; auto. apply in_app_iff in Hy. destruct Hy; eauto.
Qed.

Lemma last_iteration_app t u : count is_solve u = 0%nat ->
  last_iteration (t ++ u) = match last_iteration t with Some (d, b) => Some (d, b ++ u) | None => None end.
Proof.
  intros Hu.
  assert (HN : last_iteration u = None).
  { induction u as [|x u IH]; auto. rewrite count_cons in Hu. simpl.
    rewrite IH by lia. destruct x; auto. simpl in Hu. lia. }
  induction t as [|x t IH]; simpl; [auto|]. rewrite IH.
  destruct (last_iteration t) as [[d b]|]; auto. destruct x; auto.
Qed.

Lemma last_iteration_some t u d b : last_iteration u = Some (d, b) -> last_iteration (t ++ u) = Some (d, b).
Proof. intros H. induction t as [|x t IH]; simpl; auto. rewrite IH. reflexivity. Qed.

Definition iteration_body (limit : Q) (levels : list nat) (d : D) (body : list ev) (v : verdict) : Prop :=
  exists b (r : bool) evs, sweep limit d (all_subproblems levels) evs v /\
    body = EvImproved b :: (if r then [EvResetTimer] else [])
           ++ map (fun li => EvUpdate (fst li) (snd li) d) (all_subproblems levels) ++ evs.

Lemma iteration_shape limit levels evs v : iteration_trace limit levels evs v ->
  exists d body, evs = EvSolveRmp d :: body /\ iteration_body limit levels d body v.
Proof.
  intros H. destruct H as [d b r evs v Hs]. eexists _, _. split; [reflexivity|].
  exists b, r, evs. auto.
Qed.

Lemma iteration_body_facts limit levels d body v : iteration_body limit levels d body v ->
  count is_solve body = 0%nat
  /\ (v <> Updated -> count is_added body = 0%nat)
  /\ (v = Updated -> (1 <= count is_added body)%nat)
  /\ (exists k, asked body = map (fun li => (li, d)) (firstn k (all_subproblems levels))
       /\ (v = Exhausted -> firstn k (all_subproblems levels) = all_subproblems levels))
  /\ (v = TimedOut <-> exists x, In x body /\ late limit x)
  /\ (count is_improved body <= 1)%nat /\ count is_ip body = 0%nat.
Proof.
  intros (b & r & evs & Hs & ->).
  pose proof (sweep_events _ _ _ _ _ Hs) as HE.
  rewrite !count_cons, !count_app, !count_updates by auto.
  assert (HR : forall p : ev -> bool, p EvResetTimer = false -> count p (if r then [EvResetTimer] else []) = 0%nat)
    by (intros p Hp; destruct r; rewrite ?count_cons, ?Hp; reflexivity).
  rewrite !HR by reflexivity. simpl.
  split; [|split; [|split; [|split; [|split; [|split]]]]].
  - apply count_zero. intros x Hx. specialize (HE x Hx). destruct x; auto; contradiction.
  - intros Hv. eapply sweep_no_add; eauto.
  - intros Hv. destruct (sweep_one_source _ _ _ _ _ Hs Hv) as (l & i & _ & H & _). auto.
  - destruct (sweep_asked_prefix _ _ _ _ _ Hs) as (k & Ek & Hk). exists k. split; auto.
    unfold asked in *. rewrite flat_map_app. rewrite flat_map_app. rewrite Ek.
    replace (flat_map _ (if r then [EvResetTimer] else [])) with (@nil (nat * nat * D)) by (destruct r; reflexivity).
    replace (flat_map _ (map _ _)) with (@nil (nat * nat * D)); [reflexivity|].
    generalize (all_subproblems levels). induction l as [|x l IH]; simpl; auto.
  - rewrite (sweep_late_iff _ _ _ _ _ Hs). split.
    + intros (x & Hx & Hl). exists x. split; auto. right. apply in_app_iff. right. apply in_app_iff. auto.
    + intros (x & [<-|Hx] & Hl); [contradiction|]. apply in_app_iff in Hx. destruct Hx as [Hx|Hx].
      * destruct r; [destruct Hx as [<-|[]]|]; contradiction.
      * apply in_app_iff in Hx. destruct Hx as [Hx|Hx]; [|eauto].
        apply in_map_iff in Hx. destruct Hx as (li & <- & _). contradiction.
  - assert (HI : count is_improved evs = 0%nat)
      by (apply count_zero; intros x Hx; specialize (HE x Hx); destruct x; auto; contradiction).
    rewrite HI. destruct b; simpl; lia.
  - apply count_zero. intros x Hx. specialize (HE x Hx). destruct x; auto; contradiction.
Qed.

Lemma loop_facts max limit levels k evs e : loop_trace max limit levels k evs e ->
  ((0 < max)%Z -> (Z.of_nat (k + count is_solve evs) <= Z.max max (Z.of_nat k))%Z)
  /\ ((max <= 0)%Z -> e <> Capped)
  /\ (count is_improved evs <= count is_solve evs)%nat
  /\ (count is_solve evs <= S (count is_added evs))%nat
  /\ (e = Capped -> (count is_solve evs <= count is_added evs)%nat)
  /\ count is_ip evs = 0%nat.
Proof.
  induction 1 as [k C1 C2|k evs NC It|k evs NC It|k evs evs' e NC It Lt IH].
  - rewrite !count_nil. repeat split; intros; try lia.
  - destruct (iteration_shape _ _ _ _ It) as (d & body & -> & Hb).
    destruct (iteration_body_facts _ _ _ _ _ Hb) as (F1 & F2 & F3 & F4 & F5 & F6 & F7).
    rewrite !count_cons. simpl. rewrite F1, F7. repeat split; try lia; try discriminate.
  - destruct (iteration_shape _ _ _ _ It) as (d & body & -> & Hb).
    destruct (iteration_body_facts _ _ _ _ _ Hb) as (F1 & F2 & F3 & F4 & F5 & F6 & F7).
    rewrite !count_cons. simpl. rewrite F1, F7. repeat split; try lia; try discriminate.
  - destruct IH as (I1 & I2 & I3 & I4 & I5 & I6).
    destruct (iteration_shape _ _ _ _ It) as (d & body & -> & Hb).
    destruct (iteration_body_facts _ _ _ _ _ Hb) as (F1 & F2 & F3 & F4 & F5 & F6 & F7).
    specialize (F3 eq_refl). rewrite !count_app, !count_cons. simpl. rewrite F1, F7, I6.
    repeat split; try lia; auto. intros Hc. specialize (I5 Hc). lia.
Qed.

(** The last iteration of the loop and its verdict. *)
Lemma loop_last max limit levels k evs e : loop_trace max limit levels k evs e ->
  match last_iteration evs with
  | None => evs = [] /\ e = Capped
  | Some (d, body) => exists v, iteration_body limit levels d body v /\
      e = match v with Exhausted => Optimal | TimedOut => TimeUp | Updated => Capped end
  end.
Proof.
  induction 1 as [k C1 C2|k evs NC It|k evs NC It|k evs evs' e NC It Lt IH].
  - simpl. auto.
  - destruct (iteration_shape _ _ _ _ It) as (d & body & -> & Hb).
    pose proof (iteration_body_facts _ _ _ _ _ Hb) as (F1 & _).
    change (EvSolveRmp d :: body) with ([EvSolveRmp d] ++ body).
    rewrite last_iteration_app by auto. simpl. exists Exhausted. auto.
  - destruct (iteration_shape _ _ _ _ It) as (d & body & -> & Hb).
    pose proof (iteration_body_facts _ _ _ _ _ Hb) as (F1 & _).
    change (EvSolveRmp d :: body) with ([EvSolveRmp d] ++ body).
    rewrite last_iteration_app by auto. simpl. exists TimedOut. auto.
  - destruct (last_iteration evs') as [[d' b']|] eqn:EL.
    + rewrite (last_iteration_some _ _ _ _ EL). exact IH.
    + destruct IH as [-> ->]. rewrite app_nil_r.
      destruct (iteration_shape _ _ _ _ It) as (d & body & -> & Hb).
      pose proof (iteration_body_facts _ _ _ _ _ Hb) as (F1 & _).
      change (EvSolveRmp d :: body) with ([EvSolveRmp d] ++ body).
      rewrite last_iteration_app by auto. simpl. exists Updated. auto.
Qed.

End T.

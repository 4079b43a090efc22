(** Pricing models: every path is an integral point, every integral point decodes to a path; generate_columns. *)
From Verif Require Import Base Lp LpProofs TreeModel SpecTree SpecTreeRun SpecTreeLp SpecTreePrice TreePricingModel TreeGeoProofs
  TreePathProofs TreeLpBuild TreeBuildProofs TreeInvProofs TreeOpProofs TreeMasterProofs TreeSolProofs TreePriceProofs TreeHeurProofs TreeSymProofs
  TreeSubmipProofs TreeDecodeProofs.
Open Scope nat_scope.

Lemma zero_one_b b : zero_one (ind b).
Proof. destruct b; [right|left]; reflexivity. Qed.

Section Mip.
Variables (u : setup) (c : pclass) (l nt : nat).
Hypotheses (V : valid_setup u) (D : valid_data u) (Hl : l < 2 ^ su_depth u).
Hypothesis Hnt : is_old c = false -> Forall (fun t => t < nt) (su_y u).
Let lf := create_leaf l (su_depth u).
Let n_rows := length (su_X u).
Notation IDS := (ids u l).
Notation CANDS := (cands u).
Notation WT := (wt u).
Notation WALKS := (walks u l).
Variables (dl : tduals) (cuts : list (list bool)).
Hypothesis H0 : forall i, i < n_rows -> WT i = None -> (nth i (d_row dl) 0 == 0)%Q.

Lemma label_lt i : is_old c = false -> i < n_rows -> label u i < nt.
Proof.
  clear - Hnt D. intros Ho Hi. specialize (Hnt Ho). rewrite Forall_forall in Hnt. apply Hnt, nth_In. destruct D as [-> _]. exact Hi.
Qed.

(** The weight of the rows of class [t] that walk to the leaf. *)
Definition wsum (pick : nat -> nat) (t : nat) : Q :=
  qsum (fun i => match WT i with Some w => inject_Z (Z.of_nat w) * ind (WALKS pick (row_left u i) && (label u i =? t)) | None => 0 end)%Q (seq 0 n_rows).
Definition csum (pick : nat -> nat) (t : nat) : Q :=
  qsum (fun i => match WT i with Some _ => ind (WALKS pick (row_left u i) && (label u i =? t)) | None => 0 end)%Q (seq 0 n_rows).
Lemma wsum_class pick p t v : pick_path u l pick p -> class_weight u p t v -> (inject_Z (Z.of_nat v) == wsum pick t)%Q.
Proof.
  clear - V D Hl. intros P Hv.
  assert (Hv' : class_weight u p t (nsum (adds (su_y u) (su_rows u) t) (filter (fun i => WALKS pick (row_left u i)) (seq 0 n_rows)))).
  { apply class_weight_of; auto; [apply NoDup_filter, seq_NoDup|]. intros i. rewrite filter_In, in_seq, (pick_row u l Hl pick p i P). fold n_rows. intuition lia. }
  rewrite (class_weight_unique _ _ _ _ _ Hv Hv'), inject_nsum, qsum_filter. unfold wsum. apply qsum_ext. intros i Hi. unfold adds, wt, label.
  destruct (WALKS pick (row_left u i)), (wt_of (su_rows u) i) as [w|]; cbn [andb]; try (cbn [ind]; lra); try reflexivity.
  destruct (nth i (su_y u) 0 =? t); cbn [ind]; [lra|]. change (inject_Z (Z.of_nat 0)) with 0%Q. lra.
Qed.
Lemma wsum_exists pick p t : pick_path u l pick p -> exists v, class_weight u p t v /\ (inject_Z (Z.of_nat v) == wsum pick t)%Q.
Proof.
  clear - V D Hl. intros P. eexists. split.
  - apply (class_weight_of u p t (filter (fun i => WALKS pick (row_left u i)) (seq 0 n_rows))); auto; [apply NoDup_filter, seq_NoDup|].
    intros i. rewrite filter_In, in_seq, (pick_row u l Hl pick p i P). fold n_rows. intuition lia.
  - apply (wsum_class pick p t _ P). apply class_weight_of; auto; [apply NoDup_filter, seq_NoDup|].
    intros i. rewrite filter_In, in_seq, (pick_row u l Hl pick p i P). fold n_rows. intuition lia.
Qed.

(** * Integral points *)

Definition point (val : vkind -> Q) : Prop :=
  (forall kd, known u c l nt (length cuts) kd -> zero_one (val kd)) /\ Forall (sat_con val) (base_sc u c l nt ++ cuts_sc u c l 0 cuts).

Lemma in_class sc : is_old c = false -> In sc (one_class_sc c nt :: flat_map (class_sc u) (seq 0 n_rows)) -> In sc (base_sc u c l nt).
Proof. clear. intros Ho H. unfold base_sc. rewrite Ho. apply in_or_app. right. apply in_or_app. right. exact H. Qed.
Lemma point_z val i : is_old c = false -> point val -> i < n_rows -> WT i <> None ->
  (0 <= val (VZ i))%Q /\ (val (VZ i) <= val (VY i))%Q /\ (val (VZ i) <= val (VW (label u i)))%Q.
Proof.
  intros Ho [Hz Hs] Hi Hw. rewrite Forall_forall in Hs.
  assert (Hin : forall sc, In sc (class_sc u i) -> sat_con val sc).
  { intros sc H. apply Hs, in_or_app. left. apply in_class; auto. right. apply in_flat_map. exists i. split; [apply in_seq; lia|auto]. }
  unfold class_sc in Hin. destruct (WT i) eqn:Ew; [|congruence].
  pose proof (Hin _ (or_introl eq_refl)) as [_ H1]. pose proof (Hin _ (or_intror (or_introl eq_refl))) as [_ H2].
  specialize (H1 0%Q eq_refl). specialize (H2 0%Q eq_refl). unfold term_sum in H1, H2. cbn [fst snd] in H1, H2. rewrite !qsum_cons in H1, H2. cbn [fst snd qsum fold_right] in H1, H2.
  assert (0 <= val (VZ i))%Q by (apply (zero_one_range (val (VZ i))), Hz; cbn [known]; repeat split; auto; rewrite Ew; discriminate). unfold label. repeat split; lra.
Qed.
Lemma point_class val : is_old c = false -> point val ->
  (is_sat c = false /\ forall t, t < nt -> (val (VW t) == 0)%Q) \/ (exists t, t < nt /\ forall t', t' < nt -> (val (VW t') == ind (t' =? t))%Q).
Proof.
  intros Ho [Hz Hs]. rewrite Forall_forall in Hs.
  assert (Hone : sat_con val (one_class_sc c nt)) by (apply Hs, in_or_app; left; apply in_class; auto; left; reflexivity).
  destruct Hone as [H1 H2]. cbn [one_class_sc fst snd] in *. specialize (H1 _ eq_refl). specialize (H2 _ eq_refl).
  assert (E : (term_sum val (map (fun t => (VW t, 1)) (seq 0 nt)) == qsum (fun t => val (VW t)) (seq 0 nt))%Q).
  { unfold term_sum. rewrite qsum_map. apply qsum_ext. intros t _. cbn [fst snd]. lra. }
  rewrite E in *.
  destruct (at_most_one_hot (fun t => val (VW t)) (seq 0 nt)) as [H|(t & Ht & H)]; auto.
  - apply seq_NoDup.
  - intros t Ht. apply Hz. cbn [known]. apply in_seq in Ht. split; auto. lia.
  - left. assert (H' : forall t, t < nt -> (val (VW t) == 0)%Q) by (intros t Ht; apply H, in_seq; lia). split; auto.
    destruct (is_sat c); auto. exfalso. rewrite (qsum_zero (fun t => val (VW t)) (seq 0 nt)) in H1; [lra|]. intros t Ht. apply H. auto.
  - right. exists t. apply in_seq in Ht. split; [lia|]. intros t' Ht'. apply H, in_seq. lia.
Qed.

(** The cost of a point is at most the weight of its class; the paths to the leaf without class have cost 0. *)
Lemma cost_bound val pick t : is_old c = false -> point val -> shape u l val pick cuts -> t < nt -> (forall t', t' < nt -> (val (VW t') == ind (t' =? t))%Q) ->
  (0 <= cost_of u c val)%Q /\ (cost_of u c val <= wsum pick t)%Q.
Proof.
  intros Ho Hp S Ht Hw. unfold cost_of, wsum.
  assert (G : forall i, In i (seq 0 n_rows) -> forall w, WT i = Some w ->
    (0 <= inject_Z (Z.of_nat w) * val (VZ i))%Q /\ (inject_Z (Z.of_nat w) * val (VZ i) <= inject_Z (Z.of_nat w) * ind (WALKS pick (row_left u i) && (label u i =? t)))%Q).
  { intros i Hi w Ew. apply in_seq in Hi. destruct (point_z val i Ho Hp) as (Z0 & Z1 & Z2); [lia|congruence|]. pose proof (inject_nat_nonneg w) as Hwn.
    split; [nra|]. assert (Hle : (val (VZ i) <= ind (WALKS pick (row_left u i) && (label u i =? t)))%Q); [|nra].
    rewrite (sh_y _ _ _ _ _ S i) in Z1 by (try lia; congruence). rewrite Hw in Z2 by (apply label_lt; auto; lia).
    destruct (WALKS pick (row_left u i)), (label u i =? t); cbn [andb ind] in *; lra. }
  split.
  - apply qsum_nonneg. intros i Hi. fold n_rows in Hi. destruct (WT i) as [w|] eqn:Ew; [|lra]. pose proof (G i Hi w Ew). destruct c; try discriminate; lra.
  - apply qsum_le. intros i Hi. fold n_rows in Hi. destruct (WT i) as [w|] eqn:Ew; [|lra]. pose proof (G i Hi w Ew). destruct c; try discriminate; lra.
Qed.
(** It is a whole number. *)
Lemma cost_whole val : is_old c = false -> point val -> exists n, (cost_of u c val == inject_Z (Z.of_nat n))%Q.
Proof.
  intros Ho [Hp _]. unfold cost_of. fold n_rows.
  assert (G : forall L, (forall i, In i L -> i < n_rows) -> exists n, (qsum (fun i => match WT i with
      | Some w => match c with COld t => ind (label u i =? t) * val (VY i) | _ => inject_Z (Z.of_nat w) * val (VZ i) end | None => 0 end) L == inject_Z (Z.of_nat n))%Q).
  { induction L as [|i L IH]; intros HL; [exists 0; reflexivity|]. destruct IH as [n Hn]; [intros; apply HL; cbn; auto|].
    destruct (WT i) as [w|] eqn:Ew.
    - assert (Hz : zero_one (val (VZ i))) by (apply Hp; cbn [known]; repeat split; auto; [apply HL; cbn; auto|rewrite Ew; discriminate]).
      destruct Hz as [Hz|Hz]; [exists n|exists (w + n)]; rewrite qsum_cons, Ew, Hn, ?inject_nat_plus; destruct c; try discriminate; rewrite Hz; lra.
    - exists n. rewrite qsum_cons, Ew, Hn. lra. }
  apply G. intros i Hi. apply in_seq in Hi. lia.
Qed.
Lemma cost_none val : is_old c = false -> point val -> (forall t, t < nt -> (val (VW t) == 0)%Q) -> (cost_of u c val == 0)%Q.
Proof.
  intros Ho Hp Hw. unfold cost_of. apply qsum_zero. intros i Hi. fold n_rows in Hi. apply in_seq in Hi. destruct (WT i) as [w|] eqn:Ew; [|reflexivity].
  destruct (point_z val i Ho Hp) as (Z0 & _ & Z2); [lia|congruence|]. rewrite Hw in Z2 by (apply label_lt; auto; lia).
  assert (Ez : (val (VZ i) == 0)%Q) by lra. destruct c; try discriminate; rewrite Ez; lra.
Qed.
Lemma cost_old val pick t : c = COld t -> shape u l val pick cuts -> (cost_of u c val == csum pick t)%Q.
Proof.
  intros -> S. unfold cost_of, csum. apply qsum_ext. intros i Hi. apply in_seq in Hi. destruct (WT i) as [w|] eqn:Ew; [|reflexivity].
  rewrite (sh_y _ _ _ _ _ S i) by (try (fold n_rows; lia); congruence). destruct (WALKS pick (row_left u i)), (label u i =? t); cbn [andb ind]; lra.
Qed.

(** The point for a choice of splits and a class. *)
Definition enc (pick : nat -> nat) (t : nat) (kd : vkind) : Q :=
  match kd with
  | VU n k => ind (k =? pick n)
  | VY i => ind (WALKS pick (row_left u i))
  | VC j => ind (WALKS pick (cut_left (nth j cuts [])))
  | VW t' => ind (t' =? t)
  | VZ i => ind (WALKS pick (row_left u i) && (label u i =? t))
  end.
Lemma enc_shape pick t : shape u l (enc pick t) pick cuts.
Proof. constructor; intros; cbn [enc]; try reflexivity. rewrite (nth_error_nth _ _ _ H). reflexivity. Qed.
Lemma one_sum (f : nat -> Q) ks k : NoDup ks -> In k ks -> (forall k', f k' == ind (k' =? k))%Q -> (qsum f ks == 1)%Q.
Proof.
  clear. intros Hn Hk H. transitivity (qsum (fun k' => if Nat.eq_dec k k' then 1 else 0)%Q ks).
  - apply qsum_ext. intros k' _. rewrite H. destruct (Nat.eq_dec k k') as [<-|]; [rewrite Nat.eqb_refl; reflexivity|].
    destruct (Nat.eqb_spec k' k); [congruence|reflexivity].
  - apply (qsum_single (fun _ => 1%Q) Nat.eq_dec ks k Hn Hk).
Qed.
Lemma enc_point pick t : picks u l pick -> (is_old c = false -> t < nt) -> point (enc pick t).
Proof.
  intros Hp Ht. split; [intros kd _; destruct kd; apply zero_one_b|]. apply Forall_forall. intros sc Hin.
  assert (Hbr : forall kd goes, zero_one (enc pick t kd) -> (enc pick t kd == ind (WALKS pick goes))%Q -> In sc (branch_sc u c l kd goes) -> sat_con (enc pick t) sc).
  { intros kd goes Hz E H. assert (HF : Forall (sat_con (enc pick t)) (branch_sc u c l kd goes)).
    { apply (branch_iff u c l V Hl (enc pick t) pick Hp (sh_u _ _ _ _ _ (enc_shape pick t)) kd goes Hz). exact E. }
    rewrite Forall_forall in HF. auto. }
  apply in_app_or in Hin. destruct Hin as [Hin|Hin].
  - unfold base_sc in Hin. apply in_app_or in Hin. destruct Hin as [Hin|Hin]; [|apply in_app_or in Hin; destruct Hin as [Hin|Hin]].
    + apply in_map_iff in Hin. destruct Hin as (n & <- & Hn). unfold sat_con, node_sc, in_bounds. cbn [fst snd].
      assert (E : (term_sum (enc pick t) (map (fun k => (VU n k, 1)) (CANDS n)) == 1)%Q).
      { unfold term_sum. rewrite qsum_map. apply (one_sum _ (CANDS n) (pick n)); [apply cands_ok; auto|apply Hp; auto|]. intros k. cbn [fst snd enc]. lra. }
      split; intros b Hb; injection Hb as <-; rewrite E; lra.
    + apply in_flat_map in Hin. destruct Hin as (i & Hi & Hin). unfold row_sc in Hin. destruct (WT i); [|destruct Hin].
      apply (Hbr (VY i) (row_left u i)); auto; [apply zero_one_b|reflexivity].
    + destruct (is_old c) eqn:Eo; [destruct Hin|]. destruct Hin as [<-|Hin].
      * unfold sat_con, one_class_sc, in_bounds. cbn [fst snd].
        assert (E : (term_sum (enc pick t) (map (fun t => (VW t, 1)) (seq 0 nt)) == 1)%Q).
        { unfold term_sum. rewrite qsum_map. apply (one_sum _ (seq 0 nt) t); [apply seq_NoDup|apply in_seq; specialize (Ht eq_refl); lia|]. intros k. cbn [fst snd enc]. lra. }
        split; intros b Hb; injection Hb as <-; rewrite E; [destruct (is_sat c)|]; lra.
      * apply in_flat_map in Hin. destruct Hin as (i & Hi & Hin). unfold class_sc in Hin. destruct (WT i); [|destruct Hin].
        destruct Hin as [<-|[<-|[]]]; unfold sat_con, in_bounds; cbn [fst snd]; (split; [discriminate|]); intros b Hb; injection Hb as <-;
          unfold term_sum; rewrite !qsum_cons; cbn [fst snd enc qsum fold_right]; fold (label u i);
          destruct (WALKS pick (row_left u i)), (label u i =? t); cbn [andb ind]; lra.
  - unfold cuts_sc in Hin. apply in_flat_map in Hin. destruct Hin as ([j z] & Hjz & Hin). unfold cut_sc in Hin. cbn [fst snd] in Hin.
    apply (Hbr (VC j) (cut_left z)); auto; [apply zero_one_b|]. cbn [enc].
    assert (Ez : nth_error cuts j = Some z).
    { clear - Hjz. assert (G : forall cs s, In (j, z) (combine (seq s (length cs)) cs) -> s <= j /\ nth_error cs (j - s) = Some z).
      { induction cs as [|z0 cs IH]; intros s H; [destruct H|]. cbn in H. destruct H as [H|H].
        - injection H as <- <-. rewrite Nat.sub_diag. auto.
        - apply IH in H. destruct H as [H1 H2]. split; [lia|]. replace (j - s) with (S (j - S s)) by lia. exact H2. }
      destruct (G cuts 0 Hjz) as [_ H]. rewrite Nat.sub_0_r in H. exact H. }
    rewrite (nth_error_nth _ _ _ Ez). reflexivity.
Qed.
Lemma enc_cost pick t : is_old c = false -> (cost_of u c (enc pick t) == wsum pick t)%Q.
Proof.
  intros Ho. unfold cost_of, wsum. apply qsum_ext. intros i _. destruct (WT i); [|reflexivity]. destruct c; try discriminate; reflexivity.
Qed.
End Mip.

(** Further initial paths and the rows of the splits (proofs). *)
From Coq Require Import Sorted.
From Verif Require Import Base Lp LpProofs TreeModel ExpModel SpecTree SpecTreeRun SpecTreeLp SpecExp SpecPrep TreeGeoProofs TreePathProofs TreeLpBuild TreeBuildProofs TreeInvProofs
  ExpSplitProofs ExpCartProofs ExpReduceProofs ExpPathProofs PrepMergeProofs PrepNodesProofs PropTree.
Open Scope nat_scope.

(** * Splits with the same tests *)
Definition same_tests (splits splits' : list split) : Prop :=
  Forall2 (fun s s' => s_id s' = s_id s /\ s_feature s' = s_feature s /\ s_threshold s' = s_threshold s) splits splits'.
Lemma same_tests_refl splits : same_tests splits splits.
Proof. induction splits; constructor; auto. Qed.
Lemma same_tests_trans a b c : same_tests a b -> same_tests b c -> same_tests a c.
Proof.
  intros H. revert c. induction H as [|s s' a b (H1 & H2 & H3) H IH]; intros c H'; inversion H' as [|? s2 ? c2 (K1 & K2 & K3) K]; subst; constructor.
  - split; [congruence|]. split; congruence.
  - apply IH. auto.
Qed.
Lemma same_tests_left splits splits' x k : same_tests splits splits' -> goes_left splits' x k = goes_left splits x k.
Proof.
  intros H. unfold goes_left. destruct (nth_error splits k) as [s|] eqn:E.
  - destruct (Forall2_nth_l _ _ _ _ _ H E) as (s' & -> & _ & H2 & H3). unfold sample_left. rewrite H2, H3. reflexivity.
  - assert (nth_error splits' k = None) as ->; auto. apply nth_error_None. rewrite <- (Forall2_length' _ _ _ H). apply nth_error_None. auto.
Qed.
Lemma same_tests_covers X leaves splits splits' r p : same_tests splits splits' ->
  covers X leaves splits' (KRow r) p <-> covers X leaves splits (KRow r) p.
Proof.
  intros H. cbn [covers]. split; intros (x & lf & E1 & E2 & F); exists x, lf; (split; [auto|]); (split; [auto|]); intros n k Hin; specialize (F n k Hin).
  - rewrite (same_tests_left splits splits' x k H) in F. auto.
  - rewrite (same_tests_left splits splits' x k H). auto.
Qed.
Lemma same_tests_class d X y splits splits' p t rs : same_tests splits splits' -> class_rows d X y splits' p t rs <-> class_rows d X y splits p t rs.
Proof.
  intros H. unfold class_rows. split; intros [N I]; (split; [auto|]); intros r; rewrite I; [rewrite (same_tests_covers _ _ _ _ _ _ H)|rewrite <- (same_tests_covers _ _ _ _ _ _ H)]; tauto.
Qed.
Lemma same_tests_majority d X y splits splits' p : same_tests splits splits' -> majority_path d X y splits p -> majority_path d X y splits' p.
Proof.
  intros H (t & rs & H1 & H2 & H3 & H4 & H5). exists t, rs. split; auto. split; auto. split; [apply (same_tests_class d X y splits); auto|]. split; auto.
  intros t' rs' Hr. apply (H5 t' rs'). apply (same_tests_class d X y splits splits'); auto.
Qed.
Lemma same_tests_path d splits splits' p : same_tests splits splits' -> tree_path d splits p -> tree_path d splits' p.
Proof. intros H (A & B & C & D). split; auto. split; auto. split; auto. rewrite <- (Forall2_length' _ _ _ H). auto. Qed.
Lemma same_tests_fits splits splits' x : same_tests splits splits' -> fits splits x -> fits splits' x.
Proof. intros H F s' Hs. destruct (Forall2_In_r _ _ _ _ H Hs) as (s & Hin & _ & E & _). rewrite E. auto. Qed.

(** * get_path_for_leaf *)
(** The CART tree has a split that was not removed at position [h]. *)
Definition usable (ns : ndict) (splits : list split) (h : nat) : Prop :=
  exists nd k s, assoc Nat.eqb ns h = Some nd /\ en_last nd = Some k /\ nth_error splits k = Some s /\ s_removed s = false.
Lemma path_choices_some ns splits fs : Forall (usable ns splits) fs -> exists ks, path_choices ns splits fs = Ok (Some ks).
Proof.
  induction 1 as [|f fs (nd & k & s & Ea & El & Es & Er) _ (ks & IH)]; cbn [path_choices]; [eauto|].
  rewrite Ea, El, (getitem_nth _ _ _ Es). cbn [bind]. rewrite Er, IH. cbn [bind]. eauto.
Qed.
Lemma path_choices_ok (ns : ndict) splits : (forall h nd k, assoc Nat.eqb ns h = Some nd -> en_last nd = Some k -> k < length splits) ->
  forall fs, exists o, path_choices ns splits fs = Ok o /\
    forall ks, o = Some ks -> length ks = length fs /\
      forall f k, In (f, k) (combine fs ks) -> exists nd s, assoc Nat.eqb ns f = Some nd /\ en_last nd = Some k /\ nth_error splits k = Some s /\ s_removed s = false.
Proof.
  intros H. induction fs as [|f fs (o & IH & IH2)]; cbn [path_choices].
  - exists (Some []). split; auto. intros ks E. injection E as <-. split; auto. intros f k [].
  - destruct (assoc Nat.eqb ns f) as [nd|] eqn:Ea; [|exists None; split; auto; discriminate].
    destruct (en_last nd) as [k|] eqn:El; [|exists None; split; auto; discriminate].
    destruct (nth_error_some_lt splits k (H f nd k Ea El)) as (s & Es). rewrite (getitem_nth _ _ _ Es). cbn [bind].
    destruct (s_removed s) eqn:Er; [exists None; split; auto; discriminate|]. rewrite IH. cbn [bind]. eexists. split; [reflexivity|].
    intros ks. destruct o as [ks'|]; [|discriminate]. intros E. injection E as <-. destruct (IH2 ks' eq_refl) as [L P]. cbn [length]. split; [congruence|].
    intros f0 k0 [E|Hin]; [injection E as <- <-; eauto 6|auto].
Qed.

(** What holds of every initial path. *)
Definition path_okay d X y splits (p : path) : Prop := tree_path d splits p /\ majority_path d X y splits p /\ p_initial p = false.

Lemma get_path_ok ns d splits X y l : l < 2 ^ d -> length y = length X -> 0 < length X -> Forall (fits splits) X ->
  (forall h nd k, assoc Nat.eqb ns h = Some nd -> en_last nd = Some k -> k < length splits) ->
  exists o, get_path_for_leaf (create_leaf l d) ns d splits X y = Ok o /\ ((forall h, h < 2 ^ d - 1 -> usable ns splits h) -> o <> None) /\
    forall p, o = Some p -> p_leaf p = l /\ path_okay d X y splits p /\
      forall n k, In (n, k) (choices p) -> exists nd s, assoc Nat.eqb ns n = Some nd /\ en_last nd = Some k /\ nth_error splits k = Some s /\ s_removed s = false.
Proof.
  intros Hl Hy Hx Hf Hn. unfold get_path_for_leaf. cbv zeta.
  assert (El : l_id (create_leaf l d) = l) by (unfold create_leaf; destruct (create_leaf_loop _ _ _ _); reflexivity). rewrite El.
  destruct (fathers_nodes d l Hl) as (P & Len & A & R).
  destruct (path_choices_ok ns splits Hn (map fst (fathers_of d l))) as (o & E & Ho). rewrite E. cbn [bind].
  destruct o as [ks|].
  2: { exists None. split; auto. split; [|discriminate]. intros Hu. exfalso. destruct (path_choices_some ns splits (map fst (fathers_of d l))) as (ks & Ek); [|congruence].
       apply Forall_forall. intros f Hin. apply Hu. rewrite Forall_forall in R. apply R. exact Hin. }
  destruct (Ho ks eq_refl) as [L C].
  assert (Hks : Forall (fun k => k < length splits) ks).
  { apply Forall_forall. intros k Hk. destruct (combine_In_snd_ex (map fst (fathers_of d l)) ks k) as (n & Hin); auto.
    destruct (C n k Hin) as (nd & s & _ & _ & Es & _). apply nth_error_Some. congruence. }
  destruct (finish_path_ok d splits X y l 0 (map fst (fathers_of d l)) ks) as (p & Ep & E1 & E2 & E3 & E4 & E5 & M); auto.
  rewrite Ep. cbn [bind]. exists (Some p). split; auto. split; [discriminate|]. intros p' E'. injection E' as <-. split; auto. split.
  - split; [|auto]. split; [congruence|]. rewrite E1, E2, E3. split; auto. split; auto. rewrite L, map_length. auto.
  - intros n k Hin. unfold choices in Hin. rewrite E2, E3 in Hin. apply C. auto.
Qed.

(** * add_tree_paths *)
Lemma okay_proper d X y splits p : path_okay d X y splits p -> proper_path p.
Proof.
  intros ((H1 & H2 & H3 & _) & _). split.
  - rewrite (Permutation_length H2), (proj1 (proj2 (proj2 (C33_create_leaf d (p_leaf p) H1)))); auto.
  - eapply Permutation_NoDup; [apply Permutation_sym; exact H2|]. apply (C33_create_leaf d (p_leaf p) H1).
Qed.
Lemma known_ok p paths : proper_path p -> Forall proper_path paths -> exists b, known p paths = Ok b /\ (b = true <-> exists q, In q paths /\ same_path p q).
Proof.
  intros Hp Hq. unfold known.
  assert (G : forall b0 : bool, exists b, for_each paths (fun q b => if (b : bool) then Ok b else is_same_as p q) b0 = Ok b /\
            (b = true <-> b0 = true \/ exists q, In q paths /\ same_path p q)).
  { induction Hq as [|q paths Hq _ IH]; intros b0; cbn [for_each].
    - exists b0. split; auto. split; [auto|]. intros [H|(q & [] & _)]; auto.
    - destruct b0.
      + cbn [bind]. destruct (IH true) as (b & E & Hb). exists b. split; auto. split; auto. intros _. apply Hb. auto.
      + destruct (C50_is_same_as p q Hp Hq) as (b1 & E1 & Hb1). rewrite E1. cbn [bind]. destruct (IH b1) as (b & E & Hb). exists b. split; auto.
        rewrite Hb, Hb1. split.
        * intros [H|(q' & Hin & H)]; right; [exists q; split; [left|]; auto|exists q'; split; [right|]; auto].
        * intros [H|(q' & [<-|Hin] & H)]; [discriminate|auto|right; eauto]. }
  destruct (G false) as (b & E & Hb). exists b. split; auto. rewrite Hb. split; [intros [H|H]; [discriminate|auto]|auto].
Qed.

(** The list of paths: ids in order, all different. *)
Definition numbered (paths : list path) : Prop := map p_id paths = seq 0 (length paths).
Definition all_differ (paths : list path) : Prop :=
  forall i j p q, i < j -> nth_error paths i = Some p -> nth_error paths j = Some q -> ~ same_path q p.
Lemma numbered_snoc paths p : numbered paths -> p_id p = length paths -> numbered (paths ++ [p]).
Proof. unfold numbered. intros H E. rewrite map_app, app_length, H. cbn [map length]. rewrite E, seq_app. reflexivity. Qed.
Lemma differ_snoc paths p : all_differ paths -> (forall q, In q paths -> ~ same_path p q) -> all_differ (paths ++ [p]).
Proof.
  intros H Hp i j a b Hij Ea Eb. destruct (Nat.lt_ge_cases j (length paths)) as [Hj|Hj].
  - rewrite nth_error_app1 in Ea by lia. rewrite nth_error_app1 in Eb by lia. eauto.
  - rewrite nth_error_app2 in Eb by lia. destruct (j - length paths) as [|n] eqn:En; cbn in Eb; [|destruct n; discriminate]. injection Eb as <-.
    assert (i < length paths) by lia. rewrite nth_error_app1 in Ea by lia. apply Hp. eapply nth_error_In; eauto.
Qed.

Lemma add_tree_ok ns d splits X y (U : nat -> nat -> Prop) paths : length y = length X -> 0 < length X -> Forall (fits splits) X ->
  (forall h nd k, assoc Nat.eqb ns h = Some nd -> en_last nd = Some k -> k < length splits) ->
  (forall h nd k s, assoc Nat.eqb ns h = Some nd -> en_last nd = Some k -> nth_error splits k = Some s -> s_removed s = false -> U h k) ->
  Forall (path_okay d X y splits) paths -> numbered paths -> all_differ paths ->
  exists new, add_tree_paths (complete_leaves d) ns d splits X y paths = Ok (paths ++ new) /\
    Forall (path_okay d X y splits) (paths ++ new) /\ numbered (paths ++ new) /\ all_differ (paths ++ new) /\
    Forall (fun p => forall n k, In (n, k) (choices p) -> U n k) new /\
    ((forall h, h < 2 ^ d - 1 -> usable ns splits h) -> forall l, l < 2 ^ d -> exists p, In p (paths ++ new) /\ p_leaf p = l /\
       forall n k, In (n, k) (choices p) -> exists nd, assoc Nat.eqb ns n = Some nd /\ en_last nd = Some k).
Proof.
  intros Hy Hx Hf Hn HU P0 N0 D0. unfold add_tree_paths.
  match goal with |- context [for_each _ ?b _] =>
    destruct (for_each_steps (complete_leaves d) b (fun u ps => exists new, ps = paths ++ new /\ Forall (path_okay d X y splits) ps /\ numbered ps /\ all_differ ps /\
      Forall (fun p => forall n k, In (n, k) (choices p) -> U n k) new /\
      ((forall h, h < 2 ^ d - 1 -> usable ns splits h) -> forall l, l < 2 ^ d -> In (create_leaf l d) u -> exists p, In p ps /\ p_leaf p = l /\
         forall n k, In (n, k) (choices p) -> exists nd, assoc Nat.eqb ns n = Some nd /\ en_last nd = Some k)) paths) as (ps & E & new & -> & H) end.
  - exists []. rewrite app_nil_r. do 5 (split; auto). intros _ l _ [].
  - intros u lf v ps Eu (new & -> & HP & HN & HD & HC & HA).
    assert (Hl : exists l, l < 2 ^ d /\ lf = create_leaf l d).
    { assert (Hin : In lf (complete_leaves d)) by (rewrite Eu; apply in_or_app; right; left; auto). unfold complete_leaves in Hin. apply in_map_iff in Hin.
      destruct Hin as (l & <- & Hl). apply in_seq in Hl. exists l. split; [lia|auto]. }
    destruct Hl as (l & Hl & ->). destruct (get_path_ok ns d splits X y l Hl Hy Hx Hf Hn) as (o & Eo & Hsome & Ho). rewrite Eo. cbn [bind].
    assert (Hid : forall l', create_leaf l' d = create_leaf l d -> l' = l).
    { intros l' H. apply (f_equal l_id) in H. unfold create_leaf in H. destruct (create_leaf_loop (_ + l') _ _ _), (create_leaf_loop (_ + l) _ _ _). exact H. }
    destruct o as [p|].
    2: { exists (paths ++ new). split; [auto|]. exists new. do 5 (split; auto). intros Hu. exfalso. apply (Hsome Hu). reflexivity. }
    destruct (Ho p eq_refl) as (Hpl & Hp & Hc).
    assert (HA' : forall ps, incl (paths ++ new) ps -> (exists q, In q ps /\ p_leaf q = l /\ forall n k, In (n, k) (choices q) <-> In (n, k) (choices p)) ->
      (forall h, h < 2 ^ d - 1 -> usable ns splits h) -> forall l', l' < 2 ^ d -> In (create_leaf l' d) (u ++ [create_leaf l d]) -> exists p, In p ps /\ p_leaf p = l' /\
         forall n k, In (n, k) (choices p) -> exists nd, assoc Nat.eqb ns n = Some nd /\ en_last nd = Some k).
    { intros ps Hi (q & Hq & Hql & Hqc) Hu l' Hl' Hin. apply in_app_or in Hin. destruct Hin as [Hin|[Hin|[]]].
      - destruct (HA Hu l' Hl' Hin) as (p' & Hp' & H'). exists p'. split; [apply Hi; auto|auto].
      - rewrite (Hid l' (eq_sym Hin)). exists q. split; auto. split; auto. intros n k Hnk. apply Hqc in Hnk. destruct (Hc n k Hnk) as (nd & s & Ea & El & _). eauto. }
    destruct (known_ok p (paths ++ new)) as (b & Eb & Hb); [eapply okay_proper; eauto|eapply Forall_impl; [|exact HP]; apply okay_proper|]. rewrite Eb. cbn [bind].
    destruct b.
    { exists (paths ++ new). split; [auto|]. exists new. do 5 (split; auto). apply HA'; [apply incl_refl|]. destruct (proj1 Hb eq_refl) as (q & Hq & (Q1 & _ & _ & Q2)).
      exists q. split; auto. split; [congruence|]. intros n k. symmetry. apply Q2. }
    eexists. split; [reflexivity|]. set (p' := mkPath _ _ _ _ _ _ _). exists (new ++ [p']). rewrite app_assoc. split; auto. split; [|split; [|split; [|split]]].
    + apply Forall_app. split; [assumption|]. constructor; [|constructor]. exact Hp.
    + apply numbered_snoc; auto.
    + apply differ_snoc; auto. intros q Hq Hs. apply Bool.diff_false_true. apply Hb. exists q. split; auto.
    + apply Forall_app. split; [assumption|]. constructor; [|constructor]. intros n k Hin. destruct (Hc n k Hin) as (nd & s & Ea & El & Es & Er). eapply HU; eauto.
    + apply HA'; [apply incl_appl, incl_refl|]. exists p'. split; [apply in_or_app; right; left; auto|]. split; [exact Hpl|]. reflexivity.
  - exists new. destruct H as (H1 & H2 & H3 & H4 & H5). do 5 (split; auto). intros Hu l Hl. apply (H5 Hu l Hl). unfold complete_leaves. apply in_map_iff. exists l. split; auto. apply in_seq. lia.
Qed.

(** * add_rows_to_splits *)
Definition recorded_upto (X : list sample) (n : nat) (s : split) : Prop :=
  NoDup (s_lrows s) /\ NoDup (s_rrows s) /\
  (forall r, In r (s_lrows s) <-> r < n /\ exists x, nth_error X r = Some x /\ sample_left x s = true) /\
  (forall r, In r (s_rrows s) <-> r < n /\ exists x, nth_error X r = Some x /\ sample_left x s = false).
Definition otherwise_same (s s' : split) : Prop :=
  s_id s' = s_id s /\ s_feature s' = s_feature s /\ s_threshold s' = s_threshold s /\ s_removed s' = s_removed s /\ s_lcuts s' = s_lcuts s /\ s_rcuts s' = s_rcuts s.
Lemma add_row_ok (X : list sample) r (x : sample) s : nth_error X r = Some x -> s_feature s < length x -> recorded_upto X r s ->
  exists s', add_row r x s = Ok s' /\ otherwise_same s s' /\ recorded_upto X (S r) s'.
Proof.
  intros Ex Hf (N1 & N2 & R1 & R2). unfold add_row. destruct (nth_error_some_lt x _ Hf) as (v & Ev). rewrite (getitem_nth _ _ _ Ev). cbn [bind].
  assert (Es : sample_left x s = Qle_bool v (s_threshold s)) by (unfold sample_left; erewrite nth_error_nth; eauto).
  eexists. split; [reflexivity|]. destruct (Qle_bool v (s_threshold s)); (split; [repeat split|]); unfold recorded_upto; cbn [s_lrows s_rrows].
  - split; [apply set_add_NoDup; auto|]. split; auto. split.
    + intros r'. rewrite set_add_In, R1. split.
      * intros [->|[H1 H2]]; [split; [lia|]; exists x; split; [exact Ex|exact Es]|split; [lia|exact H2]].
      * intros (H1 & x' & H2 & H3). destruct (Nat.eq_dec r' r) as [->|Hne]; [left; auto|right; split; [lia|exists x'; split; [exact H2|exact H3]]].
    + intros r'. rewrite R2. split; intros (H1 & x' & H2 & H3); (split; [|exists x'; split; [exact H2|exact H3]]); [lia|].
      destruct (Nat.eq_dec r' r) as [->|Hne]; [|lia]. rewrite Ex in H2. injection H2 as <-. change (sample_left x s = false) in H3. congruence.
  - split; auto. split; [apply set_add_NoDup; auto|]. split.
    + intros r'. rewrite R1. split; intros (H1 & x' & H2 & H3); (split; [|exists x'; split; [exact H2|exact H3]]); [lia|].
      destruct (Nat.eq_dec r' r) as [->|Hne]; [|lia]. rewrite Ex in H2. injection H2 as <-. change (sample_left x s = true) in H3. congruence.
    + intros r'. rewrite set_add_In, R2. split.
      * intros [->|[H1 H2]]; [split; [lia|]; exists x; split; [exact Ex|exact Es]|split; [lia|exact H2]].
      * intros (H1 & x' & H2 & H3). destruct (Nat.eq_dec r' r) as [->|Hne]; [left; auto|right; split; [lia|exists x'; split; [exact H2|exact H3]]].
Qed.
Lemma same_other a b : Forall2 otherwise_same a b -> same_tests a b.
Proof. intros H. induction H as [|s s' a b (H1 & H2 & H3 & _) H IH]; constructor; auto. Qed.
Lemma other_trans a b c : Forall2 otherwise_same a b -> Forall2 otherwise_same b c -> Forall2 otherwise_same a c.
Proof.
  intros H. revert c. induction H as [|s s' a b (H1 & H2 & H3 & H4 & H5 & H6) H IH]; intros c K; inversion K as [|? s2 ? c2 (K1 & K2 & K3 & K4 & K5 & K6) K']; subst; constructor; auto.
  unfold otherwise_same. rewrite K1, K2, K3, K4, K5, K6. auto 8.
Qed.
Lemma add_rows_ok splits X : Forall (fits splits) X -> Forall (fun s => s_lrows s = [] /\ s_rrows s = []) splits ->
  exists splits', add_rows_to_splits splits X = Ok splits' /\ Forall2 otherwise_same splits splits' /\ rows_recorded X splits' /\
    Forall (fun s => NoDup (s_lrows s) /\ NoDup (s_rrows s)) splits'.
Proof.
  intros Hf H0. unfold add_rows_to_splits.
  match goal with |- context [for_each _ ?b _] =>
    destruct (for_each_steps (seq 0 (length X)) b (fun u sp => Forall2 otherwise_same splits sp /\ Forall (recorded_upto X (length u)) sp) splits) as (sp & E & S & R) end.
  - split; [clear; induction splits; constructor; auto; repeat split|]. eapply Forall_impl; [|exact H0]. intros s [E1 E2]. unfold recorded_upto. rewrite E1, E2. cbn [length].
    split; [constructor|]. split; [constructor|]. split; intros r; cbn; (split; [contradiction|intros [H _]; lia]).
  - intros u r v sp Eu (S & R).
    assert (Hu : r = length u).
    { assert (E : nth_error (seq 0 (length X)) (length u) = Some r) by (rewrite Eu, nth_error_app2, Nat.sub_diag by auto; reflexivity).
      assert (Hl : length u < length X) by (rewrite <- (seq_length (length X) 0), Eu, app_length; cbn; lia).
      rewrite (nth_error_nth' _ 0) in E by (rewrite seq_length; auto). rewrite seq_nth in E by auto. injection E as E. auto. }
    assert (Hr : r < length X) by (subst r; rewrite <- (seq_length (length X) 0), Eu, app_length; cbn; lia).
    rewrite app_length. cbn [length]. rewrite <- Hu in *. clear Hu Eu. replace (r + 1) with (Datatypes.S r) by lia.
    destruct (nth_error_some_lt X r Hr) as (x & Ex).
    assert (Hfx : fits sp x) by (eapply same_tests_fits; [apply same_other; exact S|]; rewrite Forall_forall in Hf; apply Hf; eapply nth_error_In; eauto).
    destruct (map_res_Forall2 (add_row r x) (fun s s' => otherwise_same s s' /\ recorded_upto X (Datatypes.S r) s') sp) as (sp' & E & F).
    { intros s Hs. rewrite Forall_forall in R. apply (add_row_ok X r x s Ex (Hfx s Hs) (R s Hs)). }
    exists sp'. split; [|split].
    + destruct sp; [cbn in E; auto|]. rewrite (getitem_nth _ _ _ Ex). cbn [bind]. exact E.
    + eapply other_trans; [exact S|]. clear -F. induction F as [|a b l m [H _] F IH]; constructor; auto.
    + apply Forall_forall. intros s' Hs'. destruct (Forall2_In_r _ _ _ _ F Hs') as (s & _ & _ & H). auto.
  - rewrite seq_length in R. exists sp. split; auto. split; auto. rewrite Forall_forall in R. split.
    + intros s Hs. destruct (R s Hs) as (_ & _ & R1 & R2). split; intros r; [rewrite R1|rewrite R2]; (split; [intros [_ H]; auto|]);
        intros (x & Ex & H); (split; [apply nth_error_Some; congruence|eauto]).
    + apply Forall_forall. intros s Hs. destruct (R s Hs) as (N1 & N2 & _). auto.
Qed.

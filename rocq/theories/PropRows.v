(** C73: what preprocessing records about rows and nodes, and which rows the master problem's own preprocessing removes. *)
From Verif Require Import Base Lp LpProofs TreeModel SpecTree TreeGeoProofs TreePathProofs TreeLpBuild TreeInvProofs TreeFormProofs
  TreeBuildProofs SpecTreeRun TreeRunProofs SpecTreeLp TreeLpProofs TreeReachProofs ExpModel SpecExp SpecRows ExpRowProofs ExpQuadProofs ExpPreprocessProofs
  TreeAggrProofs RowsProofs SpecTreePrice PropTreeMaster PropTreeLp PropExpRows TreeCheck.
Open Scope nat_scope.

(** preprocess of the experiment script. *)
Theorem C73_experiment_records : forall u aggressive limit clk u', valid_setup u -> valid_data u -> fresh_nodes u -> preprocessed u aggressive limit clk u' ->
  exists rows, su_rows u' = Some rows /\ length rows = length (su_X u) /\
    (forall r x b, nth_error (su_X u) r = Some x -> nth_error rows r = Some b -> describes u x b) /\
    forall i nd, nth_error (su_nodes u') i = Some nd -> linked (su_depth u) i nd.
Proof.
  intros u aggressive limit clk u' (W & _) (Hy & _) Hf (nodes & rows & E & ->).
  destruct (preprocess_ok _ _ _ _ _ W Hy Hf aggressive limit clk) as (rows' & rep & E' & L & _ & _ & _ & _ & _ & _ & _ & H & _).
  rewrite E in E'. injection E' as -> ->. exists rows'. split; auto. split; auto. split.
  - intros r x b Ex Eb. destruct (H r b Eb) as ((x' & Ex' & HL & HR) & Hr). assert (x' = x) by congruence. subst x'.
    apply (described (su_depth u) (su_X u) (su_nodes u) (su_splits u)); auto.
  - intros i nd Ei. cbn [su_nodes] in Ei. eapply linked_ok; eauto.
Qed.
Print Assumptions C73_experiment_records.

(** preprocess_rows of the master problem: every row is described, the recorded paths are those that cover it, and a row is removed
    from the master problem iff it can reach at most two leaves or, in aggressive mode, follows the same paths as an earlier row
    that is kept. *)
Theorem C73_master_rows : forall u aggressive, valid_setup u -> fresh_nodes u -> exists nodes rows,
  preprocess_rows aggressive (su_X u) (su_leaves u) (su_nodes u) (su_splits u) (su_paths u) = Ok (nodes, rows) /\
  (forall i nd, nth_error nodes i = Some nd -> linked (su_depth u) i nd) /\ length rows = length (su_X u) /\
  forall r x b, nth_error (su_X u) r = Some x -> nth_error rows r = Some b ->
    describes u x b /\
    (forall v, In v (r_paths b) <-> exists p, In p (su_paths u) /\ p_id p = v /\ covers (su_X u) (su_leaves u) (su_splits u) (KRow r) p) /\
    r_gone_sp b = false /\ r_weight b = 1 /\
    (few_leaves (su_depth u) (su_X u) (su_nodes u) (su_splits u) r -> r_gone b = true) /\
    (r_gone b = true -> few_leaves (su_depth u) (su_X u) (su_nodes u) (su_splits u) r \/
       aggressive = true /\ exists r' b', r' < r /\ nth_error rows r' = Some b' /\ r_gone b' = false /\ same_way (su_depth u) (su_X u) (su_nodes u) (su_splits u) r' r) /\
    (aggressive = true -> Forall (fun n => n_cands n <> []) (su_nodes u) ->
       forall r' b', r' < r -> nth_error rows r' = Some b' -> r_gone b' = false -> same_way (su_depth u) (su_X u) (su_nodes u) (su_splits u) r' r -> r_gone b = true).
Proof.
  intros u aggressive (W & Hp & _) Hf. set (d := su_depth u) in *. set (nodes1 := map (preprocess_node d) (su_nodes u)).
  pose proof (wt_depth _ _ _ _ W) as Hd. pose proof (wt_nodes _ _ _ _ W) as Hn. pose proof (bottom_none d (su_nodes u) Hf) as Hb.
  destruct (preprocess_rows_ok d (su_X u) (su_nodes u) (su_splits u) W (su_paths u) Hp) as (rows0 & E0 & F0). fold nodes1 in E0, F0.
  assert (L0 : length rows0 = length (su_X u)) by (symmetry; eapply Forall2_length'; eauto).
  assert (At : forall r b, nth_error rows0 r = Some b -> exists x, nth_error (su_X u) r = Some x /\ row_recorded d (su_splits u) (su_paths u) nodes1 x b /\
     (forall k, In k (r_left b) <-> exists s, nth_error (su_splits u) k = Some s /\ sample_left x s = true) /\
     (forall k, In k (r_right b) <-> exists s, nth_error (su_splits u) k = Some s /\ sample_left x s = false)).
  { intros r b Eb. destruct (Forall2_nth_r _ _ _ _ _ F0 Eb) as (x & Ex & H). exists x. split; auto. split; auto. destruct H as (_ & H1 & H2 & _).
    split; intros k; [rewrite H1|rewrite H2]; (split; [intros (s & Hs & Ek & Hl); apply In_nth_error in Hs; destruct Hs as [i Hi];
      rewrite (wt_ids _ _ _ _ W i s Hi) in Ek; subst i; eauto|intros (s & Hs & Hl); exists s; split; [eapply nth_error_In; eauto|]; split; auto; exact (wt_ids _ _ _ _ W k s Hs)]). }
  set (mb := fun i j => match nth_error rows0 i, nth_error rows0 j with
                        | Some a, Some b => match rows_match nodes1 a b with Ok m => m | Err _ => false end | _, _ => false end).
  assert (M : forall i j a b, nth_error rows0 i = Some a -> nth_error rows0 j = Some b ->
    rows_match nodes1 a b = Ok (mb i j) /\ (mb i j = true <-> alike d (su_nodes u) (r_left a) (r_left b))).
  { intros i j a b Ea Eb. destruct (At i a Ea) as (_ & _ & (_ & _ & _ & Ra & _) & _). destruct (At j b Eb) as (_ & _ & (_ & _ & _ & Rb & _) & _).
    destruct (rows_match_ok d (su_nodes u) Hd Hn Hb a b _ _ (eq_sym Ra) (eq_sym Rb)) as (m & E & Hm). unfold mb. rewrite Ea, Eb. unfold nodes1. rewrite E. auto. }
  assert (Mw : forall i j, i < length rows0 -> j < length rows0 -> mb i j = true -> same_way d (su_X u) (su_nodes u) (su_splits u) i j).
  { intros i j Hi Hj H. destruct (nth_error_some_lt rows0 i Hi) as [a Ea]. destruct (nth_error_some_lt rows0 j Hj) as [b Eb].
    destruct (At i a Ea) as (x & Ex & (_ & _ & _ & Ra & Ga & Sa & Wa) & HL & _). destruct (At j b Eb) as (x' & Ex' & (_ & _ & _ & Rb & Gb & Sb & Wb) & HL' & _).
    apply (M i j a b Ea Eb) in H. intros p Tp Up. assert (Hlf : p_leaf p < 2 ^ d) by apply Tp.
    assert (K : forall i x a, nth_error (su_X u) i = Some x -> (forall k, memb k (r_left a) = goes_left (su_splits u) x k) ->
      (covers (su_X u) (complete_leaves d) (su_splits u) (KRow i) p <-> follows (create_leaf (p_leaf p) d) (fun k => memb k (r_left a)) p)).
    { clear - Hlf. intros i x a Ex Hl. cbn [covers]. rewrite (complete_leaves_nth _ _ Hlf), Ex.
      assert (Eq : follows (create_leaf (p_leaf p) d) (fun k => memb k (r_left a)) p <-> follows (create_leaf (p_leaf p) d) (goes_left (su_splits u) x) p).
      { unfold follows. split; intros H m k Hin; [rewrite <- Hl|rewrite Hl]; auto. }
      rewrite Eq. split; [intros (x' & lf & E1 & E2 & Hf); injection E1 as <-; injection E2 as <-; auto|eauto 6]. }
    rewrite (K i x a), (K j x' b) by (auto; intros k; apply left_memb; auto). split; apply (alike_follows d (su_nodes u) Hd _ _ p (su_splits u)); auto.
    apply alike_sym; auto. }
  assert (Few : forall r a, nth_error rows0 r = Some a -> (r_gone a = true <-> few_leaves d (su_X u) (su_nodes u) (su_splits u) r)).
  { intros r a Ea. destruct (At r a Ea) as (x & Ex & (_ & _ & _ & Ra & -> & _) & HL & HR).
    destruct (described d (su_X u) (su_nodes u) (su_splits u) W Hf u x a eq_refl eq_refl eq_refl HL HR (eq_sym Ra)) as [_ _ _ Nd Hr].
    rewrite Nat.leb_le. split.
    - intros H. exists x, (r_leaves a). split; auto. split; auto. intros l. apply Hr.
    - intros (x' & R & Ex' & HR' & Hall). assert (x' = x) by congruence. subst x'. apply Nat.le_trans with (length R); auto.
      apply NoDup_incl_length; auto. intros l H. apply Hall, Hr. auto. }
  assert (T : exists rows, preprocess_rows aggressive (su_X u) (su_leaves u) (su_nodes u) (su_splits u) (su_paths u) = Ok (nodes1, rows) /\
    looped rows0 (fun i j => aggressive && mb i j) (length rows0) rows).
  { assert (HE : preprocess_rows aggressive (su_X u) (su_leaves u) (su_nodes u) (su_splits u) (su_paths u) =
      if aggressive then let* rows1 := aggressive_loop nodes1 rows0 in Ok (nodes1, rows1) else Ok (nodes1, rows0)).
    { unfold preprocess_rows in E0 |- *. fold d in E0 |- *. change (su_leaves u) with (complete_leaves d). cbv zeta in *.
      destruct (length (complete_leaves d) =? 0); [discriminate|]. destruct (map_res _ (su_X u)) as [rs|]; [|discriminate]. cbn [bind] in *.
      destruct (length (su_X u) =? 0); [discriminate|]. injection E0 as E1 E2. rewrite E1, E2. destruct aggressive; reflexivity. }
    rewrite HE. destruct aggressive.
    - destruct (aggressive_loop_ok nodes1 rows0 mb) as (rows & E & H); [intros i j a b Ea Eb; apply (M i j a b Ea Eb)|]. rewrite E. cbn [bind andb]. eauto.
    - exists rows0. split; auto. split; auto. intros r b0 b E1 E2. assert (b = b0) by congruence. subst b. split; [left; auto|]. cbn [andb].
      split; auto. intros [?|(r' & b' & _ & _ & _ & _ & ?)]; [auto|discriminate]. }
  destruct T as (rows & E & L & H). exists nodes1, rows. split; auto. split; [intros i nd; apply (linked_ok d (su_X u) (su_nodes u) (su_splits u) W Hf)|]. split; [congruence|].
  intros r x b Ex Eb. assert (Hr : r < length rows0) by (rewrite <- L; apply nth_error_Some; congruence).
  destruct (nth_error_some_lt rows0 r Hr) as [b0 Eb0]. destruct (H r b0 b Eb0 Eb) as (Mb & Hg).
  destruct (At r b0 Eb0) as (x0 & Ex0 & (HP & _ & _ & Ra & _ & Sa & Wa) & HL & HR). assert (x0 = x) by congruence. subst x0.
  destruct (marked_st b0 b Mb) as (S1 & S2 & S3 & S4 & S5).
  split; [|split; [|split; [|split; [|split; [|split]]]]].
  - apply (described d (su_X u) (su_nodes u) (su_splits u)); auto; [rewrite <- S4; auto|rewrite <- S5; auto|rewrite <- S1, <- S3, <- S4; symmetry; exact Ra].
  - intros v. rewrite <- S2. destruct HP as [_ HP]. rewrite HP. unfold su_leaves. fold d.
    split; intros (p & H1 & H2 & H3); exists p; split; auto; split; auto; rewrite Forall_forall in Hp; pose proof (Hp p H1) as (Hl & _).
    + apply covb_iff. rewrite (cov_row d (su_X u) (su_splits u) r x p Ex Hl). exact H3.
    + apply covb_iff in H3. rewrite (cov_row d (su_X u) (su_splits u) r x p Ex Hl) in H3. exact H3.
  - destruct Mb as [-> | ->]; auto.
  - destruct Mb as [-> | ->]; auto.
  - intros Hfl. apply Hg. left. apply (Few r b0 Eb0). exact Hfl.
  - intros G. apply Hg in G. destruct G as [G|(r' & b' & Hr' & _ & Eb' & Gb' & Hm)]; [left; apply (Few r b0 Eb0); auto|right].
    apply andb_true_iff in Hm. destruct Hm as [-> Hm]. split; auto. exists r', b'. split; auto. split; auto. split; auto. apply Mw; auto. lia.
  - intros -> Hc r' b' Hr' Eb' Gb' Sw. apply Hg. right. exists r', b'. split; auto. split; [lia|]. split; auto. split; auto. cbn [andb].
    destruct (nth_error_some_lt rows0 r') as [c0 Ec0]; [lia|]. destruct (At r' c0 Ec0) as (x' & Ex' & _ & HL' & _). apply (M r' r c0 b0 Ec0 Eb0).
    apply (same_way_alike d (su_nodes u) (su_splits u) Hd Hn) with (X := su_X u) (i := r') (j := r) (xi := x') (xj := x); auto.
    + intros m Hm. apply (wt_cands _ _ _ _ W m Hm).
    + rewrite Forall_forall in Hc. exact Hc.
    + intros k. apply left_memb; auto.
    + intros k. apply left_memb; auto.
Qed.
Print Assumptions C73_master_rows.

(** * Case: rows 1 and 2 look like row 0, row 4 like row 3; row 5 reaches one leaf only. *)
Example C73_case : valid_setup dup_setup /\ fresh_nodes dup_setup /\ Forall (fun n => n_cands n <> []) (su_nodes dup_setup) /\
  (exists nodes rows, preprocess_rows true (su_X dup_setup) (su_leaves dup_setup) (su_nodes dup_setup) (su_splits dup_setup) (su_paths dup_setup) = Ok (nodes, rows) /\
     map r_gone rows = [false; true; true; false; true; true] /\ map r_leaves rows = [[0; 1; 2; 3]; [0; 1; 2; 3]; [0; 1; 2; 3]; [1; 0; 3; 2]; [1; 0; 3; 2]; [0]]) /\
  exists nodes rows, preprocess_rows false (su_X dup_setup) (su_leaves dup_setup) (su_nodes dup_setup) (su_splits dup_setup) (su_paths dup_setup) = Ok (nodes, rows) /\
     map r_gone rows = [false; false; false; false; false; true].
Proof.
  split; [exact dup_valid|]. split; [exact dup_fresh|]. split; [repeat constructor; discriminate|].
  split; do 2 eexists; [split; [|split]|split]; vm_compute; reflexivity.
Qed.

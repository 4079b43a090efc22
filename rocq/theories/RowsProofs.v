(** What preprocessing records about rows and nodes. *)
From Verif Require Import Base Lp LpProofs TreeModel SpecTree TreeGeoProofs TreePathProofs TreeLpBuild TreeFormProofs TreeBuildProofs TreeInvProofs SpecTreeRun
  SpecTreeLp TreeLpProofs TreeReachProofs ExpModel SpecExp SpecRows ExpRowProofs ExpQuadProofs TreeAggrProofs.
Open Scope nat_scope.

Lemma visit_reached d nodes a L n : 1 <= d -> complete_nodes d nodes -> n < 2 ^ d - 1 -> (forall k, memb k a = L k) -> reached nodes a n <-> can_visit nodes L n.
Proof.
  intros Hd Hn Hlt HL. split.
  - destruct (node_bits d n Hlt) as (bits & Hl & <-). intros Hr. apply (reached_rch d nodes Hd) in Hr.
    exists (length bits), (fun n => match find (fun nb => fst nb =? n) (trail 0 bits), nth_error nodes n with
                     | Some (_, b), Some nd => match find (fun k => Bool.eqb (L k) b) (n_cands nd) with Some k => k | None => 0 end
                     | _, _ => 0 end).
    assert (G : forall n b nd, In (n, b) (trail 0 bits) -> nth_error nodes n = Some nd ->
      exists k, find (fun nb => fst nb =? n) (trail 0 bits) = Some (n, b) /\ find (fun k => Bool.eqb (L k) b) (n_cands nd) = Some k /\ In k (n_cands nd) /\ L k = b).
    { intros m b nd Hin Hm. destruct (find (fun nb => fst nb =? m) (trail 0 bits)) as [[n2 b2]|] eqn:Ef.
      - apply find_some in Ef. destruct Ef as [Hin2 E]. simpl in E. apply Nat.eqb_eq in E. subst n2.
        assert (b2 = b) by (eapply trail_functional; eauto). subst b2.
        destruct (Hr m b Hin) as (nd' & k & Hn' & Hk & Lk). assert (nd' = nd) by congruence. subst nd'. rewrite HL in Lk.
        destruct (find (fun k => Bool.eqb (L k) b) (n_cands nd)) as [k'|] eqn:Ek.
        + apply find_some in Ek. destruct Ek as [Hk' E']. apply Bool.eqb_prop in E'. exists k'. auto.
        + apply (find_none _ _ Ek) in Hk. rewrite Lk, Bool.eqb_reflx in Hk. discriminate.
      - apply (find_none _ _ Ef) in Hin. simpl in Hin. rewrite Nat.eqb_refl in Hin. discriminate. }
    split.
    + intros m nd Hb Hne Em. destruct (proj1 (below_trail bits m)) as [b Hin]; [auto|].
      destruct (G m b nd Hin Em) as (k & E1 & E2 & Hk & _). rewrite E1, Em, E2. exact Hk.
    + apply route_bits. intros m b Hin. destruct (Hr m b Hin) as (nd & _ & Em & _). destruct (G m b nd Hin Em) as (k & E1 & E2 & _ & Lk). rewrite E1, Em, E2. exact Lk.
  - intros (j & tree & Hc & <-). rewrite route_turns in *. set (bits := turns j (fun m => L (tree m)) 0) in *.
    apply (reached_rch d nodes Hd). intros m b Hin.
    assert (B : below m (pos 0 bits) /\ m <> pos 0 bits) by (apply below_trail; eauto).
    assert (Hm : m < length nodes).
    { destruct Hn as [-> _]. apply trail_split in Hin. destruct Hin as (v & w & E & ->). rewrite E, pos_app in Hlt.
      pose proof (pos_ge (b :: w) (pos 0 v)). lia. }
    destruct (nth_error_some_lt nodes m Hm) as [nd Em]. exists nd, (tree m). split; auto. split; [apply Hc; tauto|].
    rewrite HL. exact (turns_trail j _ 0 m b Hin).
Qed.

Section Rows.
Variables (d : nat) (X : list sample) (nodes : list node) (splits : list split).
Hypothesis wf : wf_tree d X nodes splits.
Hypothesis Hfresh : Forall (fun n => n_bottom n = false) nodes.

Lemma bottom_none : forall m, In m nodes -> n_bottom m = true -> 2 ^ d - 1 <= 2 * n_id m + 1.
Proof. intros m Hm Hb. rewrite Forall_forall in Hfresh. rewrite (Hfresh m Hm) in Hb. discriminate. Qed.

Lemma left_memb x l : (forall k, In k l <-> exists s, nth_error splits k = Some s /\ sample_left x s = true) -> forall k, memb k l = goes_left splits x k.
Proof.
  intros H k. apply eq_true_iff_eq. rewrite memb_In, H. unfold goes_left. destruct (nth_error splits k) as [s|].
  - split; [intros (s' & E & Hl); injection E as <-; auto|eauto].
  - split; [intros (s' & E & _); discriminate|discriminate].
Qed.
Lemma reachable_ext (L L' : nat -> bool) l : (forall k, L k = L' k) -> reachable d nodes L l -> reachable d nodes L' l.
Proof.
  intros H (Hl & tree & Hc & E). split; auto. exists tree. split; auto. rewrite <- E. unfold leaf_reached. f_equal. generalize 0.
  clear - H. induction d as [|d' IH]; intros i; cbn [route]; auto. rewrite H. apply IH.
Qed.
Lemma described u x b : su_depth u = d -> su_nodes u = nodes -> su_splits u = splits ->
  (forall k, In k (r_left b) <-> exists s, nth_error splits k = Some s /\ sample_left x s = true) ->
  (forall k, In k (r_right b) <-> exists s, nth_error splits k = Some s /\ sample_left x s = false) ->
  reach (r_left b) (map (preprocess_node d) nodes) = (r_nodes b, r_leaves b) -> describes u x b.
Proof.
  intros Ed En Es HL HR E. pose proof (wt_depth _ _ _ _ wf) as Hd. pose proof (wt_nodes _ _ _ _ wf) as Hn.
  pose proof (left_memb x _ HL) as Hm. destruct (reach_spec d nodes Hd Hn bottom_none _ _ _ E) as (H1 & H2 & H3). constructor; rewrite ?Ed, ?En, ?Es.
  - intros k. rewrite HL. unfold sample_left. split; intros (s & Hs & H); exists s; split; auto; apply Qle_bool_iff; auto.
  - intros k. rewrite HR. unfold sample_left. split; intros (s & Hs & H); exists s; split; auto.
    + apply Qnot_le_lt. intros H'. apply Qle_bool_iff in H'. congruence.
    + apply not_true_is_false. intros H'. apply Qle_bool_iff in H'. revert H'. apply Qlt_not_le. exact H.
  - intros n. rewrite H1. split; intros [Hlt H]; (split; [exact Hlt|]); apply (visit_reached d nodes (r_left b) _ n Hd Hn Hlt Hm); exact H.
  - exact H2.
  - intros l. rewrite H3. split; apply reachable_ext; intros k; rewrite Hm; auto.
Qed.
Lemma linked_ok i nd : nth_error (map (preprocess_node d) nodes) i = Some nd -> linked d i nd.
Proof.
  rewrite nth_error_map. destruct (nth_error nodes i) as [n0|] eqn:E; [|discriminate]. cbn [option_map]. intros H. injection H as <-.
  pose proof (wt_nodes _ _ _ _ wf) as [_ Hi]. specialize (Hi i n0 E). assert (B : n_bottom n0 = false).
  { rewrite Forall_forall in Hfresh. apply Hfresh. eapply nth_error_In; eauto. }
  assert (P : forall q, q = (if n_id n0 =? 0 then None else Some ((n_id n0 - 1) / 2)) -> (i = 0 -> q = None) /\ (0 < i -> exists p, q = Some p /\ (i = 2 * p + 1 \/ i = 2 * p + 2))).
  { intros q ->. rewrite Hi. split; [intros ->; reflexivity|]. intros Hp. destruct (Nat.eqb_spec i 0); [lia|]. eexists. split; [reflexivity|].
    pose proof (Nat.div_mod (i - 1) 2 ltac:(lia)). pose proof (Nat.mod_upper_bound (i - 1) 2 ltac:(lia)). lia. }
  unfold linked, preprocess_node, leaf_pos. destruct (Nat.leb_spec (2 ^ d - 1) (2 * n_id n0 + 1)) as [H|H]; cbn [n_id n_bottom n_lchild n_rchild n_parent].
  - split; [exact Hi|]. split; [rewrite <- Hi; tauto|]. split; [rewrite Hi in *; lia|]. apply P. reflexivity.
  - rewrite B. split; [exact Hi|]. split; [rewrite <- Hi; split; [discriminate|lia]|]. split; [rewrite Hi; auto|]. apply P. reflexivity.
Qed.
End Rows.

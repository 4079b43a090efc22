(** The operations of the tree master problem keep its invariant. *)
From Coq Require Import Qround.
From Verif Require Import Base Lp LpProofs TreeModel SpecTree TreeGeoProofs TreePathProofs TreeLpBuild TreeBuildProofs TreeGenProofs TreeInvProofs.
Open Scope nat_scope.

Section Ops.
Variables (d : nat) (X : list sample) (nodes0 : list node) (splits0 : list split).
Hypothesis wf : wf_tree d X nodes0 splits0.
Notation leaves := (complete_leaves d).
Notation cov := (covb X (complete_leaves d) splits0).
Notation tinv := (tinv d X nodes0 splits0).
Notation rows_ok := (rows_ok d X splits0).

Lemma core_length s kinds zs : tinv kinds zs s -> length (tm_splits s) = length splits0.
Proof. intros H. apply (Forall2_length' _ _ _ (ti_splits _ _ _ _ _ _ _ H)). Qed.

Lemma core_recorded splits : Forall2 same_core splits splits0 -> rows_recorded X splits.
Proof.
  intros H s Hs. destruct (Forall2_In_l _ _ _ _ H Hs) as (t & Ht & H1 & H2 & H3 & H4 & H5).
  destruct (wt_recorded _ _ _ _ wf t Ht) as [HL HR]. rewrite H4, H5. unfold sample_left in *. rewrite H2, H3. auto.
Qed.

Lemma Some_inj {A} (a b : A) : Some a = Some b -> a = b.
Proof. congruence. Qed.

(** * New columns *)

Lemma column_leaf_ok kinds zs s p v m : tinv kinds zs s -> p_leaf p < 2 ^ d ->
  exists l, column_leaf (tm_leaf_cons s) (tm_leaves s) p v m = Ok (ones l m) /\ (forall i j, In (i, j) l -> j = v) /\
    forall i, In (i, v) l <-> exists lf, nth_error kinds i = Some (KLeaf lf) /\ cov (KLeaf lf) p = true.
Proof.
  intros H Hl. rewrite (ti_leaves _ _ _ _ _ _ _ H). unfold column_leaf.
  pose proof (ti_leaf _ _ _ _ _ _ _ H) as Hlk.
  set (f := fun lf : leaf => if p_leaf p =? l_id lf then
              match nth_error (tm_leaf_cons s) (l_id lf) with Some (Some c) => [(c, v)] | _ => [] end else []).
  exists (flat_map f leaves). split; [|split].
  - apply for_each_ones. intros lf m' Hlf. unfold f. destruct (p_leaf p =? l_id lf) eqn:E; [|reflexivity].
    apply Nat.eqb_eq in E. unfold set_con_one.
    assert (Hin : In (KLeaf (l_id lf)) kinds) by (apply (ti_leaf_in _ _ _ _ _ _ _ H); lia).
    apply In_nth_error in Hin. destruct Hin as [c Hc]. apply Hlk in Hc. rewrite Hc, (getitem_nth _ _ _ Hc). reflexivity.
  - intros i j Hij. apply in_flat_map in Hij. destruct Hij as (lf & _ & Hij). unfold f in Hij.
    destruct (p_leaf p =? l_id lf); [|contradiction]. destruct (nth_error _ _) as [[c|]|]; try contradiction.
    destruct Hij as [E|[]]. congruence.
  - intros i. rewrite in_flat_map. split.
    + intros (lf & Hlf & Hij). unfold f in Hij. destruct (p_leaf p =? l_id lf) eqn:E; [|contradiction].
      destruct (nth_error (tm_leaf_cons s) (l_id lf)) as [[c|]|] eqn:Ec; try contradiction. destruct Hij as [E'|[]]. injection E' as ->.
      exists (l_id lf). split; [apply Hlk; auto|exact E].
    + intros (l & Hk & Hc). simpl in Hc. apply Nat.eqb_eq in Hc. subst l. exists (create_leaf (p_leaf p) d).
      split; [apply complete_leaves_In; eauto|]. unfold f. rewrite create_leaf_id, Nat.eqb_refl by auto.
      apply Hlk in Hk. rewrite Hk. simpl. auto.
Qed.

Lemma column_rows_ok kinds zs s p v m rows sat : tinv kinds zs s -> p_leaf p < 2 ^ d -> length rows = length X ->
  (forall r, In r sat <-> r < length X /\ cov (KRow r) p = true) ->
  exists l rows', column_rows (tm_row_cons s) (tm_added s) sat v (m, rows) = Ok (ones l m, rows') /\ (forall i j, In (i, j) l -> j = v) /\
    (forall i, In (i, v) l <-> exists r, nth_error kinds i = Some (KRow r) /\ cov (KRow r) p = true) /\
    length rows' = length X /\
    (forall r dr, nth_error rows r = Some dr -> nth_error rows' r =
       Some (if cov (KRow r) p then with_paths dr (set_add v (r_paths dr)) else dr)).
Proof.
  intros H Hl Hlen Hsat. unfold column_rows.
  pose proof (ti_row _ _ _ _ _ _ _ H) as Hlk.
  set (f := fun r : nat => if nth r (tm_added s) false then
              match nth_error (tm_row_cons s) r with Some (Some c) => [(c, v)] | _ => [] end else []).
  destruct (for_each_steps sat
    (fun r st =>
       let '(m, rows) := st in
       let* dr := getitem rows r in
       let rows1 := set_nth rows r (with_paths dr (set_add v (r_paths dr))) in
       let* a := getitem (tm_added s) r in
       if (a : bool) then let* m1 := set_con_one (tm_row_cons s) r v m in Ok (m1, rows1) else Ok (m, rows1))
    (fun u st => fst st = ones (flat_map f u) m /\ length (snd st) = length X /\
       forall r dr, nth_error rows r = Some dr -> nth_error (snd st) r =
         Some (if memb r u then with_paths dr (set_add v (r_paths dr)) else dr)) (m, rows)) as ([m' rows'] & E & H1 & H2 & H3).
  - split; [reflexivity|]. split; auto.
  - intros u r w [m1 rows1] Eu (H1 & H2 & H3). cbn [fst snd] in *. subst m1.
    assert (Hr : r < length X /\ cov (KRow r) p = true) by (apply Hsat; rewrite Eu; apply in_app_iff; simpl; auto).
    destruct Hr as [Hr _].
    destruct (getitem_lt rows r) as [dr0 Edr0]; [lia|]. apply getitem_ok in Edr0.
    rewrite (getitem_nth _ _ _ (H3 r dr0 Edr0)). cbn [bind].
    pose proof (ti_added_len _ _ _ _ _ _ _ H) as Hal.
    destruct (getitem_lt (tm_added s) r) as [a Ea]; [lia|]. rewrite Ea. cbn [bind]. apply getitem_ok in Ea.
    set (dr1 := if memb r u then with_paths dr0 (set_add v (r_paths dr0)) else dr0).
    assert (Hrows : forall r' dr, nth_error rows r' = Some dr ->
      nth_error (set_nth rows1 r (with_paths dr1 (set_add v (r_paths dr1)))) r' =
      Some (if memb r' (u ++ [r]) then with_paths dr (set_add v (r_paths dr)) else dr)).
    { intros r' dr Hdr. destruct (Nat.eq_dec r' r) as [->|Hne].
      - rewrite nth_error_set_nth_same by lia. assert (dr = dr0) by congruence. subst dr.
        assert (Em : memb r (u ++ [r]) = true) by (apply memb_In, in_app_iff; simpl; auto). rewrite Em. unfold dr1.
        destruct (memb r u); auto. simpl. unfold with_paths. simpl. f_equal. f_equal.
        unfold set_add at 1. assert (Em' : memb v (set_add v (r_paths dr0)) = true) by (apply memb_In, set_add_In; auto).
        rewrite Em'. reflexivity.
      - rewrite nth_error_set_nth_other by auto. rewrite (H3 r' dr Hdr). f_equal.
        assert (Em : memb r' (u ++ [r]) = memb r' u).
        { destruct (memb r' u) eqn:E1; [apply memb_In, in_app_iff; left; apply memb_In; auto|].
          apply memb_false. apply memb_false in E1. rewrite in_app_iff. simpl. intuition. }
        rewrite Em. reflexivity. }
    rewrite flat_map_app, ones_app. cbn [flat_map]. rewrite app_nil_r.
    assert (Hf : f r = if a then match nth_error (tm_row_cons s) r with Some (Some c) => [(c, v)] | _ => [] end else []).
    { unfold f. rewrite (nth_error_nth _ _ _ Ea). reflexivity. }
    rewrite Hf. clear Hf. destruct a.
    + assert (Hin : In (KRow r) kinds) by (apply (ti_added _ _ _ _ _ _ _ H); auto).
      apply In_nth_error in Hin. destruct Hin as [c Hc]. apply Hlk in Hc. unfold set_con_one. rewrite Hc, (getitem_nth _ _ _ Hc).
      cbn [bind]. eexists. split; [reflexivity|]. cbn [fst snd]. rewrite length_set_nth. auto.
    + eexists. split; [reflexivity|]. cbn [fst snd]. rewrite length_set_nth. auto.
  - cbn [fst snd] in *. subst m'. exists (flat_map f sat), rows'. split; auto. split; [|split; [|split; auto]].
    + intros i j Hij. apply in_flat_map in Hij. destruct Hij as (r & _ & Hij). unfold f in Hij.
      destruct (nth r _ false); [|contradiction]. destruct (nth_error _ _) as [[c|]|]; try contradiction.
      destruct Hij as [E'|[]]. congruence.
    + intros i. rewrite in_flat_map. split.
      * intros (r & Hr & Hij). unfold f in Hij. destruct (nth r (tm_added s) false); [|contradiction].
        destruct (nth_error (tm_row_cons s) r) as [[c|]|] eqn:Ec; try contradiction. destruct Hij as [E'|[]]. injection E' as ->.
        exists r. split; [apply Hlk; auto|apply Hsat; auto].
      * intros (r & Hk & Hc). assert (Hrx : r < length X).
        { simpl in Hc. destruct (nth_error X r) eqn:Ex; [apply nth_error_Some; congruence|discriminate]. }
        exists r. split; [apply Hsat; auto|]. unfold f.
        assert (Ha : nth_error (tm_added s) r = Some true) by (apply (ti_added _ _ _ _ _ _ _ H); auto; eapply nth_error_In; eauto).
        rewrite (nth_error_nth _ _ _ Ha). apply Hlk in Hk. rewrite Hk. simpl. auto.
    + intros r dr Hdr. rewrite (H3 r dr Hdr). f_equal.
      assert (Em : memb r sat = cov (KRow r) p).
      { destruct (memb r sat) eqn:E1; [apply memb_In, Hsat in E1; symmetry; apply E1|].
        destruct (cov (KRow r) p) eqn:E2; auto. exfalso. apply memb_false in E1. apply E1, Hsat. split; auto.
        rewrite <- Hlen. apply nth_error_Some. congruence. }
      rewrite Em. reflexivity.
Qed.

Lemma column_ns_ok kinds zs s p v m : tinv kinds zs s -> length (p_nodes p) = length (p_splits p) ->
  exists l, for_ns (tm_leaves s) (tm_nodes s) (column_ns (tm_ns_cons s) p v) m = Ok (ones l m) /\ (forall i j, In (i, j) l -> j = v) /\
    forall i, In (i, v) l <-> exists l n k, nth_error kinds i = Some (KChoice l n k) /\ cov (KChoice l n k) p = true.
Proof.
  intros H Hl. rewrite (ti_leaves _ _ _ _ _ _ _ H). pose proof (ti_nodes _ _ _ _ _ _ _ H) as Hn.
  pose proof (ti_ns _ _ _ _ _ _ _ H) as Hk. pose proof (ti_ns_in _ _ _ _ _ _ _ H) as Hi.
  rewrite for_ns_flat by (apply (leaf_nodes_known d X nodes0 splits0 wf); auto). rewrite (triples_same d nodes0) by auto.
  set (f := fun t : key3 => if cov (KChoice (fst (fst t)) (snd (fst t)) (snd t)) p then
              match assoc key3_eqb (tm_ns_cons s) t with Some c => [(c, v)] | _ => [] end else []).
  exists (flat_map f (ns_triples leaves nodes0)). split; [|split].
  - apply for_each_ones. intros [[l n] k] m' Ht. cbn [fst snd]. unfold column_ns.
    apply Hi in Ht. apply In_nth_error in Ht. destruct Ht as [c Hc]. apply Hk in Hc.
    assert (Hc' : lookup key3_eqb (tm_ns_cons s) (l, n, k) = Ok c) by (unfold lookup; rewrite Hc; reflexivity).
    rewrite Hc'. cbn [bind]. rewrite (uses_ok d X splits0) by auto. cbn [bind]. unfold f. cbn [fst snd]. rewrite Hc.
    destruct (cov (KChoice l n k) p); reflexivity.
  - intros i j Hij. apply in_flat_map in Hij. destruct Hij as (t & _ & Hij). unfold f in Hij.
    destruct (cov _ p); [|contradiction]. destruct (assoc _ _ t) as [c|]; try contradiction. destruct Hij as [E'|[]]. congruence.
  - intros i. rewrite in_flat_map. split.
    + intros ([[l n] k] & Ht & Hij). unfold f in Hij. cbn [fst snd] in Hij. destruct (cov (KChoice l n k) p) eqn:Ec; [|contradiction].
      destruct (assoc key3_eqb (tm_ns_cons s) (l, n, k)) as [c|] eqn:Ea; try contradiction. destruct Hij as [E'|[]]. injection E' as ->.
      exists l, n, k. split; auto. apply Hk. auto.
    + intros (l & n & k & H1 & H2). exists (l, n, k). split; [apply Hi; eapply nth_error_In; eauto|].
      unfold f. cbn [fst snd]. rewrite H2. apply Hk in H1. rewrite H1. simpl. auto.
Qed.

Lemma satisfied_cuts_ok kinds zs s p : tinv kinds zs s -> plain_path d splits0 p ->
  exists sat, get_satisfied_cuts p (create_leaf (p_leaf p) d) (tm_splits s) = Ok sat /\
    forall c, In c sat <-> exists z, nth_error zs c = Some z /\ cov (KCut z) p = true.
Proof.
  intros H Hp. pose proof (core_length _ _ _ H) as Hcl. pose proof (wt_depth _ _ _ _ wf) as Hd.
  destruct Hp as (Hl & Hn & Hs & Hr).
  destruct (get_satisfied_ok s_lcuts s_rcuts p (create_leaf (p_leaf p) d) (tm_splits s)) as (sat & E & _ & Hi); try lia.
  { rewrite Hcl. exact Hr. }
  exists sat. split; [exact E|]. intros c. rewrite Hi. clear E Hi sat.
  assert (Hrange : forall n k, In (n, k) (choices p) -> exists sp, nth_error (tm_splits s) k = Some sp).
  { intros n k Hc. apply in_combine_r in Hc. rewrite Forall_forall in Hr. specialize (Hr k Hc).
    destruct (nth_error (tm_splits s) k) eqn:Ek; eauto. apply nth_error_None in Ek. lia. }
  assert (Hside : forall n k sp, nth_error (tm_splits s) k = Some sp ->
    (In c (if memb n (l_left (create_leaf (p_leaf p) d)) then s_lcuts sp else s_rcuts sp) <->
     exists z, nth_error zs c = Some z /\ nth k z false = memb n (l_left (create_leaf (p_leaf p) d)))).
  { intros n k sp Hsp. destruct (ti_sides _ _ _ _ _ _ _ H k sp Hsp) as (HL & HR & _).
    destruct (memb n _); [apply HL|apply HR]. }
  split.
  - intros Hall.
    assert (Hne : exists n k, In (n, k) (choices p)).
    { unfold choices. destruct (p_nodes p) as [|n ns]; [simpl in Hn; lia|]. destruct (p_splits p) as [|k ks]; [simpl in Hs; lia|].
      exists n, k. simpl. auto. }
    destruct Hne as (n & k & Hnk). destruct (Hrange n k Hnk) as [sp Hsp].
    pose proof (Hall n k sp Hnk Hsp) as H1. apply (Hside n k sp Hsp) in H1. destruct H1 as (z & Hz & _). exists z. split; auto.
    rewrite cov_cut by auto. unfold followsb. apply forallb_forall. intros [n' k'] Hnk'. cbn [fst snd].
    destruct (Hrange n' k' Hnk') as [sp' Hsp']. pose proof (Hall n' k' sp' Hnk' Hsp') as H2. apply (Hside n' k' sp' Hsp') in H2.
    destruct H2 as (z' & Hz' & E'). assert (z' = z) by congruence. subst z'. rewrite E'. apply eqb_reflx.
  - intros (z & Hz & Hc) n k sp Hnk Hsp. apply (Hside n k sp Hsp). exists z. split; auto.
    rewrite cov_cut in Hc by auto. unfold followsb in Hc. rewrite forallb_forall in Hc. specialize (Hc (n, k) Hnk). cbn [fst snd] in Hc.
    apply eqb_prop in Hc. exact Hc.
Qed.

Lemma column_cuts_ok kinds zs s p v m sat : tinv kinds zs s ->
  (forall c, In c sat <-> exists z, nth_error zs c = Some z /\ cov (KCut z) p = true) ->
  exists l, column_cuts (tm_cut_cons s) sat v m = Ok (ones l m) /\ (forall i j, In (i, j) l -> j = v) /\
    forall i, In (i, v) l <-> exists z, nth_error kinds i = Some (KCut z) /\ cov (KCut z) p = true.
Proof.
  intros H Hsat. unfold column_cuts.
  set (f := fun k : nat => match nth_error (tm_cut_cons s) k with Some c => [(c, v)] | _ => [] end).
  exists (flat_map f sat). split; [|split].
  - apply for_each_ones. intros k m' Hk. apply Hsat in Hk. destruct Hk as (z & Hz & _).
    destruct (getitem_lt (tm_cut_cons s) k) as [c Ec].
    { rewrite (ti_cut_len _ _ _ _ _ _ _ H). apply nth_error_Some. congruence. }
    rewrite Ec. cbn [bind]. unfold f. apply getitem_ok in Ec. rewrite Ec. reflexivity.
  - intros i j Hij. apply in_flat_map in Hij. destruct Hij as (k & _ & Hij). unfold f in Hij.
    destruct (nth_error _ _) as [c|]; try contradiction. destruct Hij as [E'|[]]. congruence.
  - intros i. rewrite in_flat_map. split.
    + intros (k & Hk & Hij). unfold f in Hij. destruct (nth_error (tm_cut_cons s) k) as [c|] eqn:Ec; try contradiction.
      destruct Hij as [E'|[]]. injection E' as ->. apply Hsat in Hk. destruct Hk as (z & Hz & Hc).
      destruct (ti_cut _ _ _ _ _ _ _ H k i Ec) as (z' & Hz' & Hk). assert (z' = z) by congruence. subst z'. eauto.
    + intros (z & Hk & Hc). destruct (ti_cut_in _ _ _ _ _ _ _ H i z Hk) as (k & Ek).
      destruct (ti_cut _ _ _ _ _ _ _ H k i Ek) as (z' & Hz' & Hk'). assert (z' = z) by congruence. subst z'.
      exists k. split; [apply Hsat; eauto|]. unfold f. rewrite Ek. simpl. auto.
Qed.

Lemma add_column_ok kinds zs s p : tinv kinds zs s -> plain_path d splits0 p ->
  exists s', add_column p s = Ok (true, s') /\ tinv kinds zs s' /\ tm_paths s' = tm_paths s ++ [with_id p (num_vars (tm_lp s))] /\
    tm_cut_cons s' = tm_cut_cons s /\ tm_values s' = tm_values s /\ tm_answer s' = tm_answer s /\ tm_obj s' = tm_obj s /\
    tm_prev s' = tm_prev s /\ tm_iter s' = tm_iter s /\ tm_beta_cuts s' = tm_beta_cuts s /\ tm_gen_cuts s' = tm_gen_cuts s /\
    tm_rounds s' = tm_rounds s /\ tm_y s' = tm_y s /\ tm_nodes s' = tm_nodes s /\ tm_splits s' = tm_splits s /\
    tm_selected s' = tm_selected s /\
    (forall rows, tm_rows s = Some rows -> exists rows', tm_rows s' = Some rows' /\ Forall2 same_row rows' rows).
Proof.
  intros H Hp. destruct (ti_rows _ _ _ _ _ _ _ H) as (rows & Hrows & [Hrl Hrp] & Hrg).
  pose proof Hp as (Hl & Hn & Hs & Hr). pose proof (core_length _ _ _ H) as Hcl. pose proof (wt_depth _ _ _ _ wf) as Hd.
  unfold add_column. unfold new_var at 1. cbn iota beta zeta. fold (num_vars (tm_lp s)).
  set (v := num_vars (tm_lp s)). set (p1 := with_id p v).
  set (m2 := set_obj v (p_cost p) (snd (new_var (Some 0%Q) None true (tm_lp s)))).
  assert (Hp1 : plain_path d splits0 p1) by exact Hp.
  destruct (column_leaf_ok kinds zs s p1 v m2 H Hl) as (l1 & E1 & J1 & I1).
  change (column_leaf (tm_leaf_cons s) (tm_leaves s) p1 v _) with (column_leaf (tm_leaf_cons s) (tm_leaves s) p1 v m2).
  rewrite E1. cbn [bind]. rewrite (ti_leaves _ _ _ _ _ _ _ H). 
  change (p_leaf p1) with (p_leaf p). rewrite (getitem_nth _ _ _ (complete_leaves_nth d _ Hl)). cbn [bind].
  destruct (satisfied_rows_spec X (tm_splits s) p1 (create_leaf (p_leaf p) d)) as (sat & Esat & _ & Hsat).
  { apply core_recorded. apply (ti_splits _ _ _ _ _ _ _ H). } { simpl. congruence. } { simpl. lia. } { simpl. rewrite Hcl. exact Hr. }
  rewrite Esat. cbn [bind]. unfold tm_data_rows. rewrite Hrows. cbn [bind].
  assert (Hsat' : forall r, In r sat <-> r < length X /\ cov (KRow r) p1 = true).
  { intros r. rewrite Hsat. split.
    - intros (x & Hx & Hf). split; [apply nth_error_Some; congruence|]. rewrite (cov_row d X splits0 r x) by auto.
      apply followsb_iff. intros n k Hnk. rewrite <- (same_core_left _ _ x k (ti_splits _ _ _ _ _ _ _ H)). apply Hf. auto.
    - intros [Hrx Hc]. destruct (nth_error X r) as [x|] eqn:Ex; [|apply nth_error_None in Ex; lia]. exists x. split; auto.
      rewrite (cov_row d X splits0 r x) in Hc by auto. apply followsb_iff in Hc.
      intros n k Hnk. rewrite (same_core_left _ _ x k (ti_splits _ _ _ _ _ _ _ H)). apply Hc. auto. }
  destruct (column_rows_ok kinds zs s p1 v (ones l1 m2) rows sat H Hl Hrl Hsat') as (l2 & rows' & E2 & J2 & I2 & Rl & Rr).
  rewrite E2. cbn [bind].
  destruct (column_ns_ok kinds zs s p1 v (ones l2 (ones l1 m2)) H) as (l3 & E3 & J3 & I3); [simpl; congruence|].
  rewrite (ti_leaves _ _ _ _ _ _ _ H) in E3. rewrite E3. cbn [bind].
  destruct (satisfied_cuts_ok kinds zs s p1 H Hp1) as (cuts & Ec & Hc). change (p_leaf p1) with (p_leaf p) in Ec. rewrite Ec. cbn [bind].
  destruct (column_cuts_ok kinds zs s p1 v (ones l3 (ones l2 (ones l1 m2))) cuts H Hc) as (l4 & E4 & J4 & I4).
  rewrite E4. cbn [bind]. rewrite (ti_cm_splits _ _ _ _ _ _ _ H), (path_literals_ok d splits0) by auto. cbn [bind].
  eexists. split; [reflexivity|].
  assert (Hones : ones_rel (((l1 ++ l2) ++ l3) ++ l4) m2 (ones l4 (ones l3 (ones l2 (ones l1 m2))))).
  { repeat (eapply ones_rel_trans; [|apply ones_rel_ones]). apply ones_rel_ones. }
  assert (Hlp : lp_ok cov (tm_paths s ++ [p1]) (tm_ns_vars s) kinds (ones l4 (ones l3 (ones l2 (ones l1 m2))))).
  { refine (lp_ok_column cov (cov_id d X splits0) (tm_paths s) (tm_ns_vars s) kinds (tm_lp s) _ p _ (ti_lp _ _ _ _ _ _ _ H) Hones _ _).
    - intros i j Hij. rewrite !in_app_iff in Hij. destruct Hij as [[[?|?]|?]|?]; eauto.
    - intros i c Hk. rewrite !in_app_iff. fold v. rewrite I1, I2, I3, I4. change (cov c p = true) with (cov c p1 = true).
      split.
      + intros [[[(l & E & ?)|(r & E & ?)]|(l & n & k & E & ?)]|(z & E & ?)]; rewrite Hk in E; injection E as ->; auto.
      + intros Hcov. destruct c as [l|r|z|l n k]; [left; left; left; exists l; auto|left; left; right; exists r; auto|right; exists z; auto|left; right; exists l, n, k; auto]. }
  split; [|repeat (split; [reflexivity|])].
  2:{ intros rows0 E. injection E as <-. exists rows'. split; auto. apply Forall2_intro_nth; [congruence|].
      intros r dr' dr Hdr' Hdr. rewrite (Rr r dr Hdr) in Hdr'. apply Some_inj in Hdr'. subst dr'. destruct (cov (KRow r) p1); repeat split. }
  destruct H. split; cbn; auto.
  - rewrite <- ti_max. exact (or_max _ _ _ Hones).
  - apply Forall_app. split; auto.
  - rewrite ti_pvars, map_app. reflexivity.
  - exists rows'. split; auto. split; [split; auto|].
    + intros r dr' Hdr'. assert (Hrlt : r < length rows) by (rewrite Hrl, <- Rl; apply nth_error_Some; congruence).
      apply nth_error_Some in Hrlt. destruct (nth_error rows r) as [dr|] eqn:Edr; [|congruence].
      rewrite (Rr r dr Edr) in Hdr'. apply Some_inj in Hdr'. subst dr'. destruct (Hrp r dr Edr) as [Hnd Hin].
      destruct (cov (KRow r) p1) eqn:Ecov.
      * simpl. split; [apply set_add_NoDup; auto|]. intros w. rewrite set_add_In, Hin. split.
        -- intros [->|(q & Hq & Eq & Hcq)]; [exists p1|exists q]; rewrite in_app_iff; simpl; auto.
        -- intros (q & Hq & <- & Hcq). apply in_app_iff in Hq. destruct Hq as [Hq|[<-|[]]]; auto. right. eauto.
      * split; auto. intros w. rewrite Hin. split.
        -- intros (q & Hq & Eq & Hcq); exists q; rewrite in_app_iff; simpl; auto.
        -- intros (q & Hq & <- & Hcq). apply in_app_iff in Hq. destruct Hq as [Hq|[<-|[]]]; [eauto|congruence].
    + intros r Hri. destruct (Hrg r Hri) as (dr & Edr & Eg). rewrite (Rr r dr Edr). eexists. split; [reflexivity|].
      destruct (cov (KRow r) p1); auto.
  - rewrite ti_cm_paths, map_app. reflexivity.
Qed.
End Ops.

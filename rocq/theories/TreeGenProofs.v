(** generate_mp on the complete tree: it succeeds and establishes the invariant of the master problem. *)
From Verif Require Import Base Lp LpProofs TreeModel SpecTree TreeGeoProofs TreePathProofs TreeLpBuild TreeBuildProofs.
Open Scope nat_scope.

(** * The cut generation model *)

Definition lits (lf : leaf) (p : path) : list (nat * bool) :=
  map (fun nk => (snd nk, memb (fst nk) (l_left lf))) (choices p).

Lemma lits_followsb lf p z : forallb (lit_holds z) (lits lf p) = followsb lf z p.
Proof.
  unfold lits, followsb. induction (choices p) as [|[n k] l IH]; simpl; auto. rewrite IH. f_equal.
  unfold lit_holds. simpl. destruct (memb n (l_left lf)), (z k); reflexivity.
Qed.

Lemma path_literals_ok d splits lf p : plain_path d splits p -> path_literals (length splits) lf p = Ok (lits lf p).
Proof.
  intros (_ & Hn & Hs & Hr). unfold path_literals, lits, choices.
  assert (G : forall ns ks un uk, p_nodes p = un ++ ns -> p_splits p = uk ++ ks -> length un = length uk -> length ns = length ks ->
    map_res (fun j => let* k := getitem (p_splits p) j in let* n := getitem (p_nodes p) j in
       if k <? length splits then Ok (k, memb n (l_left lf)) else Err IndexError) (seq (length un) (length ns)) =
    Ok (map (fun nk => (snd nk, memb (fst nk) (l_left lf))) (combine ns ks))).
  { induction ns as [|n ns IH]; intros [|k ks] un uk E1 E2 Hu Hl; simpl in Hl; try discriminate; cbn [length seq map_res]; auto.
    assert (G1 : getitem (p_splits p) (length un) = Ok k) by (rewrite E2, Hu; apply getitem_mid).
    assert (G2 : getitem (p_nodes p) (length un) = Ok n) by (rewrite E1; apply getitem_mid).
    rewrite G1, G2. cbn [bind].
    assert (Hk : k < length splits).
    { rewrite Forall_forall in Hr. apply Hr. rewrite E2. apply in_app_iff. simpl. auto. }
    apply Nat.ltb_lt in Hk. rewrite Hk. cbn [bind].
    specialize (IH ks (un ++ [n]) (uk ++ [k])). rewrite !app_length in IH. simpl in IH.
    rewrite !Nat.add_1_r in IH. rewrite IH; auto; rewrite <- app_assoc; auto. }
  apply (G _ _ [] []); auto. congruence.
Qed.

Lemma split_implications_ok splits :
  (forall i j s t, nth_error splits i = Some s -> nth_error splits j = Some t -> i <> j ->
    s_feature s = s_feature t -> ~ (s_threshold s == s_threshold t)%Q) ->
  exists imps, split_implications splits = Ok imps /\
    forall i j, In (i, j) imps <-> exists s t, nth_error splits i = Some s /\ nth_error splits j = Some t /\ 
                                              s_feature s = s_feature t /\ (s_threshold s < s_threshold t)%Q.
Proof.
  intros Hd. unfold split_implications.
  set (ok := fun i j => exists s t, nth_error splits i = Some s /\ nth_error splits j = Some t /\ 
                                    s_feature s = s_feature t /\ (s_threshold s < s_threshold t)%Q).
  destruct (for_each_steps (seq 0 (length splits))
    (fun i acc =>
       let* si := getitem splits i in
       for_each (seq (i + 1) (length splits - (i + 1)))
         (fun j acc =>
            let* sj := getitem splits j in
            if negb (s_feature si =? s_feature sj) then Ok acc
            else
              let* _ := assert (negb (Qeq_bool (s_threshold si) (s_threshold sj))) in
              if Qltb (s_threshold si) (s_threshold sj) then Ok (acc ++ [(i, j)]) else Ok (acc ++ [(j, i)])) acc)
    (fun u imps => forall i j, In (i, j) imps <-> ok i j /\ (In i u \/ In j u)) []) as (imps & E & H).
  - intros i j. simpl. tauto.
  - intros u i v acc Eu Hacc.
    assert (Hi : i < length splits).
    { assert (In i (seq 0 (length splits))) by (rewrite Eu; apply in_app_iff; simpl; auto). apply in_seq in H. lia. }
    assert (Hui : forall k, In k u <-> k < i).
    { intros k. assert (El : length u = i).
      { assert (nth_error (seq 0 (length splits)) (length u) = Some i) by (rewrite Eu, nth_error_app2, Nat.sub_diag by auto; reflexivity).
        rewrite (nth_error_nth' _ 0) in H; [|rewrite seq_length; rewrite <- (seq_length (length splits) 0), Eu, app_length; simpl; lia].
        rewrite seq_nth in H; [injection H as <-; auto|]. rewrite <- (seq_length (length splits) 0), Eu, app_length; simpl; lia. }
      assert (Eu' : u = seq 0 i).
      { assert (firstn i (seq 0 (length splits)) = u) by (rewrite Eu, <- El, firstn_app, Nat.sub_diag, firstn_all; simpl; apply app_nil_r).
        rewrite <- H. clear - Hi. revert Hi. generalize (length splits) as n. intros n Hi.
        replace n with (i + (n - i)) by lia. rewrite seq_app, firstn_app, seq_length, Nat.sub_diag. simpl.
        rewrite app_nil_r. rewrite <- (seq_length i 0) at 1. apply firstn_all. }
      rewrite Eu', in_seq. lia. }
    destruct (getitem_lt splits i Hi) as [si Esi]. rewrite Esi. cbn [bind]. apply getitem_ok in Esi.
    destruct (for_each_steps (seq (i + 1) (length splits - (i + 1)))
         (fun j acc =>
            let* sj := getitem splits j in
            if negb (s_feature si =? s_feature sj) then Ok acc
            else
              let* _ := assert (negb (Qeq_bool (s_threshold si) (s_threshold sj))) in
              if Qltb (s_threshold si) (s_threshold sj) then Ok (acc ++ [(i, j)]) else Ok (acc ++ [(j, i)]))
         (fun w imps => forall a b, In (a, b) imps <-> ok a b /\ (a < i \/ b < i \/ (a = i /\ In b w) \/ (b = i /\ In a w))) acc)
      as (imps & E & H).
    + intros a b. rewrite Hacc, !Hui. simpl. tauto.
    + intros w j w' acc' Ew Hw.
      assert (Hj : i < j < length splits).
      { assert (In j (seq (i + 1) (length splits - (i + 1)))) by (rewrite Ew; apply in_app_iff; simpl; auto). apply in_seq in H. lia. }
      destruct (getitem_lt splits j) as [sj Esj]; [lia|]. rewrite Esj. cbn [bind]. apply getitem_ok in Esj.
      destruct (Nat.eqb_spec (s_feature si) (s_feature sj)) as [Ef|Ef]; cbn [negb].
      * assert (Hne : Qeq_bool (s_threshold si) (s_threshold sj) = false).
        { destruct (Qeq_bool _ _) eqn:Eq; auto. apply Qeq_bool_iff in Eq. exfalso. apply (Hd i j si sj); auto. lia. }
        rewrite Hne. cbn [negb assert bind]. destruct (Qltb (s_threshold si) (s_threshold sj)) eqn:Et.
        -- apply Qltb_true in Et. eexists. split; [reflexivity|]. intros a b. rewrite in_app_iff, Hw.
           assert (Hok : ok i j) by (exists si, sj; auto).
           assert (Hnok : ~ ok j i) by (intros (s & t & E1 & E2 & _ & E4); assert (s = sj) by congruence; assert (t = si) by congruence; subst; lra).
           rewrite !in_app_iff. simpl. split.
           ++ intros [[H1 H2]|[E|[]]]; [|injection E as <- <-]; tauto.
           ++ intros [H1 [H2|[H2|[[-> [H2|[->|[]]]]|[-> [H2|[->|[]]]]]]]]; try tauto.
        -- apply Qltb_false in Et. eexists. split; [reflexivity|]. intros a b. rewrite in_app_iff, Hw.
           assert (Hok : ok j i).
           { exists sj, si. split; auto. split; auto. split; auto.
             assert (~ (s_threshold si == s_threshold sj)%Q) by (intros Eq; apply Qeq_bool_iff in Eq; congruence). lra. }
           assert (Hnok : ~ ok i j) by (intros (s & t & E1 & E2 & _ & E4); assert (s = si) by congruence; assert (t = sj) by congruence; subst; lra).
           rewrite !in_app_iff. simpl. split.
           ++ intros [[H1 H2]|[E|[]]]; [|injection E as <- <-]; tauto.
           ++ intros [H1 [H2|[H2|[[-> [H2|[->|[]]]]|[-> [H2|[->|[]]]]]]]]; try tauto.
      * eexists. split; [reflexivity|]. intros a b. rewrite Hw, !in_app_iff. simpl.
        assert (H1 : ~ ok i j) by (intros (s & t & E1 & E2 & E3 & _); congruence).
        assert (H2 : ~ ok j i) by (intros (s & t & E1 & E2 & E3 & _); congruence).
        split.
        ++ tauto.
        ++ intros [H3 [H4|[H4|[[-> [H4|[->|[]]]]|[-> [H4|[->|[]]]]]]]]; try tauto.
    + exists imps. split; auto. intros a b. rewrite H, !in_app_iff, !Hui. simpl.
      assert (Hlt : forall b, ok i b -> b < i \/ In b (seq (i + 1) (length splits - (i + 1)))).
      { intros b' (s & t & E1 & E2 & _ & E4). assert (b' < length splits) by (apply nth_error_Some; congruence).
        destruct (Nat.eq_dec b' i) as [->|]; [assert (s = t) by congruence; subst; lra|]. rewrite in_seq. lia. }
      assert (Hlt' : forall b, ok b i -> b < i \/ In b (seq (i + 1) (length splits - (i + 1)))).
      { intros b' (s & t & E1 & E2 & _ & E4). assert (b' < length splits) by (apply nth_error_Some; congruence).
        destruct (Nat.eq_dec b' i) as [->|]; [assert (s = t) by congruence; subst; lra|]. rewrite in_seq. lia. }
      split.
      * intuition.
      * intros [H1 [[H2|[<-|[]]]|[H2|[<-|[]]]]]; split; auto; [destruct (Hlt _ H1)|destruct (Hlt' _ H1)]; auto.
  - exists imps. split; auto. intros i j. rewrite H. split; [tauto|]. intros Hok. split; auto. left.
    destruct Hok as (s & t & E1 & _). apply in_seq. assert (i < length splits) by (apply nth_error_Some; congruence). lia.
Qed.

(** * The initial paths *)

Section Gen.
Variable cov : ckind -> path -> bool.
Hypothesis cov_id : forall c p i, cov c (with_id p i) = cov c p.

Lemma make_path_vars_ok paths : forall m ps, lp_ok cov ps [] [] m ->
  exists qs, snd (make_path_vars paths m) = qs /\ lp_ok cov (ps ++ qs) [] [] (fst (make_path_vars paths m)) /\
    lp_max (fst (make_path_vars paths m)) = lp_max m /\ Forall2 (fun p q => q = with_id p (p_id q)) paths qs.
Proof.
  unfold make_path_vars.
  assert (G : forall paths m ps acc, lp_ok cov (ps ++ acc) [] [] m ->
    let r := fold_left (fun st p => let '(m, ps) := st in let '(v, m1) := new_var (Some 0%Q) None true m in
                                   (set_obj v (p_cost p) m1, ps ++ [with_id p v])) paths (m, acc) in
    exists qs, snd r = acc ++ qs /\ lp_ok cov (ps ++ acc ++ qs) [] [] (fst r) /\ lp_max (fst r) = lp_max m /\
      Forall2 (fun p q => q = with_id p (p_id q)) paths qs).
  { clear paths. induction paths as [|p paths IH]; intros m ps acc H; cbn [fold_left].
    - exists []. rewrite app_nil_r. simpl. auto.
    - change (fst (new_var (Some 0%Q) None true m)) with (num_vars m) in *.
      set (m1 := set_obj (num_vars m) (p_cost p) (snd (new_var (Some 0%Q) None true m))).
      assert (H1 : lp_ok cov (ps ++ acc ++ [with_id p (num_vars m)]) [] [] m1).
      { rewrite app_assoc. eapply lp_ok_column with (l := []); eauto.
        - apply ones_rel_nil.
        - intros i j [].
        - intros i c Hc. destruct i; discriminate. }
      destruct (IH m1 ps (acc ++ [with_id p (num_vars m)]) H1) as (qs & E1 & E2 & E3 & E4).
      exists (with_id p (num_vars m) :: qs). split; [etransitivity; [exact E1|rewrite <- app_assoc; reflexivity]|].
      split; [rewrite <- app_assoc in E2; exact E2|]. split; [exact E3|]. constructor; auto. }
  intros m ps H. destruct (G paths m ps []) as (qs & E1 & E2 & E3 & E4); [rewrite app_nil_r; auto|].
  exists qs. auto.
Qed.

(** * Leaf constraints *)

Lemma make_leaf_cons_ok paths d m : 
  (forall l p, In p paths -> cov (KLeaf l) p = (p_leaf p =? l)) ->
  lp_ok cov paths [] [] m ->
  exists m' cs kinds, make_leaf_cons paths (complete_leaves d) m = Ok (m', cs) /\ lp_ok cov paths [] kinds m' /\ lp_max m' = lp_max m /\
    length cs = 2 ^ d /\ links KLeaf cs kinds /\ (forall c, In c kinds <-> exists l, l < 2 ^ d /\ c = KLeaf l).
Proof.
  intros Hcov H0. unfold make_leaf_cons.
  destruct (for_each_steps (complete_leaves d)
    (fun lf st =>
       let '(m, cs) := st in
       let '(c, m1) := new_con (Some 1%Q) (Some 1%Q) m in
       let* cs1 := setitem cs (l_id lf) (Some c) in
       Ok (set_ones c (filter (fun p => p_leaf p =? l_id lf) paths) m1, cs1))
    (fun u st => exists kinds, lp_ok cov paths [] kinds (fst st) /\ lp_max (fst st) = lp_max m /\ length (snd st) = 2 ^ d /\
       links KLeaf (snd st) kinds /\ (forall l, nth_error (snd st) l = Some None <-> l < 2 ^ d /\ ~ In l (map l_id u)) /\
       (forall c, In c kinds <-> exists l, In l (map l_id u) /\ c = KLeaf l))
    (m, repeat None (length (complete_leaves d)))) as ([m' cs] & E & kinds & H1 & H2 & H3 & H4 & H5 & H6).
  - exists []. cbn [fst snd map]. rewrite repeat_length, complete_leaves_length. split; auto. split; auto. split; auto. split; [|split].
    + intros i c. split; intros H.
      * apply nth_error_In, repeat_spec in H. discriminate.
      * destruct c; discriminate.
    + intros l. split.
      * intros H. split; [|simpl; tauto]. rewrite <- (repeat_length (@None nat) (2 ^ d)). apply nth_error_Some. congruence.
      * intros [H _]. rewrite nth_error_nth' with (d := None) by (rewrite repeat_length; auto). f_equal.
        apply nth_repeat.
    + intros c. simpl. split; [tauto|]. intros (l & [] & _).
  - intros u lf v [m1 cs] Eu (kinds & H1 & H2 & H3 & H4 & H5 & H6). cbn [fst snd] in *.
    assert (Hlf : In lf (complete_leaves d)) by (rewrite Eu; apply in_app_iff; simpl; auto).
    assert (Hid : l_id lf < 2 ^ d).
    { apply complete_leaves_In in Hlf. destruct Hlf as (l & Hl & ->). rewrite create_leaf_id; auto. }
    assert (Hnew : ~ In (l_id lf) (map l_id u)).
    { pose proof (complete_leaves_ids d) as Hids. rewrite Eu, map_app in Hids. simpl in Hids.
      assert (Hnd : NoDup (map l_id u ++ l_id lf :: map l_id v)) by (rewrite Hids; apply seq_NoDup).
      intros Hin. apply (NoDup_app_disj _ _ _ Hnd Hin). simpl. auto. }
    unfold new_con. cbn iota beta zeta. unfold setitem. rewrite H3. apply Nat.ltb_lt in Hid as Hid'. rewrite Hid'. cbn [bind].
    eexists. split; [reflexivity|]. exists (kinds ++ [KLeaf (l_id lf)]). cbn [fst snd].
    pose proof (lp_ok_kinds _ _ _ _ _ H1) as Hlen.
    rewrite set_ones_ones.
    pose proof (ones_rel_ones (map (fun p => (num_cons m1, p_id p)) (filter (fun p => p_leaf p =? l_id lf) paths))
        (mkLp (lp_vars m1) (lp_obj m1) (lp_off m1) (lp_max m1) (lp_cons m1 ++ [mkCon (Some 1%Q) (Some 1%Q) (fun _ => 0%Q)]))) as Hones.
    split; [|split; [|split; [|split; [|split]]]].
    + apply (lp_ok_con cov paths [] kinds m1 _ (KLeaf (l_id lf)) _ H1 ltac:(intros; reflexivity) Hones).
      intros i j. rewrite in_map_iff. split.
      * intros (p & Ep & Hp). injection Ep as <- <-. apply filter_In in Hp. destruct Hp as [Hp Hq]. split; auto.
        exists p. rewrite Hcov by auto. auto.
      * intros (-> & p & Hp & <- & Hc). exists p. split; auto. apply filter_In. rewrite Hcov in Hc by auto. auto.
    + etransitivity; [exact (or_max _ _ _ Hones)|exact H2].
    + rewrite length_set_nth. auto.
    + change (length (lp_cons m1)) with (num_cons m1). rewrite <- Hlen. apply links_add; auto; [apply H5; auto|]. intros a b E. injection E as ->. auto.
    + intros l. rewrite map_app, in_app_iff. simpl. destruct (Nat.eq_dec l (l_id lf)) as [->|Hne].
      * rewrite nth_error_set_nth_same by lia. split; [discriminate|tauto].
      * rewrite nth_error_set_nth_other by auto. rewrite H5. split; intros [? ?]; split; auto; intuition.
    + intros c. rewrite in_app_iff, H6, map_app. simpl. split.
      * intros [(l & Hl & ->)|[<-|[]]]; [exists l|exists (l_id lf)]; rewrite in_app_iff; simpl; auto.
      * intros (l & Hl & ->). apply in_app_iff in Hl. destruct Hl as [Hl|[<-|[]]]; [left; eauto|auto].
  - exists m', cs, kinds. cbn [fst snd] in *. split; auto. split; auto. split; auto. split; auto. split; auto.
    intros c. rewrite H6. split; intros (l & Hl & ->); exists l; split; auto.
    + rewrite complete_leaves_ids in Hl. apply in_seq in Hl. lia.
    + rewrite complete_leaves_ids. apply in_seq. lia.
Qed.
End Gen.

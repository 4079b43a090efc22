(** Reachable nodes and leaves of a row (preprocess_rows). *)
From Verif Require Import Base Lp LpProofs TreeModel SpecTree TreeGeoProofs TreePathProofs TreeLpBuild TreeFormProofs SpecTreeRun SpecTreeLp
  TreeLpProofs.
Open Scope nat_scope.

Section Reach.
Variable d : nat.
Variable nodes : list node.
Hypothesis Hd : 1 <= d.
Hypothesis Hnodes : complete_nodes d nodes.
Hypothesis Hbottom : forall n, In n nodes -> n_bottom n = true -> 2 ^ d - 1 <= 2 * n_id n + 1.
Variable left : list nat.
Let L (k : nat) : bool := memb k left.

(** Positions the row can reach. *)
Inductive reached : nat -> Prop :=
| reached_root : reached 0
| reached_child n nd k : reached n -> nth_error nodes n = Some nd -> In k (n_cands nd) -> reached (child n (L k)).

Lemma child_inj i j b c : child i b = child j c -> i = j /\ b = c.
Proof. destruct b, c; unfold child; intros; split; auto; lia. Qed.
Lemma reached_inv m n b : reached m -> m = child n b -> reached n /\ exists nd k, nth_error nodes n = Some nd /\ In k (n_cands nd) /\ L k = b.
Proof.
  intros [|n' nd k Hr Hn Hk] E; [pose proof (child_pos n b); lia|]. apply child_inj in E. destruct E as [-> E]. split; auto. eauto.
Qed.

Lemma reached_rch bits : reached (pos 0 bits) <-> rch nodes L bits.
Proof.
  split.
  - intros H. remember (pos 0 bits) as p eqn:E. revert bits E. induction H as [|n nd k H IH Hn Hk]; intros bits E.
    + destruct bits as [|b bs]; [intros n b []|]. exfalso. change (pos 0 (b :: bs)) with (pos (child 0 b) bs) in E.
      pose proof (pos_ge bs (child 0 b)). pose proof (child_pos 0 b). lia.
    + destruct bits as [|b0 bs0]; [simpl in E; pose proof (child_pos n (L k)); lia|].
      destruct (@exists_last _ (b0 :: bs0)) as (bs & b & Eb); [discriminate|]. rewrite Eb in *. rewrite pos_snoc in E.
      apply child_inj in E. destruct E as [-> <-]. eapply rch_snoc; eauto.
  - intros H. induction bits as [|b bs IH] using rev_ind; [constructor|]. rewrite pos_snoc.
    destruct (H (pos 0 bs) b) as (nd & k & Hn & Hk & <-); [rewrite trail_app; apply in_app_iff; simpl; auto|].
    econstructor; eauto. apply IH. eapply rch_prefix; eauto.
Qed.

Lemma reached_leaf l : l < 2 ^ d -> (reached (leaf_pos d l) <-> reachable d nodes L l).
Proof.
  intros Hl. split.
  - destruct (leaf_bits d l Hl) as (bits & H1 & H2 & <-). rewrite reached_rch. intros H. rewrite <- H2. apply rch_reachable; auto.
  - intros H. apply reachable_rch in H; auto. destruct H as (bits & H1 & <- & H3). rewrite <- (pos_leaf d bits H1). apply reached_rch. auto.
Qed.

(** The sets after the first [i] nodes. *)
Let known (i : nat) (nl : list nat * list nat) : Prop :=
  NoDup (snd nl) /\
  (forall n, In n (fst nl) <-> n < 2 ^ d - 1 /\ reached n /\ (n < i \/ exists p b, p < i /\ n = child p b)) /\
  (forall l, In l (snd nl) <-> exists p b, p < i /\ leaf_pos d l = child p b /\ reached (child p b)).

Lemma reach_prefix done rest nl : map (preprocess_node d) nodes = done ++ rest -> known (length done) nl ->
  known (length nodes) (fold_left (fun nl n => reach_step left n nl) rest nl).
Proof.
  revert done nl. induction rest as [|n rest IH]; intros done nl E H; cbn [fold_left].
  - rewrite app_nil_r in E. rewrite <- (map_length (preprocess_node d) nodes), E. exact H.
  - apply (IH (done ++ [n])); [rewrite <- app_assoc; exact E|]. clear IH. rewrite app_length. cbn [length]. rewrite Nat.add_1_r.
    set (i := length done) in *.
    assert (En : nth_error (map (preprocess_node d) nodes) i = Some n) by (rewrite E, nth_error_app2 by (unfold i; lia); unfold i; rewrite Nat.sub_diag; reflexivity).
    rewrite nth_error_map in En. destruct (nth_error nodes i) as [n0|] eqn:En0; [|discriminate]. simpl in En. injection En as <-.
    assert (Hid : n_id n0 = i) by (apply Hnodes; auto).
    assert (Hi : i < 2 ^ d - 1) by (destruct Hnodes as [<- _]; apply nth_error_Some; congruence).
    assert (Hpow : 2 <= 2 ^ d) by (change 2 with (2 ^ 1) at 1; apply Nat.pow_le_mono_r; lia).
    destruct H as (Hn & Hf & Hs).
    assert (Hpar : 0 < i -> exists p b, p < i /\ i = child p b).
    { intros Hpos. exists ((i - 1) / 2), (negb (i mod 2 =? 0)). split.
      - assert ((i - 1) / 2 <= i - 1) by (apply Nat.div_le_upper_bound; lia). lia.
      - pose proof (Nat.div_mod i 2). pose proof (Nat.mod_upper_bound i 2). destruct (Nat.eqb_spec (i mod 2) 0); cbn [negb child]; unfold child.
        + replace ((i - 1) / 2) with (i / 2 - 1); [lia|]. apply (Nat.div_unique (i - 1) 2 (i / 2 - 1) 1); lia.
        + replace ((i - 1) / 2) with (i / 2); [lia|]. apply (Nat.div_unique (i - 1) 2 (i / 2) 0); lia. }
    assert (Hmem : 0 < i -> (memb i (fst nl) = true <-> reached i)).
    { intros Hpos. rewrite memb_In, Hf. split; [tauto|]. intros Hr. split; auto. }
    assert (Hcase : reached i \/ ~ reached i /\ 0 < i /\ memb i (fst nl) = false).
    { destruct (Nat.eq_dec i 0) as [->|]; [left; constructor|]. destruct (memb i (fst nl)) eqn:Em; [left; apply Hmem; auto; lia|].
      right. split; [|split; auto; lia]. intros Hr. apply Hmem in Hr; [congruence|lia]. }
    set (n1 := preprocess_node d n0).
    assert (I1 : n_id n1 = i) by (unfold n1, preprocess_node; destruct (2 ^ d - 1 <=? 2 * n_id n0 + 1); auto).
    assert (I2 : n_cands n1 = n_cands n0) by (unfold n1, preprocess_node; destruct (2 ^ d - 1 <=? 2 * n_id n0 + 1); auto).
    assert (I3 : n_parent n1 = if i =? 0 then None else Some ((i - 1) / 2)) by (unfold n1, preprocess_node; rewrite Hid; destruct (2 ^ d - 1 <=? 2 * i + 1); auto).
    destruct Hcase as [Hr|(Hr & Hpos & Hm)].
    2: { unfold reach_step. rewrite I1, I3, Hm. destruct (Nat.eqb_spec i 0); [lia|]. split; auto. split.
      - intros m. rewrite Hf. split; [intros (A & B & C); split; auto; split; auto; destruct C as [C|(p & b & C & ->)]; [left; lia|right; exists p, b; auto]|].
        intros (A & B & C). split; auto. split; auto. destruct C as [C|(p & b & C & ->)].
        + destruct (Nat.eq_dec m i) as [->|]; [contradiction|left; lia].
        + right. destruct (Nat.eq_dec p i) as [->|]; [|exists p, b; split; auto; lia]. exfalso. apply Hr. eapply reached_inv; eauto.
      - intros l. rewrite Hs. split; intros (p & b & A & B & C); [exists p, b; auto|].
        destruct (Nat.eq_dec p i) as [->|]; [|exists p, b; split; auto; lia]. exfalso. apply Hr. eapply reached_inv; eauto. }
    assert (Es : reach_step left n1 nl = fold_left (fun nl k => let c := if memb k left then n_lchild n1 else n_rchild n1 in
                 if n_bottom n1 then (fst nl, set_add c (snd nl)) else (set_add c (fst nl), snd nl)) (n_cands n0) (set_add i (fst nl), snd nl)).
    { unfold reach_step. rewrite I1, I2, I3. destruct (Nat.eqb_spec i 0); [destruct (memb i (fst nl)); reflexivity|].
      assert (Hm : memb i (fst nl) = true) by (apply Hmem; auto; lia). rewrite Hm. reflexivity. }
    rewrite Es.
    (* the loop over the candidates *)
    assert (Hch : forall k, (if memb k left then n_lchild n1 else n_rchild n1) = if n_bottom n1 then child i (L k) - (2 ^ d - 1) else child i (L k)).
    { intros k. unfold L, child, n1, preprocess_node. rewrite Hid. destruct (Nat.leb_spec (2 ^ d - 1) (2 * i + 1)); cbn [n_lchild n_rchild n_bottom].
      - destruct (memb k left); reflexivity.
      - destruct (n_bottom n0) eqn:Hb; [|destruct (memb k left); reflexivity]. apply Hbottom in Hb; [lia|eapply nth_error_In; eauto]. }
    assert (Hbot : n_bottom n1 = true <-> 2 ^ d - 1 <= 2 * i + 1).
    { unfold n1, preprocess_node. rewrite Hid. destruct (Nat.leb_spec (2 ^ d - 1) (2 * i + 1)); cbn [n_bottom]; [tauto|].
      split; [|lia]. intros Hb. apply Hbottom in Hb; [lia|eapply nth_error_In; eauto]. }
    assert (G : forall ks acc, NoDup (snd acc) ->
      let f := fold_left (fun nl k => let c := if memb k left then n_lchild n1 else n_rchild n1 in
                 if n_bottom n1 then (fst nl, set_add c (snd nl)) else (set_add c (fst nl), snd nl)) ks acc in
      NoDup (snd f) /\
      (forall m, In m (fst f) <-> In m (fst acc) \/ n_bottom n1 = false /\ exists k, In k ks /\ m = child i (L k)) /\
      (forall l, In l (snd f) <-> In l (snd acc) \/ n_bottom n1 = true /\ exists k, In k ks /\ l = child i (L k) - (2 ^ d - 1))).
    { induction ks as [|k ks IH]; intros acc Ha; cbn [fold_left].
      - cbn zeta. split; auto. split; intros; (split; [auto|intros [|(_ & k & [] & _)]; auto]).
      - match goal with |- context [fold_left ?f ks ?a] => specialize (IH a) end. cbn zeta in IH |- *. rewrite (Hch k) in *.
        destruct (n_bottom n1); cbn [fst snd] in *.
        + destruct IH as (J1 & J2 & J3); [apply set_add_NoDup; auto|]. split; auto. split.
          * intros m. rewrite J2. split; intros [?|(? & _)]; auto; discriminate.
          * intros l. rewrite J3, set_add_In. split.
            -- intros [[->|?]|(_ & k' & ? & ->)]; auto; right; split; auto; eexists; split; eauto; simpl; auto.
            -- intros [?|(_ & k' & [<-|?] & ->)]; auto. right. split; auto. eauto.
        + destruct IH as (J1 & J2 & J3); auto. split; auto. split.
          * intros m. rewrite J2, set_add_In. split.
            -- intros [[->|?]|(_ & k' & ? & ->)]; auto; right; split; auto; eexists; split; eauto; simpl; auto.
            -- intros [?|(_ & k' & [<-|?] & ->)]; auto. right. split; auto. eauto.
          * intros l. rewrite J3. split; intros [?|(? & _)]; auto; discriminate. }
    destruct (G (n_cands n0) (set_add i (fst nl), snd nl) Hn) as (J1 & J2 & J3). cbn [fst snd] in *. clear G.
    split; [exact J1|]. split.
    + intros m. rewrite J2, set_add_In, Hf. split.
      * intros [[->|(A & B & C)]|(Hb & k & Hk & ->)].
        -- split; auto.
        -- split; auto. split; auto. destruct C as [C|(p & b & C & ->)]; [left; lia|right; exists p, b; auto].
        -- split; [|split; [econstructor; eauto|right; exists i, (L k); auto]].
           assert (~ 2 ^ d - 1 <= 2 * i + 1) by (rewrite <- Hbot, Hb; discriminate).
           assert (exists q, 2 ^ d = 2 * q) as [q Hq] by (exists (2 ^ (d - 1)); rewrite <- Nat.pow_succ_r'; f_equal; lia).
           destruct (L k); unfold child; lia.
      * intros (A & B & C). destruct C as [C|(p & b & C & E2)].
        -- destruct (Nat.eq_dec m i) as [->|]; auto. left. right. split; auto. split; auto. left. lia.
        -- destruct (Nat.eq_dec p i) as [->|].
           ++ right. destruct (reached_inv m i b B E2) as (_ & nd & k & Hnd & Hk & Lk). assert (nd = n0) by congruence. subst nd b. split; [|eauto].
              apply not_true_is_false. intros Hb. apply Hbot in Hb. subst m. destruct (L k); unfold child in A; lia.
           ++ left. right. split; auto. split; auto. right. exists p, b. split; auto. lia.
    + intros l. rewrite J3, Hs. split.
      * intros [(p & b & A & B & C)|(Hb & k & Hk & ->)]; [exists p, b; auto|]. exists i, (L k). split; auto. split; [|econstructor; eauto].
        apply Hbot in Hb. unfold leaf_pos. destruct (L k); unfold child; lia.
      * intros (p & b & A & B & C). destruct (Nat.eq_dec p i) as [->|]; [|left; exists p, b; split; auto; lia]. right.
        destruct (reached_inv _ i b C eq_refl) as (_ & nd & k & Hnd & Hk & Lk). assert (nd = n0) by congruence. subst nd b. split.
        -- apply Hbot. unfold leaf_pos in B. 
           assert (exists q, 2 ^ d = 2 * q) as [q Hq] by (exists (2 ^ (d - 1)); rewrite <- Nat.pow_succ_r'; f_equal; lia).
           destruct (L k); unfold child in B; lia.
        -- exists k. split; auto. unfold leaf_pos in B. lia.
Qed.

Lemma reach_leaves rn rl : reach left (map (preprocess_node d) nodes) = (rn, rl) ->
  NoDup rl /\ forall l, In l rl <-> reachable d nodes L l.
Proof.
  intros E. unfold reach in E. pose proof (reach_prefix [] _ ([], []) eq_refl) as H. rewrite E in H.
  destruct H as (H1 & _ & H3).
  { cbn [length]. split; [constructor|]. split; intros; simpl; (split; [tauto|]).
    - intros (_ & _ & [?|(p & b & ? & _)]); lia.
    - intros (p & b & ? & _). lia. }
  cbn [fst snd] in *. split; auto. intros l. rewrite H3. pose proof (pow2_pos d) as Hpow. destruct Hnodes as [Hlen _]. split.
  - intros (p & b & Hp & E2 & Hr). rewrite <- E2 in Hr. apply reached_leaf; auto. unfold leaf_pos in E2. destruct b; unfold child in E2; lia.
  - intros Hr. assert (Hl : l < 2 ^ d) by apply Hr. apply reached_leaf in Hr; auto.
    assert (E2 : exists p b, leaf_pos d l = child p b).
    { inversion Hr as [E3|n nd k _ _ _ E3]; eauto. exfalso. unfold leaf_pos in E3.
      assert (2 ^ 1 <= 2 ^ d) by (apply Nat.pow_le_mono_r; lia). simpl in *. lia. }
    destruct E2 as (p & b & E2). exists p, b. split; [|rewrite <- E2; auto]. unfold leaf_pos in E2. rewrite Hlen. destruct b; unfold child in E2; lia.
Qed.
End Reach.

(** preprocess: rows, representatives, weights. *)
From Verif Require Import Base Lp LpProofs TreeModel SpecTree TreeGeoProofs TreePathProofs TreeLpBuild TreeFormProofs TreeBuildProofs TreeInvProofs SpecTreeRun
  SpecTreeLp TreeLpProofs TreeReachProofs ExpModel SpecExp ExpRowProofs ExpQuadProofs.
Open Scope nat_scope.

Section Pre.
Variables (d : nat) (X : list sample) (y : list nat) (nodes : list node) (splits : list split).
Hypothesis wf : wf_tree d X nodes splits.
Hypothesis Hy : length y = length X.
Hypothesis Hfresh : Forall (fun n => n_bottom n = false) nodes.
Let nodes1 := map (preprocess_node d) nodes.
Let n := length X.

Lemma fresh_bottom : forall m, In m nodes -> n_bottom m = true -> 2 ^ d - 1 <= 2 * n_id m + 1.
Proof. intros m Hm Hb. rewrite Forall_forall in Hfresh. rewrite (Hfresh m Hm) in Hb. discriminate. Qed.

Definition fresh_row (r : nat) (a : row) : Prop :=
  (exists x, nth_error X r = Some x /\ forall k, memb k (r_left a) = goes_left splits x k) /\
  reach (r_left a) nodes1 = (r_nodes a, r_leaves a) /\ r_gone a = (length (r_leaves a) <=? 2) /\ r_gone_sp a = false /\ r_weight a = 1 /\ r_paths a = [].

(** The splits on both sides of the row. *)
Definition sides_row (r : nat) (a : row) : Prop := exists x, nth_error X r = Some x /\
  (forall k, In k (r_left a) <-> exists s, nth_error splits k = Some s /\ sample_left x s = true) /\
  (forall k, In k (r_right a) <-> exists s, nth_error splits k = Some s /\ sample_left x s = false).

Lemma exp_row_ok r : r < n -> exists a, exp_row nodes1 splits y r = Ok a /\ fresh_row r a /\ sides_row r a.
Proof.
  intros Hr. destruct (nth_error_some_lt X r Hr) as [x Ex]. destruct (nth_error_some_lt y r) as [c Ec]; [unfold n in *; lia|].
  unfold exp_row. rewrite (getitem_nth _ _ _ Ec). cbn [bind].
  set (f := fun (lr : list nat * list nat) s => if memb r (s_lrows s) then (set_add (s_id s) (fst lr), snd lr) else (fst lr, set_add (s_id s) (snd lr))).
  assert (H : forall l acc k, In k (fst (fold_left f l acc)) <-> In k (fst acc) \/ exists s, In s l /\ s_id s = k /\ In r (s_lrows s)).
  { induction l as [|s l IH]; intros acc k; cbn [fold_left].
    - split; [auto|]. intros [?|(s & [] & _)]; auto.
    - rewrite IH. unfold f at 1. destruct (memb r (s_lrows s)) eqn:E; cbn [fst]; [rewrite set_add_In; apply memb_In in E|apply memb_false in E]; split.
      + intros [[->|?]|(s' & ? & ?)]; auto; right; [exists s|exists s']; cbn; auto.
      + intros [?|(s' & [<-|?] & ? & ?)]; auto. right. eauto.
      + intros [?|(s' & ? & ?)]; auto. right. exists s'. cbn. auto.
      + intros [?|(s' & [<-|?] & ? & ?)]; auto; [contradiction|]. right. eauto. }
  assert (H' : forall l acc k, In k (snd (fold_left f l acc)) <-> In k (snd acc) \/ exists s, In s l /\ s_id s = k /\ ~ In r (s_lrows s)).
  { clear H. induction l as [|s l IH]; intros acc k; cbn [fold_left].
    - split; [auto|]. intros [?|(s & [] & _)]; auto.
    - rewrite IH. unfold f at 1. destruct (memb r (s_lrows s)) eqn:E; cbn [snd]; [apply memb_In in E|rewrite set_add_In; apply memb_false in E]; split.
      + intros [?|(s' & ? & ?)]; auto. right. exists s'. cbn. auto.
      + intros [?|(s' & [<-|?] & ? & ?)]; auto; [contradiction|]. right. eauto.
      + intros [[->|?]|(s' & ? & ?)]; auto; right; [exists s|exists s']; cbn; auto.
      + intros [?|(s' & [<-|?] & ? & ?)]; auto. right. eauto. }
  set (lr := fold_left f splits ([], [])). destruct (reach (fst lr) nodes1) as [rn rl] eqn:E. eexists. split; [reflexivity|].
  split; [|].
  2:{ exists x. split; auto. cbn [r_left r_right]. unfold lr. split; intros k; [rewrite H|rewrite H']; cbn [fst snd].
    - split; [intros [[]|(s & Hs & Eid & Hi)]|intros (s & Es & Hl); right; exists s].
      + pose proof Hs as Hs'. apply In_nth_error in Hs'. destruct Hs' as [i Ei]. rewrite (wt_ids _ _ _ _ wf i s Ei) in Eid. subst i. exists s. split; auto.
        apply (rows_recorded_in X splits (wt_recorded _ _ _ _ wf) s r x Hs Ex). auto.
      + pose proof (nth_error_In _ _ Es) as Hs. split; auto. split; [exact (wt_ids _ _ _ _ wf k s Es)|].
        apply (rows_recorded_in X splits (wt_recorded _ _ _ _ wf) s r x Hs Ex). auto.
    - split; [intros [[]|(s & Hs & Eid & Hi)]|intros (s & Es & Hl); right; exists s].
      + pose proof Hs as Hs'. apply In_nth_error in Hs'. destruct Hs' as [i Ei]. rewrite (wt_ids _ _ _ _ wf i s Ei) in Eid. subst i. exists s. split; auto.
        apply not_true_is_false. intros Hl. apply Hi. apply (rows_recorded_in X splits (wt_recorded _ _ _ _ wf) s r x Hs Ex). auto.
      + pose proof (nth_error_In _ _ Es) as Hs. split; auto. split; [exact (wt_ids _ _ _ _ wf k s Es)|]. intros Hi.
        apply (rows_recorded_in X splits (wt_recorded _ _ _ _ wf) s r x Hs Ex) in Hi. congruence. }
  unfold fresh_row. cbn [r_left r_nodes r_leaves r_gone r_gone_sp r_weight r_paths]. split; [|split; [exact E|auto]].
  exists x. split; auto. intros k. apply eq_true_iff_eq. rewrite memb_In. unfold lr. rewrite H. cbn [fst]. unfold goes_left.
  split.
  - intros [[]|(s & Hs & Eid & Hin)]. pose proof Hs as Hs'. apply In_nth_error in Hs'. destruct Hs' as [i Hi]. rewrite (wt_ids _ _ _ _ wf i s Hi) in Eid. subst i. rewrite Hi.
    apply (rows_recorded_in X splits (wt_recorded _ _ _ _ wf) s r x Hs Ex). auto.
  - destruct (nth_error splits k) as [s|] eqn:Es; [|discriminate]. intros Hl. right. exists s. pose proof (nth_error_In _ _ Es) as Hs. split; auto.
    split; [exact (wt_ids _ _ _ _ wf k s Es)|]. apply (rows_recorded_in X splits (wt_recorded _ _ _ _ wf) s r x Hs Ex). auto.
Qed.
Lemma exp_rows_ok : exists rows0, map_res (exp_row nodes1 splits y) (seq 0 n) = Ok rows0 /\ length rows0 = n /\
  forall r a, nth_error rows0 r = Some a -> fresh_row r a /\ sides_row r a.
Proof.
  destruct (map_res_Forall2 (exp_row nodes1 splits y) (fun r a => fresh_row r a /\ sides_row r a) (seq 0 n)) as (rows0 & E & F).
  { intros r Hr. apply in_seq in Hr. apply exp_row_ok. lia. }
  exists rows0. split; auto. pose proof (Forall2_length' _ _ _ F) as L. rewrite seq_length in L. split; auto. intros r a Ea.
  destruct (Forall2_nth_r _ _ _ _ _ F Ea) as (r' & Er & H). apply nth_error_seq_Some in Er. destruct Er as [-> _]. exact H.
Qed.

Lemma alike_same_way i j a b : fresh_row i a -> fresh_row j b -> alike d nodes (r_left a) (r_left b) -> same_way d X nodes splits i j.
Proof.
  intros ((x & Ex & Hl) & _) ((x' & Ex' & Hl') & _) A p Hp Hc. assert (Hlf : p_leaf p < 2 ^ d) by apply Hp.
  assert (K : forall i x a, nth_error X i = Some x -> (forall k, memb k (r_left a) = goes_left splits x k) ->
    (covers X (complete_leaves d) splits (KRow i) p <-> follows (create_leaf (p_leaf p) d) (fun k => memb k (r_left a)) p)).
  { clear - Hlf. intros i x a Ex Hl. cbn [covers]. rewrite (complete_leaves_nth _ _ Hlf), Ex.
    assert (Eq : follows (create_leaf (p_leaf p) d) (fun k => memb k (r_left a)) p <-> follows (create_leaf (p_leaf p) d) (goes_left splits x) p).
    { unfold follows. split; intros H m k Hin; [rewrite <- Hl|rewrite Hl]; auto. }
    rewrite Eq. split; [intros (x' & lf & E1 & E2 & Hf); injection E1 as <-; injection E2 as <-; auto|eauto 6]. }
  rewrite (K i x a), (K j x' b) by auto. split; apply (alike_follows d nodes (wt_depth _ _ _ _ wf) _ _ p splits); auto.
  apply alike_sym; auto. apply wf.
Qed.

Definition matchb (rows0 : list row) (i j : nat) : bool :=
  match nth_error rows0 i, nth_error rows0 j with
  | Some a, Some b => match rows_match nodes1 a b with Ok m => m | Err _ => false end
  | _, _ => false
  end.

Lemma preprocess_ok aggressive time_limit clk : exists rows rep,
  preprocess nodes splits X y d aggressive time_limit clk = Ok (nodes1, rows) /\ length rows = n /\ Forall (fun b => r_paths b = []) rows /\
  (forall r, r < n -> rep r <= r /\ rep (rep r) = rep r /\ nth_error y (rep r) = nth_error y r /\ same_way d X nodes splits (rep r) r) /\
  (forall r b, nth_error rows r = Some b -> (r_gone_sp b = false <-> rep r = r)) /\
  (forall P w, (forall r, r < n -> P (rep r) = P r) -> (forall r b, nth_error rows r = Some b -> w r = r_weight b) ->
     nsum w (filter (fun r => negb (spb rows r) && P r) (seq 0 n)) = length (filter P (seq 0 n))) /\
  (forall r b, nth_error rows r = Some b -> few_leaves d X nodes splits r -> r_gone b = true) /\
  (forall r b, nth_error rows r = Some b -> r_gone b = true -> few_leaves d X nodes splits r \/
     exists r' b', r' < r /\ nth_error rows r' = Some b' /\ r_gone b' = false /\ same_way d X nodes splits r' r) /\
  ((forall j k, j <= k -> (clk j <= clk k)%Q) -> forall r b, nth_error rows r = Some b -> r_gone_sp b = true -> r_gone b = true) /\
      (forall r b, nth_error rows r = Some b -> sides_row r b /\ reach (r_left b) nodes1 = (r_nodes b, r_leaves b)) /\
  (aggressive = true -> (forall k, late time_limit clk (clk 0) k = false) -> forall r r' b b', r < r' -> nth_error rows r = Some b -> nth_error rows r' = Some b' ->
     alike d nodes (r_left b) (r_left b') ->
     (nth_error y r = nth_error y r' -> r_gone_sp b = false -> r_gone_sp b' = true) /\ (r_gone b = false -> r_gone b' = true)).
Proof.
  pose proof (wt_depth _ _ _ _ wf) as Hd. pose proof (wt_nodes _ _ _ _ wf) as Hn. pose proof fresh_bottom as Hb.
  destruct exp_rows_ok as (rows0 & E0 & L0 & FS). assert (F0 : forall r a, nth_error rows0 r = Some a -> fresh_row r a) by (intros r a Ea; apply (FS r a Ea)).
  assert (M : forall i j a b, nth_error rows0 i = Some a -> nth_error rows0 j = Some b ->
    rows_match nodes1 a b = Ok (matchb rows0 i j) /\ (matchb rows0 i j = true <-> alike d nodes (r_left a) (r_left b))).
  { intros i j a b Ea Eb. destruct (F0 i a Ea) as (_ & Ra & _). destruct (F0 j b Eb) as (_ & Rb & _).
    destruct (rows_match_ok d nodes Hd Hn Hb a b _ _ Ra Rb) as (m & E & Hm). unfold matchb. rewrite Ea, Eb. unfold nodes1. rewrite E. auto. }
  assert (Mr : forall i, i < length rows0 -> matchb rows0 i i = true).
  { intros i Hi. destruct (nth_error_some_lt rows0 i Hi) as [a Ea]. apply (M i i a a Ea Ea). apply alike_refl. }
  assert (Ms : forall i j, i < length rows0 -> j < length rows0 -> matchb rows0 i j = true -> matchb rows0 j i = true).
  { intros i j Hi Hj H. destruct (nth_error_some_lt rows0 i Hi) as [a Ea]. destruct (nth_error_some_lt rows0 j Hj) as [b Eb].
    apply (M j i b a Eb Ea). apply alike_sym; auto. apply (M i j a b Ea Eb). auto. }
  assert (Mt : forall i j k, i < length rows0 -> j < length rows0 -> k < length rows0 -> matchb rows0 i j = true -> matchb rows0 j k = true -> matchb rows0 i k = true).
  { intros i j k Hi Hj Hk H1 H2. destruct (nth_error_some_lt rows0 i Hi) as [a Ea]. destruct (nth_error_some_lt rows0 j Hj) as [b Eb].
    destruct (nth_error_some_lt rows0 k Hk) as [c Ec]. apply (M i k a c Ea Ec). eapply alike_trans; eauto; [apply (M i j a b Ea Eb)|apply (M j k b c Eb Ec)]; auto. }
  assert (Mw : forall i j, i < length rows0 -> j < length rows0 -> matchb rows0 i j = true -> same_way d X nodes splits i j).
  { intros i j Hi Hj H. destruct (nth_error_some_lt rows0 i Hi) as [a Ea]. destruct (nth_error_some_lt rows0 j Hj) as [b Eb].
    eapply alike_same_way; eauto. apply (M i j a b Ea Eb). auto. }
  assert (Few : forall r a, nth_error rows0 r = Some a -> (r_gone a = true <-> few_leaves d X nodes splits r)).
  { intros r a Ea. destruct (F0 r a Ea) as ((x & Ex & Hl) & Ra & -> & _). destruct (reach_spec d nodes Hd Hn Hb _ _ _ Ra) as (_ & Nd & Hr).
    assert (Et : forall l, In l (r_leaves a) <-> reachable d nodes (goes_left splits x) l).
    { intros l. rewrite Hr. unfold reachable.
      assert (E1 : forall tree, leaf_reached d (fun m => memb (tree m) (r_left a)) = leaf_reached d (fun m => goes_left splits x (tree m))).
      { intros tree. unfold leaf_reached. f_equal. generalize 0. clear - Hl. induction d as [|d' IH]; intros i; cbn [route]; auto. rewrite Hl. apply IH. }
      split; intros (H1 & tree & H2 & H3); (split; [exact H1|]); exists tree; (split; [exact H2|]); [rewrite <- E1|rewrite E1]; exact H3. }
    rewrite Nat.leb_le. split.
    - intros H. exists x, (r_leaves a). split; auto. split; auto. intros l. apply Et.
    - intros (x' & R & Ex' & HR & Hall). assert (x' = x) by congruence. subst x'. apply Nat.le_trans with (length R); auto.
      apply NoDup_incl_length; auto. intros l H. apply Hall, Et. auto. }
  assert (K0 : kept_rows y rows0 (matchb rows0) 0 (fun r => r) rows0).
  { constructor; auto; try tauto.
    - split; auto. intros r a b E1 E2. assert (a = b) by congruence. subst b. apply st_refl.
    - intros r Hr. unfold ysame. destruct (nth_error_some_lt y r) as [c Ec]; [unfold n in *; lia|]. rewrite Ec. apply Nat.eqb_refl.
    - intros r b Eb. destruct (F0 r b Eb) as (_ & _ & _ & -> & _). tauto.
    - intros r b Eb _. destruct (F0 r b Eb) as (_ & _ & _ & _ & -> & _).
      assert (Pm : Permutation (filter (fun r' => r' =? r) (seq 0 (length rows0))) [r]).
      { apply NoDup_Permutation; [apply NoDup_filter, seq_NoDup|repeat constructor; auto|]. intros k. rewrite filter_In, in_seq, Nat.eqb_eq. cbn.
        assert (r < length rows0) by (apply nth_error_Some; congruence). intuition lia. }
      rewrite (Permutation_length Pm). reflexivity.
    - intros r b0 b E1 E2 H. assert (b = b0) by congruence. subst b. auto.
    - intros r b0 b E1 E2 H. assert (b = b0) by congruence. subst b. auto. }
  assert (Sg0 : sp_gone rows0) by (intros r b Eb Hs; destruct (F0 r b Eb) as (_ & _ & _ & H & _); congruence).
  assert (Gt0 : gone_together (matchb rows0) 0 rows0).
  { intros r r' b b' _ _ Eb Eb' Hm Hg _. destruct (F0 r b Eb) as (_ & Ra & G & _). destruct (F0 r' b' Eb') as (_ & Ra' & G' & _). rewrite G'. rewrite G in Hg.
    rewrite <- (alike_leaves d nodes Hd Hn Hb _ _ _ _ _ _ (proj1 (proj2 (M r r' b b' Eb Eb')) Hm) Ra Ra'). exact Hg. }
  assert (Fin : forall rows rep, kept_rows y rows0 (matchb rows0) (length rows0) rep rows ->
    ((forall j k, j <= k -> (clk j <= clk k)%Q) -> sp_gone rows) ->
    (aggressive = true -> (forall k, late time_limit clk (clk 0) k = false) -> separated y (matchb rows0) (length rows0) rows) ->
    preprocess nodes splits X y d aggressive time_limit clk = Ok (nodes1, rows) -> exists rows rep,
      preprocess nodes splits X y d aggressive time_limit clk = Ok (nodes1, rows) /\ length rows = n /\ Forall (fun b => r_paths b = []) rows /\
      (forall r, r < n -> rep r <= r /\ rep (rep r) = rep r /\ nth_error y (rep r) = nth_error y r /\ same_way d X nodes splits (rep r) r) /\
      (forall r b, nth_error rows r = Some b -> (r_gone_sp b = false <-> rep r = r)) /\
      (forall P w, (forall r, r < n -> P (rep r) = P r) -> (forall r b, nth_error rows r = Some b -> w r = r_weight b) ->
         nsum w (filter (fun r => negb (spb rows r) && P r) (seq 0 n)) = length (filter P (seq 0 n))) /\
      (forall r b, nth_error rows r = Some b -> few_leaves d X nodes splits r -> r_gone b = true) /\
      (forall r b, nth_error rows r = Some b -> r_gone b = true -> few_leaves d X nodes splits r \/
         exists r' b', r' < r /\ nth_error rows r' = Some b' /\ r_gone b' = false /\ same_way d X nodes splits r' r) /\
      ((forall j k, j <= k -> (clk j <= clk k)%Q) -> forall r b, nth_error rows r = Some b -> r_gone_sp b = true -> r_gone b = true) /\
      (forall r b, nth_error rows r = Some b -> sides_row r b /\ reach (r_left b) nodes1 = (r_nodes b, r_leaves b)) /\
      (aggressive = true -> (forall k, late time_limit clk (clk 0) k = false) -> forall r r' b b', r < r' -> nth_error rows r = Some b -> nth_error rows r' = Some b' ->
     alike d nodes (r_left b) (r_left b') ->
     (nth_error y r = nth_error y r' -> r_gone_sp b = false -> r_gone_sp b' = true) /\ (r_gone b = false -> r_gone b' = true))).
  { intros rows rep K Sg Sep E. pose proof (kr_st _ _ _ _ _ _ K) as St. assert (L : length rows = n) by (rewrite <- L0; apply St).
    assert (At : forall r b, nth_error rows r = Some b -> r < n /\ exists b0, nth_error rows0 r = Some b0 /\ st b0 b).
    { intros r b Eb. assert (Hr : r < n) by (rewrite <- L; apply nth_error_Some; congruence). split; auto.
      destruct (nth_error_some_lt rows0 r) as [b0 Eb0]; [lia|]. exists b0. split; auto. eapply St; eauto. }
    exists rows, rep. split; auto. split; auto. split; [|split; [|split; [|split; [|split; [|split; [|split; [|split]]]]]]].
    - apply Forall_forall. intros b Hb'. apply In_nth_error in Hb'. destruct Hb' as [r Eb]. destruct (At r b Eb) as (_ & b0 & Eb0 & (_ & S2 & _)).
      destruct (F0 r b0 Eb0) as (_ & _ & _ & _ & _ & Hp). congruence.
    - intros r Hr. rewrite <- L0 in Hr. pose proof (kr_le _ _ _ _ _ _ K r Hr). split; auto. split; [apply (kr_rep _ _ _ _ _ _ K r Hr)|]. split.
      + pose proof (kr_y _ _ _ _ _ _ K r Hr) as Y. unfold ysame in Y. destruct (nth_error y (rep r)), (nth_error y r); try discriminate. apply Nat.eqb_eq in Y. congruence.
      + apply Mw; auto; [lia|]. apply (kr_mb _ _ _ _ _ _ K r Hr).
    - apply (kr_sp _ _ _ _ _ _ K).
    - intros P w HP Hw. rewrite <- L0. refine (kept_total y clk rows0 (matchb rows0) _ _ rep rows P w K _ Hw); [rewrite L0; exact Hy|rewrite L0; exact HP].
    - intros r b Eb Hf. destruct (At r b Eb) as (_ & b0 & Eb0 & _). eapply (kr_gone0 _ _ _ _ _ _ K); eauto. apply (Few r); auto.
    - intros r b Eb Hg. destruct (At r b Eb) as (Hr & b0 & Eb0 & _). destruct (kr_gone _ _ _ _ _ _ K r b0 b Eb0 Eb Hg) as [H|(r' & b' & H1 & _ & H2 & H3 & H4)].
      + left. apply (Few r b0); auto.
      + right. exists r', b'. split; auto. split; auto. split; auto. apply Mw; auto; lia.
    - intros Mono. apply Sg. auto.
    - intros r b Eb. destruct (At r b Eb) as (_ & b0 & Eb0 & (S1 & _ & S3 & S4 & S5)). destruct (FS r b0 Eb0) as ((_ & Ra & _) & (x & Ex & Sl & Sr)).
      unfold sides_row. rewrite <- S1, <- S3, <- S4, <- S5. split; [|exact Ra]. exists x. auto.
    - intros Ha NL r r' b b' Hrr Eb Eb' Al. destruct (At r b Eb) as (Hr & b0 & Eb0 & (_ & _ & _ & S4 & _)). destruct (At r' b' Eb') as (Hr' & b0' & Eb0' & (_ & _ & _ & S4' & _)).
      assert (Hm : matchb rows0 r r' = true) by (apply (M r r' b0 b0' Eb0 Eb0'); rewrite S4, S4'; exact Al).
      destruct (Sep Ha NL r r' b b') as [H1 H2]; auto; [lia|]. split; auto. intros Ey. apply H1. unfold ysame. rewrite <- Ey.
      destruct (nth_error_some_lt y r) as [c Ec]; [unfold n in *; lia|]. rewrite Ec. apply Nat.eqb_refl. }
  assert (HX : length X =? 0 = false) by (apply Nat.eqb_neq; pose proof (wt_rows _ _ _ _ wf); lia).
  fold n in HX. destruct aggressive.
  - assert (Hmb : forall i j a b, nth_error rows0 i = Some a -> nth_error rows0 j = Some b -> rows_match nodes1 a b = Ok (matchb rows0 i j))
      by (intros i j a b Ea Eb; apply (M i j a b Ea Eb)).
    destruct (outer_ok nodes1 y time_limit clk (clk 0) rows0 (matchb rows0) Hmb (eq_trans Hy (eq_sym L0)) Mt n 0 (fun r => r) rows0 1 (eq_sym L0) K0)
      as (rows & k' & rep & E & K & G).
    apply (Fin rows rep); auto.
    { intros _ NL. apply (outer_complete nodes1 y time_limit clk (clk 0) rows0 (matchb rows0) Hmb (eq_trans Hy (eq_sym L0)) Mt NL n 0 (fun r => r) rows0 1 rows k'); auto.
      intros r r' b b' Hr0. lia. }
    unfold preprocess. change (preprocess_nodes d nodes) with nodes1. fold n. rewrite E0. cbn [bind]. rewrite HX, E. reflexivity.
  - apply (Fin rows0 (fun r => r)); auto.
    + destruct K0 as [K1 K2 K3 K4 K5 K6 K7 K8 K9 K10]. constructor; auto; intros; left; congruence.
    + discriminate.
    + unfold preprocess. change (preprocess_nodes d nodes) with nodes1. fold n. rewrite E0. cbn [bind]. rewrite HX. reflexivity.
Qed.
End Pre.

(** After the preparation, training is no worse than CART (proofs). *)
From Verif Require Import Base Lp LpProofs FitModel SpecFit TreeModel TreePricingModel TreeFitModel ExpModel SpecTree SpecTreeRun SpecTreeLp SpecTreePrice SpecTreeMip SpecTreeFit SpecTreeTrain SpecTreeResult
  SpecExp SpecPrep TreeGeoProofs TreePathProofs TreeLpBuild TreeBuildProofs TreeInvProofs TreeMasterProofs TreeFormProofs TreeSolProofs TreeLpProofs TreeResultProofs TreeOutcomeProofs
  ExpSplitProofs ExpCartProofs ExpReduceProofs ExpPathProofs ExpPreprocessProofs ExpQuadProofs PrepMergeProofs PrepNodesProofs PrepPathsProofs PrepProofs PrepTrainProofs
  PropTree PropTreeLp PropTreePrice PropTreeFit PropExpRows.
Open Scope nat_scope.

(** * Routes *)

Lemma route_up f g i j k : route (S k) f i = route (S k) g j -> route k f i = route k g j.
Proof. rewrite !route_snoc. cbv zeta. destruct (f (route k f i)), (g (route k g j)); lia. Qed.
Lemma route_prefix f g i j n : forall k, k <= n -> route n f i = route n g j -> route k f i = route k g j.
Proof.
  induction n as [|n IH]; intros k Hk E; [replace k with 0 by lia; exact E|]. destruct (Nat.eq_dec k (S n)) as [->|Hne]; auto.
  apply IH; [lia|]. apply route_up. exact E.
Qed.
Lemma route_level f : forall k, 2 ^ k - 1 <= route k f 0.
Proof.
  induction k as [|k IH]; [cbn; lia|]. rewrite route_snoc. cbv zeta. rewrite Nat.pow_succ_r'. pose proof (Nat.pow_nonzero 2 k). destruct (f (route k f 0)); lia.
Qed.

Section Cart.
Variables (d : nat) (splits : list split) (tree : nat -> nat) (final : cart).
Hypothesis C : cart_ok final.
Hypothesis Hd : forall h f t, tests_at final h f t -> h < 2 ^ d - 1.
Hypothesis Hf : forall h f t, tests_at final h f t -> exists s, nth_error splits (tree h) = Some s /\ s_feature s = f /\ (s_threshold s == t)%Q.
Let left_at (x : sample) (n : nat) : bool := goes_left splits x (tree n).

Lemma cart_route x k i : descends final x k i -> positioned final i (route k (left_at x) 0).
Proof.
  intros D. induction D as [|k i f t j D IH T H]; [constructor|]. rewrite route_snoc. cbv zeta. set (h := route k _ 0) in *.
  assert (Hg : left_at x h = Qle_bool (nth f x 0%Q) t).
  { destruct (Hf h f t) as (s & E & E1 & E2); [exists i; auto|]. unfold left_at, goes_left. rewrite E. unfold sample_left. rewrite E1. apply Qle_bool_same. auto. }
  rewrite Hg. destruct (Qle_bool (nth f x 0%Q) t); econstructor; eauto.
Qed.
Lemma cart_depth x k i : descends final x k i -> k <= d.
Proof.
  intros D. inversion D as [|k' i' f t j D' T H]; subst; [lia|]. pose proof (cart_route _ _ _ D') as P.
  assert (Hlt : route k' (left_at x) 0 < 2 ^ d - 1) by (eapply Hd; exists i'; eauto). pose proof (route_level (left_at x) k').
  destruct (Nat.lt_ge_cases d (S k')) as [Hc|Hc]; [|lia]. assert (2 ^ d <= 2 ^ k') by (apply Nat.pow_le_mono_r; lia). lia.
Qed.
Lemma cart_prefix x k i : descends final x k i -> forall k', k' < k -> exists i', descends final x k' i' /\ inner final i'.
Proof.
  intros D. induction D as [|k i f t j D IH T H]; intros k' Hk; [lia|]. destruct (Nat.eq_dec k' k) as [->|Hne]; [exists i; split; [auto|apply T]|]. apply IH. lia.
Qed.
(** Two samples that reach the same leaf of the complete tree reach the same leaf of the CART tree. *)
Lemma cart_same x x' k k' i i' : leaf_reached d (left_at x) = leaf_reached d (left_at x') ->
  descends final x k i -> ~ inner final i -> descends final x' k' i' -> ~ inner final i' -> i = i'.
Proof.
  intros El D N D' N'.
  assert (Er : route d (left_at x) 0 = route d (left_at x') 0).
  { unfold leaf_reached in El. pose proof (route_level (left_at x) d). pose proof (route_level (left_at x') d). lia. }
  destruct (Nat.lt_trichotomy k k') as [Hlt|[<-|Hlt]].
  - destruct (cart_prefix _ _ _ D' k Hlt) as (i2 & D2 & N2). exfalso. apply N.
    pose proof (cart_route _ _ _ D) as P. pose proof (cart_route _ _ _ D2) as P2. rewrite <- (route_prefix _ _ _ _ _ k (cart_depth _ _ _ D) Er) in P2.
    rewrite (positioned_inj _ _ _ P _ P2). exact N2.
  - pose proof (cart_route _ _ _ D) as P. pose proof (cart_route _ _ _ D') as P2. rewrite <- (route_prefix _ _ _ _ _ k (cart_depth _ _ _ D) Er) in P2.
    apply (positioned_inj _ _ _ P _ P2).
  - destruct (cart_prefix _ _ _ D k' Hlt) as (i2 & D2 & N2). exfalso. apply N'.
    pose proof (cart_route _ _ _ D') as P. pose proof (cart_route _ _ _ D2) as P2. rewrite (route_prefix _ _ _ _ _ k' (cart_depth _ _ _ D') Er) in P2.
    rewrite (positioned_inj _ _ _ P _ P2). exact N2.
Qed.

Variables (X : list sample) (y : list nat) (sel : list path).
Hypothesis Hperm : Permutation (map p_leaf sel) (seq 0 (2 ^ d)).
Hypothesis Hp : Forall (tree_path d splits) sel.
Hypothesis Ha : Forall (agrees tree) sel.
Hypothesis Hm : Forall (majority_path d X y splits) sel.

Lemma row_path r x p : In p sel -> nth_error X r = Some x -> p_leaf p = leaf_reached d (left_at x) -> covers X (complete_leaves d) splits (KRow r) p.
Proof.
  intros Hin E El. rewrite Forall_forall in Hp, Ha. exists x, (create_leaf (p_leaf p) d). split; auto. split.
  - apply complete_leaves_nth. apply (Hp p Hin).
  - apply (follows_tree d splits p (Hp p Hin) tree _ (Ha p Hin)). symmetry. exact El.
Qed.

Lemma filter_seq_one n a : a < n -> length (filter (fun l => l =? a) (seq 0 n)) = 1.
Proof.
  intros H. assert (P : Permutation (filter (fun l => l =? a) (seq 0 n)) [a]); [|apply Permutation_length in P; exact P].
  apply NoDup_Permutation; [apply NoDup_filter, seq_NoDup|constructor; [intros []|constructor]|]. intros l. rewrite filter_In, in_seq, Nat.eqb_eq. cbn. intuition lia.
Qed.
Lemma part_sum (g : nat -> nat) n (rs : list nat) : (forall r, In r rs -> g r < n) ->
  length rs = nsum (fun l => length (filter (fun r => g r =? l) rs)) (seq 0 n).
Proof.
  induction rs as [|r rs IH]; intros H; [symmetry; apply nsum_zero; reflexivity|]. cbn [length].
  rewrite IH by (intros; apply H; right; auto).
  transitivity (nsum (fun l => (if l =? g r then 1 else 0) + length (filter (fun r => g r =? l) rs)) (seq 0 n)).
  - rewrite nsum_plus, <- (nsum_filter_length (fun l => l =? g r)), (filter_seq_one n (g r)); [reflexivity|]. apply H. left. auto.
  - apply nsum_ext. intros l _. cbn [filter]. rewrite (Nat.eqb_sym l (g r)). destruct (g r =? l); reflexivity.
Qed.

Definition row_leaf (r : nat) : nat := match nth_error X r with Some x => leaf_reached d (left_at x) | None => 0 end.
Lemma cart_bound label rs : right_rows X y (cart_class final label) rs -> (inject_Z (Z.of_nat (length rs)) <= qsum p_cost sel)%Q.
Proof.
  intros [Nd Hr]. rewrite (part_sum row_leaf (2 ^ d) rs).
  2: { intros r Hin. apply Hr in Hin. destruct Hin as (x & t & E & _). unfold row_leaf. rewrite E. apply leaf_reached_lt. }
  rewrite <- (nsum_perm _ _ _ Hperm), inject_nsum, qsum_map. apply qsum_le. intros p Hin.
  rewrite Forall_forall in Hm. destruct (Hm p Hin) as (tm & rm & _ & _ & Hrm & Ec & Hmax). rewrite Ec. rewrite <- Zle_Qle. apply inj_le.
  set (rl := filter (fun r => row_leaf r =? p_leaf p) rs).
  destruct rl as [|r0 rl'] eqn:El; [cbn; lia|]. rewrite <- El.
  assert (H0 : In r0 rl) by (rewrite El; left; auto). unfold rl in H0. apply filter_In in H0. destruct H0 as [H0 H1]. apply Nat.eqb_eq in H1.
  apply Hr in H0. destruct H0 as (x0 & t0 & E0 & Ey0 & k0 & i0 & D0 & N0 & L0).
  set (rt := filter (fun r => match nth_error y r with Some c => c =? t0 | None => false end && covb X (complete_leaves d) splits (KRow r) p) (seq 0 (length X))).
  assert (Ht : class_rows d X y splits p t0 rt).
  { split; [apply NoDup_filter, seq_NoDup|]. intros r. unfold rt. rewrite filter_In, in_seq, andb_true_iff, covb_iff. split.
    - intros (_ & H & Hc). split; auto. destruct (nth_error y r) as [c|]; [|discriminate]. apply Nat.eqb_eq in H. congruence.
    - intros (H & Hc). rewrite H, Nat.eqb_refl. split; auto. destruct Hc as (x & _ & E & _). split; [lia|]. apply nth_error_Some. congruence. }
  etransitivity; [|exact (Hmax t0 rt Ht)]. apply NoDup_incl_length; [apply NoDup_filter; exact Nd|]. intros r Hin2.
  apply filter_In in Hin2. destruct Hin2 as [Hin2 Hl]. apply Nat.eqb_eq in Hl. apply Hr in Hin2. destruct Hin2 as (x & t & E & Ey & k & i & D & N & L).
  apply (proj2 Ht r). unfold row_leaf in H1, Hl. rewrite E0 in H1. rewrite E in Hl.
  assert (Ei : i = i0) by (eapply (cart_same x x0); eauto; congruence). subst i. split; [congruence|]. apply (row_path r x p Hin E). auto.
Qed.
End Cart.

(** * Weights *)

Section Weights.
Variables (u : setup) (aggressive : bool) (limit : Q) (clk : nat -> Q) (u' : setup).
Hypothesis V : valid_setup u.
Hypothesis D : valid_data u.
Hypothesis Fr : fresh_nodes u.
Hypothesis Pre : preprocessed u aggressive limit clk u'.
Definition weigh (r : nat) : Q :=
  match su_rows u' with
  | Some rows => match nth_error rows r with Some b => if r_gone_sp b then 0%Q else inject_Z (Z.of_nat (r_weight b)) | None => 0%Q end
  | None => 1%Q
  end.
Lemma weigh_data : data_weight u' weigh.
Proof.
  intros r. unfold weigh, active, row_weight. destruct (su_rows u') as [rows|]; [|split; [reflexivity|tauto]].
  destruct (nth_error rows r) as [b|] eqn:E; [|split; [intros (b & E' & _); discriminate|reflexivity]].
  destruct (r_gone_sp b) eqn:Eg; split; intros H; try reflexivity.
  - destruct H as (b' & E' & Eg'). congruence.
  - exfalso. apply H. eauto.
Qed.
(** A set of rows that does not separate rows that go the same way and have the same class weighs as much as it has rows. *)
Lemma weigh_rows (P : nat -> bool) :
  (forall i j, i < length (su_X u) -> j < length (su_X u) -> nth_error (su_y u) i = nth_error (su_y u) j ->
     same_way (su_depth u) (su_X u) (su_nodes u) (su_splits u) i j -> P i = P j) ->
  (qsum (fun r => if P r then weigh r else 0) (seq 0 (length (su_X u))) == inject_Z (Z.of_nat (length (filter P (seq 0 (length (su_X u)))))))%Q.
Proof.
  intros HP. destruct (preprocessed_facts u aggressive limit clk u' V D Fr Pre) as (rows & rep & Eu & Hlen & _ & Hrep & _ & Hsum & _).
  rewrite <- (Hsum P (row_weight u')).
  - rewrite inject_nsum, qsum_filter. apply qsum_ext. intros r Hr. apply in_seq in Hr. unfold weigh, row_weight. rewrite Eu. cbn [su_rows]. unfold spb.
    destruct (nth_error_some_lt rows r) as (b & E); [lia|]. rewrite E. destruct (r_gone_sp b), (P r); cbn; reflexivity.
  - intros r Hr. destruct (Hrep r Hr) as (H1 & _ & H2 & H3). apply HP; auto. lia.
  - intros r b E. unfold row_weight. rewrite Eu. cbn [su_rows]. rewrite E. reflexivity.
Qed.
Lemma weight_pos r : active u' r -> 1 <= row_weight u' r.
Proof.
  destruct (preprocessed_facts u aggressive limit clk u' V D Fr Pre) as (rows & rep & Eu & Hlen & _ & Hrep & Hself & Hsum & _).
  intros Ha. assert (E : exists b, nth_error rows r = Some b /\ r_gone_sp b = false) by (rewrite Eu in Ha; exact Ha). destruct E as (b & Eb & Eg).
  assert (Hr : r < length (su_X u)) by (rewrite <- Hlen; apply nth_error_Some; congruence).
  assert (Hrr : rep r = r) by (apply (Hself r b Eb); auto).
  assert (HS : nsum (row_weight u') (filter (fun i => negb (spb rows i) && (rep i =? r)) (seq 0 (length (su_X u)))) = length (filter (fun i => rep i =? r) (seq 0 (length (su_X u))))).
  { apply Hsum.
    - intros i Hi. destruct (Hrep i Hi) as (_ & -> & _). reflexivity.
    - intros i bi E. unfold row_weight. rewrite Eu. cbn [su_rows]. rewrite E. reflexivity. }
  assert (Hpos : 1 <= length (filter (fun i => rep i =? r) (seq 0 (length (su_X u))))).
  { assert (Hin : In r (filter (fun i => rep i =? r) (seq 0 (length (su_X u))))) by (apply filter_In; split; [apply in_seq; lia|apply Nat.eqb_eq; auto]).
    revert Hin. generalize (filter (fun i => rep i =? r) (seq 0 (length (su_X u)))). intros [|a l] Hin; [contradiction|cbn; lia]. }
  rewrite <- HS in Hpos. assert (Hp : Permutation (filter (fun i => negb (spb rows i) && (rep i =? r)) (seq 0 (length (su_X u)))) [r]).
  { apply NoDup_Permutation; [apply NoDup_filter, seq_NoDup|constructor; [intros []|constructor]|]. intros i. rewrite filter_In, in_seq, andb_true_iff, negb_true_iff, Nat.eqb_eq. cbn. split.
    - intros (Hi & Hs & He). left. destruct (nth_error_some_lt rows i) as (bi & Ebi); [lia|]. unfold spb in Hs. rewrite Ebi in Hs. apply (Hself i bi Ebi) in Hs. congruence.
    - intros [<-|[]]. split; [lia|]. split; auto. unfold spb. rewrite Eb. auto. }
  rewrite (nsum_perm _ _ _ Hp) in Hpos. cbn in Hpos. lia.
Qed.
Lemma pre_same : su_depth u' = su_depth u /\ su_X u' = su_X u /\ su_y u' = su_y u /\ su_splits u' = su_splits u.
Proof. destruct Pre as (n & r & _ & ->). auto. Qed.
(** Majority paths count rows. *)
Lemma majority_counts p : tree_path (su_depth u) (su_splits u) p -> uses_candidates (su_nodes u) p -> majority_path (su_depth u) (su_X u) (su_y u) (su_splits u) p ->
  counts_rows u' weigh p.
Proof.
  intros Hp Hu (t & rs & Et & _ & [Nd Hrs] & Ec & _). destruct pre_same as (E1 & E2 & E3 & E4). apply counts_sum. rewrite Ec. clear Ec.
  assert (Hc : forall r, counted u' p r = true <-> nth_error (su_y u) r = Some t /\ covers (su_X u) (complete_leaves (su_depth u)) (su_splits u) (KRow r) p).
  { intros r. unfold counted, su_leaves. rewrite andb_true_iff, covb_iff, hit_iff, E1, E2, E3, E4, Et. split.
    - intros (H & c & Ey & E). split; auto. rewrite Ey. f_equal. lia.
    - intros (H & Hcv). split; auto. exists t. auto. }
  rewrite E2, (weigh_rows (counted u' p)).
  - assert (P : Permutation rs (filter (counted u' p) (seq 0 (length (su_X u))))); [|rewrite (Permutation_length P); reflexivity].
    apply NoDup_Permutation; [auto|apply NoDup_filter, seq_NoDup|]. intros r. rewrite filter_In, in_seq, Hrs, Hc. split; [|tauto].
    intros (H & Hcv). split; auto. destruct Hcv as (x & _ & E & _). split; [lia|]. apply nth_error_Some. congruence.
  - intros i j Hi Hj Ey Hw. apply eq_true_iff_eq. rewrite !Hc, Ey, (Hw p Hp Hu). tauto.
Qed.
(** A tree over the candidates does not separate such rows. *)
Lemma tree_correct tree sel : Permutation (map p_leaf sel) (seq 0 (2 ^ su_depth u)) ->
  Forall (tree_path (su_depth u) (su_splits u)) sel -> Forall (agrees tree) sel -> Forall (uses_candidates (su_nodes u)) sel ->
  forall v, correct_weight u' weigh (fun xr => leaf_target sel (tree_leaf (su_depth u) (su_splits u) tree xr)) v ->
  exists rs, right_rows (su_X u) (su_y u) (fun x t => leaf_target sel (tree_leaf (su_depth u) (su_splits u) tree x) = Z.of_nat t) rs /\
    (v == inject_Z (Z.of_nat (length rs)))%Q.
Proof.
  intros Hperm Hp Ha Hu v Hv. destruct pre_same as (E1 & E2 & E3 & E4). apply correct_sum in Hv. set (code := fun xr : sample => leaf_target sel (tree_leaf (su_depth u) (su_splits u) tree xr)) in *. rewrite E2 in Hv.
  exists (filter (correct u' code) (seq 0 (length (su_X u)))).
  assert (Hc : forall r, correct u' code r = true <-> exists x t, nth_error (su_X u) r = Some x /\ nth_error (su_y u) r = Some t /\ code x = Z.of_nat t).
  { intros r. unfold correct. rewrite E2. destruct (nth_error (su_X u) r) as [x|]; [|split; [discriminate|intros (x & t & E & _); discriminate]]. rewrite hit_iff, E3.
    split; [intros (c & H1 & H2); eauto|]. intros (x' & t & E & H1 & H2). injection E as ->. eauto. }
  split.
  - split; [apply NoDup_filter, seq_NoDup|]. intros r. rewrite filter_In, in_seq, Hc. split; [tauto|]. intros H. split; auto. destruct H as (x & _ & E & _). split; [lia|].
    apply nth_error_Some. congruence.
  - rewrite Hv. apply weigh_rows. intros i j Hi Hj Ey Hw.
    destruct (nth_error_some_lt (su_X u) i Hi) as (xi & Exi). destruct (nth_error_some_lt (su_X u) j Hj) as (xj & Exj).
    assert (El : tree_leaf (su_depth u) (su_splits u) tree xi = tree_leaf (su_depth u) (su_splits u) tree xj).
    { destruct (tree_row_one _ _ tree (goes_left (su_splits u) xi) sel Hperm Hp Ha) as (p & Hin & El & _). unfold tree_leaf. rewrite <- El. rewrite Forall_forall in Hp, Ha, Hu.
      assert (Hci : covers (su_X u) (complete_leaves (su_depth u)) (su_splits u) (KRow i) p).
      { exists xi, (create_leaf (p_leaf p) (su_depth u)). split; auto. split; [apply complete_leaves_nth; apply (Hp p Hin)|]. apply (follows_tree _ _ p (Hp p Hin) tree _ (Ha p Hin)). auto. }
      apply (Hw p (Hp p Hin) (Hu p Hin)) in Hci. destruct Hci as (x & lf & Ex & Elf & Hfo). rewrite Exj in Ex. injection Ex as <-.
      apply complete_leaves_nth_inv in Elf. destruct Elf as [_ ->]. apply (follows_tree _ _ p (Hp p Hin) tree _ (Ha p Hin)) in Hfo. auto. }
    apply eq_true_iff_eq. rewrite !Hc. split; intros (x & t & E & Et & Ex).
    + exists xj, t. split; auto. split; [congruence|]. unfold code in *. rewrite <- El. congruence.
    + exists xi, t. split; auto. split; [congruence|]. unfold code in *. rewrite El. congruence.
Qed.
End Weights.

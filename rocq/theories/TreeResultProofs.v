(** What a trained decision tree is worth: the paths of a training run are modest and labelled. *)
From Verif Require Import Base Lp LpProofs FitModel SpecFit SolveModel SolveObs TreeModel TreePricingModel TreeFitModel SpecTree SpecTreeRun SpecTreeLp
  SpecTreePrice SpecTreeMip SpecTreeFit SpecTreeTrain SpecTreeResult TreeGeoProofs TreePathProofs TreeLpBuild TreeBuildProofs TreeInvProofs TreeMasterProofs TreeFormProofs TreeSolProofs
  TreeLpProofs TreePriceProofs TreeHeurProofs TreeFedProofs TreeCertProofs TreeTrainProofs PropTreeLp PropTreePrice.
Open Scope nat_scope.

Section Modest.
Variables (u : setup) (w : nat -> Q).
Hypothesis V : valid_setup u.
Hypothesis D : valid_data u.
Hypothesis W : data_weight u w.
Definition worth (p : path) : Q := qsum (fun r => if counted u p r then w r else 0%Q) (seq 0 (length (su_X u))).
Definition with_cost (p : path) (q : Q) : path := mkPath (p_leaf p) (p_nodes p) (p_splits p) q (p_id p) (p_target p) (p_initial p).
Lemma worth_counts p : counts_rows u w (with_cost p (worth p)).
Proof. apply counts_sum. reflexivity. Qed.
Lemma counts_modest p : counts_rows u w p -> modest u w p.
Proof. intros (rs & N & E & I). exists rs. split; auto. split; auto. rewrite E. lra. Qed.
Lemma modest_iff p : modest u w p <-> (p_cost p <= worth p)%Q.
Proof.
  split.
  - intros (rs & N & E & I). assert (H : counts_rows u w (with_cost p (qsum w rs))) by (exists rs; split; [auto|split; [reflexivity|exact I]]).
    apply counts_sum in H. cbn [p_cost with_cost] in H. unfold worth. eapply Qle_trans; [exact E|]. rewrite H. apply Qle_refl.
  - intros H. destruct (worth_counts p) as (rs & N & E & I). exists rs. split; auto. split; [|exact I]. cbn [p_cost with_cost] in E. rewrite <- E. exact H.
Qed.
Lemma w_nonneg r : (0 <= w r)%Q.
Proof.
  destruct (W r) as [W1 W2]. assert (Dec : active u r \/ ~ active u r).
  { unfold active. destruct (su_rows u) as [l|]; [|auto]. destruct (nth_error l r) as [dr|]; [|right; intros (? & ? & _); discriminate].
    destruct (r_gone_sp dr) eqn:E; [right; intros (? & E1 & E2); congruence|left; eauto]. }
  destruct Dec as [H|H]; [rewrite (W1 H)|rewrite (W2 H)]; [|lra]. change 0%Q with (inject_Z 0). rewrite <- Zle_Qle. lia.
Qed.
Lemma worth_nonneg p : (0 <= worth p)%Q.
Proof. apply qsum_nonneg. intros r _. destruct (counted u p r); [apply w_nonneg|lra]. Qed.
Lemma worth_class p t v : p_target p = Z.of_nat t -> class_weight u p t v -> (inject_Z (Z.of_nat v) == worth p)%Q.
Proof.
  intros Ht Hv. destruct (counted_value u CSat w V W (with_cost p (worth p)) t Ht (worth_counts p)) as (v' & Hv' & E).
  cbn [class_value] in Hv'. assert (v' = v) by (eapply class_weight_unique; [exact Hv'|exact Hv]). subst v'. cbn [p_cost with_cost] in E. rewrite E. reflexivity.
Qed.
Lemma worth_count p t v : (forall r, active u r -> 1 <= row_weight u r) -> p_target p = Z.of_nat t -> class_count u p t v -> (inject_Z (Z.of_nat v) <= worth p)%Q.
Proof.
  intros H1 Ht (rs & N & -> & I). assert (Hw : class_weight u p t (nsum (row_weight u) rs)) by (exists rs; auto).
  rewrite <- (worth_class p t _ Ht Hw), <- Zle_Qle. apply inj_le. assert (Ha : forall r, In r rs -> 1 <= row_weight u r) by (intros r Hr; apply H1, I, Hr).
  clear - Ha. induction rs as [|r rs IH]; [auto|]. change (nsum (row_weight u) (r :: rs)) with (row_weight u r + nsum (row_weight u) rs).
  cbn [length]. pose proof (Ha r (or_introl eq_refl)). assert (length rs <= nsum (row_weight u) rs) by (apply IH; intros; apply Ha; right; auto). lia.
Qed.
Lemma offered_modest cuts dl p : offered u cuts dl p -> modest u w p.
Proof.
  intros O. apply modest_iff. destruct (of_class _ _ _ _ O) as [_ [(t & v & Ht & Hv & -> & _)|[_ ->]]]; [|apply worth_nonneg].
  rewrite (worth_class p t v Ht Hv). lra.
Qed.
Lemma fair_modest c nt p : (counts_weight c = false -> forall r, active u r -> 1 <= row_weight u r) -> fair_class u c nt p -> modest u w p.
Proof.
  intros H1 [(t & v & n & _ & Ht & Hv & Hn & En)|(_ & _ & E)]; apply modest_iff; [|rewrite E; apply worth_nonneg].
  assert (Hle : (p_cost p <= inject_Z (Z.of_nat v))%Q) by (rewrite En, <- Zle_Qle; lia). eapply Qle_trans; [exact Hle|].
  destruct c; cbn [class_value] in Hv; [rewrite (worth_class p t v Ht Hv); lra|rewrite (worth_class p t v Ht Hv); lra|].
  apply (worth_count p t v); auto.
Qed.
(** A tree of modest paths classifies at least the total cost of its paths correctly. *)
Lemma modest_tree tree sel : Permutation (map p_leaf sel) (seq 0 (2 ^ su_depth u)) -> Forall (tree_path (su_depth u) (su_splits u)) sel -> Forall (agrees tree) sel ->
  Forall (modest u w) sel ->
  exists v, correct_weight u w (fun xr => leaf_target sel (tree_leaf (su_depth u) (su_splits u) tree xr)) v /\ (qsum p_cost sel <= v)%Q.
Proof.
  intros Hp Ht Ha Hm. set (sel' := map (fun p => with_cost p (worth p)) sel). exists (qsum p_cost sel'). split.
  - assert (E : forall l, leaf_target sel' l = leaf_target sel l).
    { intros l. unfold leaf_target, sel'. clear. induction sel as [|p ps IH]; [reflexivity|]. cbn [map find p_leaf with_cost]. destruct (p_leaf p =? l); [reflexivity|exact IH]. }
    assert (Hcw : correct_weight u w (fun xr => leaf_target sel' (tree_leaf (su_depth u) (su_splits u) tree xr)) (qsum p_cost sel')).
    { apply tree_weight.
      - unfold sel'. rewrite map_map. exact Hp.
      - unfold sel'. apply Forall_map. exact Ht.
      - unfold sel'. apply Forall_map. exact Ha.
      - unfold sel'. apply Forall_map. apply Forall_forall. intros p _. apply worth_counts. }
    destruct Hcw as (rs & N & Ev & I). exists rs. split; auto. split; auto. intros r. rewrite I. split; intros (xr & c & H1 & H2 & H3); exists xr, c; [rewrite <- E|rewrite E]; auto.
  - unfold sel'. clear - Hm. induction Hm as [|p ps H _ IH]; [cbn; lra|]. cbn [map]. rewrite !qsum_cons. apply modest_iff in H. cbn [p_cost with_cost]. lra.
Qed.
End Modest.

(** ** Targets *)
Definition labelled (u : setup) (nt : nat) (p : path) : Prop := class_number nt (p_target p) \/ forall r, counts u r -> ~ covers (su_X u) (su_leaves u) (su_splits u) (KRow r) p.
Lemma class_weight_zero u p r : valid_setup u -> valid_data u -> (forall t v, class_weight u p t v -> v = 0) -> counts u r -> ~ covers (su_X u) (su_leaves u) (su_splits u) (KRow r) p.
Proof.
  intros V D H [Ha Hw] Hc. pose proof (row_in u _ _ Hc) as Hr. destruct (nth_error_some_lt (su_y u) r) as [t Et]; [destruct D as [-> _]; auto|].
  set (rs0 := filter (fun r => covb (su_X u) (su_leaves u) (su_splits u) (KRow r) p) (seq 0 (length (su_X u)))).
  assert (Hv : class_weight u p t (nsum (adds (su_y u) (su_rows u) t) rs0)).
  { apply class_weight_of; auto; [apply NoDup_filter, seq_NoDup|]. intros r0. unfold rs0. rewrite filter_In, covb_iff, in_seq. split; [tauto|]. intros Hc0. split; auto.
    pose proof (row_in u _ _ Hc0). lia. }
  pose proof (H t _ Hv) as E0. destruct Hv as (rs & N & E1 & I). rewrite E0 in E1.
  assert (Hin : In r rs) by (apply I; auto). clear - Hin Hw E1. induction rs as [|a rs IH]; [destruct Hin|].
  change (nsum (row_weight u) (a :: rs)) with (row_weight u a + nsum (row_weight u) rs) in E1. destruct Hin as [->|Hin]; [lia|apply IH; auto; lia].
Qed.
Lemma offered_labelled u nt cuts dl p : valid_setup u -> valid_data u -> Forall (fun t => t < nt) (su_y u) -> offered u cuts dl p -> labelled u nt p.
Proof.
  intros V D Hy O. destruct (of_class _ _ _ _ O) as [Hmax [(t & v & Ht & (rs & N & -> & I) & _ & Hpos)|[_ E0]]].
  - left. rewrite Ht. destruct rs as [|r rs]; [cbn in Hpos; lia|]. destruct (proj1 (I r) (or_introl eq_refl)) as (E & _).
    rewrite Forall_forall in Hy. pose proof (Hy _ (nth_error_In _ _ E)). unfold class_number. lia.
  - right. intros r Hr. apply class_weight_zero; auto. intros t v Hv. specialize (Hmax t v Hv). rewrite E0 in Hmax. change 0%Q with (inject_Z 0) in Hmax. rewrite <- Zle_Qle in Hmax. lia.
Qed.

(** With whole weights a gap below 1 makes no difference. *)
Lemma whole_le (a b : Z) : (inject_Z a < inject_Z b + 1)%Q -> (a <= b)%Z.
Proof. intros H. setoid_replace (inject_Z b + 1)%Q with (inject_Z (b + 1)) in H by (rewrite inject_Z_plus; reflexivity). rewrite <- Zlt_Qlt in H. lia. Qed.
Lemma active_or_not u r : active u r \/ ~ active u r.
Proof.
  unfold active. destruct (su_rows u) as [rows|]; [|left; exact I]. destruct (nth_error rows r) as [dr|]; [|right; intros (dr & E & _); discriminate].
  destruct (r_gone_sp dr) eqn:E; [right; intros (dr' & E' & H); injection E' as <-; congruence|left; eauto].
Qed.
Lemma correct_whole u w code v : data_weight u w -> correct_weight u w code v -> exists n, (v == inject_Z n)%Q.
Proof.
  intros W (rs & _ & E & _). assert (H : exists n, (qsum w rs == inject_Z n)%Q).
  { clear E. induction rs as [|r rs [n IH]]; [exists 0%Z; reflexivity|]. destruct (W r) as [W1 W2]. destruct (active_or_not u r) as [H|H].
    - exists (Z.of_nat (row_weight u r) + n)%Z. rewrite qsum_cons, IH, (W1 H), inject_Z_plus. reflexivity.
    - exists n. rewrite qsum_cons, IH, (W2 H). lra. }
  destruct H as [n H]. exists n. rewrite E. exact H.
Qed.

(** Pricing every leaf exactly certifies the bound on every tree. *)
From Verif Require Import Base Lp LpProofs SpecDual DualProofs SolveModel TreeModel SpecTree SpecTreeRun SpecTreeLp SpecTreePrice SpecTreeMip TreePricingModel TreeGeoProofs
  TreePathProofs TreeLpBuild TreeBuildProofs TreeInvProofs TreeMasterProofs TreeSolProofs TreePriceProofs TreeHeurProofs TreeDecodeProofs TreeMipProofs TreeColsProofs TreeFedProofs PropTreeLp PropTreePrice.
Open Scope nat_scope.

Section Cert.
Variables (u : setup) (c : pclass) (nt : nat) (w : nat -> Q).
Hypothesis V : valid_setup u.
Hypothesis D : valid_data u.
Hypothesis W : active_weight u c w.

Definition activeb (r : nat) : bool := match wt_of (su_rows u) r with Some _ => true | None => false end.
Lemma activeb_iff r : r < length (su_X u) -> activeb r = true <-> active u r.
Proof.
  intros Hr. pose proof V as (_ & _ & Hu). unfold activeb, active, wt_of. destruct (su_rows u) as [rows|]; [|tauto].
  destruct Hu as [Hu _]. destruct (nth_error rows r) as [dr|] eqn:E; [|apply nth_error_None in E; lia]. destruct (r_gone_sp dr) eqn:Eg; split; try discriminate; auto; eauto.
  intros (dr' & E' & H). congruence.
Qed.
Lemma row_in r p : covers (su_X u) (su_leaves u) (su_splits u) (KRow r) p -> r < length (su_X u).
Proof. unfold covers. intros (xr & lf & E & _). apply nth_error_Some. congruence. Qed.

(** The cost of a path that counts rows is the value of its class. *)
Lemma counted_value p t : p_target p = Z.of_nat t -> counts_rows u w p -> exists v, class_value u c p t v /\ (p_cost p == inject_Z (Z.of_nat v))%Q.
Proof.
  intros Ht (rs & N & Ec & I). set (rs' := filter activeb rs).
  assert (I' : forall r, In r rs' <-> nth_error (su_y u) r = Some t /\ active u r /\ covers (su_X u) (su_leaves u) (su_splits u) (KRow r) p).
  { intros r. unfold rs'. rewrite filter_In, I. split.
    - intros [(t' & E & Et & Hc) Ha]. pose proof (row_in _ _ Hc) as Hr. apply activeb_iff in Ha; auto. rewrite Ht in Et. apply Nat2Z.inj in Et. subst t'. auto.
    - intros (E & Ha & Hc). split; [exists t; auto|]. apply activeb_iff; auto. eapply row_in; eauto. }
  assert (N' : NoDup rs') by (apply NoDup_filter; auto).
  assert (Hin : forall r, In r rs -> r < length (su_X u)) by (intros r Hr; apply I in Hr; destruct Hr as (t' & _ & _ & Hc); eapply row_in; eauto).
  assert (Es : (qsum w rs == qsum w rs')%Q).
  { unfold rs'. rewrite qsum_filter. apply qsum_ext. intros r Hr. destruct (activeb r) eqn:Ea; [reflexivity|]. apply W. rewrite <- activeb_iff by auto. congruence. }
  assert (Hact : forall r, In r rs' -> active u r) by (intros r Hr; apply I' in Hr; apply Hr).
  unfold class_value, active_weight in *. destruct c as [| |t0].
  - exists (nsum (row_weight u) rs'). split; [exists rs'; auto|]. rewrite Ec, Es, inject_nsum. apply qsum_ext. intros r Hr. apply W; auto.
  - exists (nsum (row_weight u) rs'). split; [exists rs'; auto|]. rewrite Ec, Es, inject_nsum. apply qsum_ext. intros r Hr. apply W; auto.
  - exists (length rs'). split; [exists rs'; auto|]. rewrite Ec, Es. transitivity (qsum (fun _ => 1%Q) rs'); [|rewrite qsum_const; lra].
    apply qsum_ext. intros r Hr. apply W; auto.
Qed.

Lemma retarget p z q : path_to u (p_leaf p) p -> path_to u (p_leaf p) (mkPath (p_leaf p) (p_nodes p) (p_splits p) q (p_id p) z (p_initial p)).
Proof. intros H. exact H. Qed.
Lemma reprice cuts dl p z q v : reported_price u cuts dl p v ->
  reported_price u cuts dl (mkPath (p_leaf p) (p_nodes p) (p_splits p) q (p_id p) z (p_initial p)) (v - p_cost p + q)%Q.
Proof.
  intros (rs & cs & H1 & H2 & H3 & H4 & H5). exists rs, cs. split; auto. split; auto. split; auto. split; auto. cbn [p_cost p_leaf]. rewrite H5.
  change (choices (mkPath (p_leaf p) (p_nodes p) (p_splits p) q (p_id p) z (p_initial p))) with (choices p). lra.
Qed.
End Cert.

Section Bound.
Variables (u : setup) (kind : nat -> pclass) (nt : nat) (w : nat -> Q).
Hypothesis V : valid_setup u.
Hypothesis D : valid_data u.
Hypothesis Hnt : 0 < nt.
Hypothesis Hy : Forall (fun t => t < nt) (su_y u).
(** [kind t] is the kind of pricing model that handles class [t]. *)
Hypothesis Hk : forall t, t < nt -> own_class (kind t) nt t.
Hypothesis W : forall t, t < nt -> active_weight u (kind t) w.
Variables (ops : list mop) (cuts : list (list bool)) (sv : tsolvers) (dl : tduals) (s : tmaster) (x pi : nat -> Q).
Hypothesis S : solved u ops cuts sv dl s x pi.
Variable eps : Q.
Hypothesis P : forall t p v, t < nt -> path_to u (p_leaf p) p -> exact_class u (kind t) nt p -> reported_price u cuts dl p v -> (v <= eps)%Q.

Lemma class_or_not p : (exists t, t < nt /\ p_target p = Z.of_nat t) \/ (forall t, t < nt -> p_target p <> Z.of_nat t).
Proof.
  destruct (Z_lt_dec (p_target p) 0) as [H|H]; [right; intros t _; lia|]. destruct (Z_lt_dec (p_target p) (Z.of_nat nt)) as [H'|H'].
  - left. exists (Z.to_nat (p_target p)). split; lia.
  - right. intros t Ht. lia.
Qed.
Lemma zero_class p : path_to u (p_leaf p) p ->
  exists n, exact_class u (kind 0) nt (mkPath (p_leaf p) (p_nodes p) (p_splits p) (inject_Z (Z.of_nat n)) (p_id p) 0 (p_initial p)).
Proof.
  intros (Hp & Hc & _). pose proof (proj1 Hp) as Hl. destruct (path_pick u (p_leaf p) p Hp Hc eq_refl) as (pick & Hpk & _).
  destruct (cval_exists u (kind 0) (p_leaf p) V D Hl pick p 0 Hpk) as (n & Hn & _). exists n, 0, n. split; [apply Hk; auto|]. split; [reflexivity|]. split; [|reflexivity].
  clear - Hn. destruct (kind 0); exact Hn.
Qed.
Lemma priced p v : tree_path (su_depth u) (su_splits u) p -> uses_candidates (su_nodes u) p -> counts_rows u w p -> reported_price u cuts dl p v -> (v <= eps)%Q.
Proof.
  intros Hp Hc Hr Hv. assert (T : path_to u (p_leaf p) p) by (split; auto).
  destruct (class_or_not p) as [(t & Ht & E)|Hno].
  - destruct (counted_value u (kind t) w V (W t Ht) p t E Hr) as (n & Hn & En). apply (P t p v Ht T); auto. exists t, n. auto.
  - assert (E0 : (p_cost p == 0)%Q).
    { destruct Hr as (rs & _ & Ec & I). destruct rs as [|r rs]; [rewrite Ec; reflexivity|]. destruct (proj1 (I r)) as (t & Et & Ez & _); [left; auto|].
      exfalso. apply (Hno t); auto. rewrite Forall_forall in Hy. apply Hy. eapply nth_error_In; eauto. }
    destruct (zero_class p T) as (n & Hn). pose proof (P 0 _ _ Hnt (retarget u p 0%Z (inject_Z (Z.of_nat n)) T) Hn (reprice u cuts dl p 0%Z _ v Hv)).
    assert (0 <= inject_Z (Z.of_nat n))%Q by apply inject_nat_nonneg. lra.
Qed.
Theorem certified tau : near_dual (tm_lp s) pi tau -> forall tree label v, tree_over (su_depth u) (su_nodes u) tree ->
  correct_weight u w (fun xr => label (tree_leaf (su_depth u) (su_splits u) tree xr)) v ->
  (v <= dual_value (tm_lp s) pi + inject_Z (Z.of_nat (2 ^ su_depth u)) * eps + inject_Z (Z.of_nat (2 ^ su_depth u - 1)) * tau)%Q.
Proof.
  intros K tree label v Ht Hv. destruct (solved_inv _ _ _ _ _ _ _ _ V S) as (kinds & H & R). pose proof (after_formulated u cuts s kinds V H) as F.
  pose proof V as (wf & _). eapply tree_bound; eauto. intros p q Hp Hc Hr Hq. eapply priced; eauto. eapply price_is_reported; eauto.
Qed.
End Bound.

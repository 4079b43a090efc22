(** The path formulation: derived from the invariant of the tree master; what its constraints say. *)
From Verif Require Import Base Lp LpProofs TreeModel SpecTree TreeGeoProofs TreePathProofs TreeLpBuild TreeBuildProofs TreeGenProofs TreeInvProofs.
Open Scope nat_scope.

Definition rows_of (kinds : list ckind) : list nat := flat_map (fun c => match c with KRow r => [r] | _ => [] end) kinds.
Definition cv_of (nsv : list (key2 * nat)) (n k : nat) : nat := match assoc key2_eqb nsv (n, k) with Some v => v | None => 0 end.

Lemma rows_of_In kinds r : In r (rows_of kinds) <-> In (KRow r) kinds.
Proof.
  unfold rows_of. rewrite in_flat_map. split.
  - intros ([l|r'|z|l n k] & H & H1); simpl in H1; try contradiction. destruct H1 as [->|[]]. auto.
  - intros H. exists (KRow r). simpl. auto.
Qed.

Lemma tinv_formulation d X nodes0 splits0 kinds zs s : wf_tree d X nodes0 splits0 -> tinv d X nodes0 splits0 kinds zs s ->
  formulation X (complete_leaves d) nodes0 splits0 (tm_paths s) (rows_of kinds) zs kinds (cv_of (tm_ns_vars s)) (tm_lp s).
Proof.
  intros wf H. pose proof (ti_lp _ _ _ _ _ _ _ H) as [Hv Hi Hk Ha Ho Hb Hb0 Hc].
  assert (Hcv : forall l n k, In (KChoice l n k) kinds -> In ((n, k), cv_of (tm_ns_vars s) n k) (tm_ns_vars s)).
  { intros l n k Hin. unfold cv_of. destruct (assoc key2_eqb (tm_ns_vars s) (n, k)) as [v|] eqn:E; [eapply (assoc_In _ key2_iff); eauto|].
    exfalso. apply (assoc_None _ key2_iff) in E. apply E. apply (ti_ns_vars _ _ _ _ _ _ _ H). eauto. }
  assert (Hcv' : forall l n k, In (KChoice l n k) kinds -> In (cv_of (tm_ns_vars s) n k) (map snd (tm_ns_vars s))).
  { intros l n k Hin. apply Hcv in Hin. change (cv_of _ n k) with (snd ((n, k), cv_of (tm_ns_vars s) n k)). apply in_map. auto. }
  assert (Hnp : forall l n k, In (KChoice l n k) kinds -> ~ In (cv_of (tm_ns_vars s) n k) (map p_id (tm_paths s))).
  { intros l n k Hin Hp. apply (NoDup_app_disj _ _ _ Hi Hp). eapply Hcv'; eauto. }
  split.
  - intros v Hin. rewrite Forall_forall in Hv. symmetry. auto.
  - apply (NoDup_app_l _ _ Hi).
  - intros p Hp. apply Ha, in_app_iff. left. apply in_map. auto.
  - intros l n k Hin. split; [apply Ha, in_app_iff; right; eapply Hcv'; eauto|eapply Hnp; eauto].
  - intros l n k l' n' k' H1 H2 E. pose proof (Hcv _ _ _ H1) as I1. pose proof (Hcv _ _ _ H2) as I2. rewrite E in I1.
    assert (E2 : ((n, k), cv_of (tm_ns_vars s) n' k') = ((n', k'), cv_of (tm_ns_vars s) n' k'))
      by (apply (NoDup_map_inj snd (tm_ns_vars s)); auto; apply (NoDup_app_r _ _ Hi)).
    injection E2 as -> ->. auto.
  - intros j Hj. apply Ha, in_app_iff in Hj. destruct Hj as [Hj|Hj].
    + left. apply in_map_iff in Hj. destruct Hj as (p & <- & Hp). eauto.
    + right. apply in_map_iff in Hj. destruct Hj as ([[n k] v] & <- & Hin). cbn [snd].
      assert (Hkey : In (n, k) (map fst (tm_ns_vars s))) by (change (n, k) with (fst ((n, k), v)); apply in_map; auto).
      apply (ti_ns_vars _ _ _ _ _ _ _ H) in Hkey. destruct Hkey as [l Hl]. exists l, n, k. split; auto.
      unfold cv_of. rewrite (assoc_get _ key2_iff _ _ v); auto.
  - apply (ti_max _ _ _ _ _ _ _ H).
  - exact Ho.
  - exact Hb.
  - intros l n k Hin. apply Hb0. eapply Hnp; eauto.
  - apply Forall2_intro_nth; [apply (Forall2_length' _ _ _ Hc)|]. intros i c k Hci Hki.
    destruct (Forall2_nth_error _ _ _ _ _ Hc Hci) as (k' & Hk' & [B1 B2 B3 B4]). assert (k' = k) by congruence. subst k'.
    split; auto. split.
    + intros p Hp. rewrite <- covb_iff, (B2 p Hp). split; intros Hcov.
      * rewrite Hcov. reflexivity.
      * destruct (covb _ _ _ c p); [contradiction Hcov; reflexivity|reflexivity].
    + intros l n sp Hin. rewrite (B3 n sp) by (eapply Hcv; eauto). unfold choice_coef. destruct c; reflexivity.
  - intros l. rewrite complete_leaves_length. apply (ti_leaf_in _ _ _ _ _ _ _ H).
  - intros r. rewrite rows_of_In. reflexivity.
  - intros z. split.
    + intros Hin. apply In_nth_error in Hin. destruct Hin as [c Hin]. destruct (ti_cut_in _ _ _ _ _ _ _ H c z Hin) as [i Hic].
      destruct (ti_cut _ _ _ _ _ _ _ H i c Hic) as (z' & Hz' & Hk'). assert (z' = z) by congruence. subst z'. eapply nth_error_In; eauto.
    + intros Hin. apply In_nth_error in Hin. destruct Hin as [i Hin].
      destruct (nth_error (tm_cut_cons s) i) as [c|] eqn:Ec.
      * destruct (ti_cut _ _ _ _ _ _ _ H i c Ec) as (z' & Hz' & Hk'). assert (z' = z) by congruence. subst z'. eapply nth_error_In; eauto.
      * exfalso. apply nth_error_None in Ec. rewrite (ti_cut_len _ _ _ _ _ _ _ H) in Ec. apply nth_error_None in Ec. congruence.
  - intros l n k. rewrite (ti_ns_in _ _ _ _ _ _ _ H), tree_triples_In by apply (wt_nodes _ _ _ _ wf). split.
    + intros (Hl & Hn & nd & H1 & H2). exists (create_leaf l d), nd. split; [apply complete_leaves_nth; auto|auto].
    + intros (lf & nd & H1 & H2 & H3 & H4). apply complete_leaves_nth_inv in H1. destruct H1 as [Hl ->]. eauto 10.
  - intros [l|r|z|l n k] i j H1 H2 Hne; try contradiction.
    + eapply links_once; eauto. apply (ti_leaf _ _ _ _ _ _ _ H).
    + eapply (links_once KRow); eauto. apply (ti_row _ _ _ _ _ _ _ H).
    + apply (ti_ns _ _ _ _ _ _ _ H) in H1, H2. congruence.
Qed.

(** * What the constraints say *)

Definition key_dec (a b : key2) : {a = b} + {a <> b}.
Proof. decide equality; apply Nat.eq_dec. Defined.
Definition choice_keys (kinds : list ckind) : list key2 :=
  nodup key_dec (flat_map (fun c => match c with KChoice _ n k => [(n, k)] | _ => [] end) kinds).
Lemma choice_keys_In kinds n k : In (n, k) (choice_keys kinds) <-> exists l, In (KChoice l n k) kinds.
Proof.
  unfold choice_keys. rewrite nodup_In, in_flat_map. split.
  - intros ([l|r'|z|l n' k'] & H & H1); simpl in H1; try contradiction. destruct H1 as [E|[]]. injection E as -> ->. eauto.
  - intros [l H]. exists (KChoice l n k). simpl. auto.
Qed.

Lemma NoDup_map_on {A B} (f : A -> B) l : NoDup l -> (forall a b, In a l -> In b l -> f a = f b -> a = b) -> NoDup (map f l).
Proof.
  induction 1 as [|a l Hn Hd IH]; intros Hf; simpl; constructor.
  - intros Hin. apply in_map_iff in Hin. destruct Hin as (b & E & Hb). apply Hn.
    replace a with b; auto. apply Hf; simpl; auto.
  - apply IH. intros; apply Hf; simpl; auto.
Qed.
Lemma NoDup_app_intro {A} (l m : list A) : NoDup l -> NoDup m -> (forall a, In a l -> ~ In a m) -> NoDup (l ++ m).
Proof.
  induction 1 as [|a l Hn Hd IH]; intros Hm Hdis; simpl; auto. constructor.
  - rewrite in_app_iff. intros [?|?]; auto. apply (Hdis a); simpl; auto.
  - apply IH; auto. intros b Hb. apply Hdis. simpl. auto.
Qed.

Section Form.
Variables (X : list sample) (leaves : list leaf) (nodes : list node) (splits : list split)
  (paths : list path) (rows : list nat) (cuts : list (list bool)) (kinds : list ckind) (cv : nat -> nat -> nat) (m : lp).
Hypothesis F : formulation X leaves nodes splits paths rows cuts kinds cv m.
Notation cov := (covb X leaves splits).
Let cvk (nk : key2) : nat := cv (fst nk) (snd nk).

Lemma form_perm : Permutation (seq 0 (num_vars m)) (map p_id paths ++ map cvk (choice_keys kinds)).
Proof.
  apply NoDup_Permutation; [apply seq_NoDup| |].
  - apply NoDup_app_intro; [apply (fm_path_ids _ _ _ _ _ _ _ _ _ _ F)| |].
    + apply NoDup_map_on; [apply NoDup_nodup|]. intros [n k] [n' k'] H1 H2 E. apply choice_keys_In in H1, H2.
      destruct H1 as [l H1], H2 as [l' H2]. destruct (fm_choice_inj _ _ _ _ _ _ _ _ _ _ F _ _ _ _ _ _ H1 H2 E). simpl in *. congruence.
    + intros j H1 H2. apply in_map_iff in H2. destruct H2 as ([n k] & <- & H2). apply choice_keys_In in H2. destruct H2 as [l H2].
      apply (fm_choice_vars _ _ _ _ _ _ _ _ _ _ F) in H2. apply H2. auto.
  - intros j. rewrite in_seq, in_app_iff. split.
    + intros [_ Hj]. simpl in Hj. destruct (fm_all_vars _ _ _ _ _ _ _ _ _ _ F j Hj) as [(p & Hp & ->)|(l & n & k & Hk & ->)].
      * left. apply in_map. auto.
      * right. change (cv n k) with (cvk (n, k)). apply in_map, choice_keys_In. eauto.
    + intros [Hj|Hj]; apply in_map_iff in Hj.
      * destruct Hj as (p & <- & Hp). pose proof (fm_path_vars _ _ _ _ _ _ _ _ _ _ F p Hp). lia.
      * destruct Hj as ([n k] & <- & Hk). apply choice_keys_In in Hk. destruct Hk as [l Hk].
        pose proof (fm_choice_vars _ _ _ _ _ _ _ _ _ _ F l n k Hk). unfold cvk. simpl. lia.
Qed.

Lemma form_linear coef x :
  (linear (num_vars m) coef x == qsum (fun p => coef (p_id p) * x (p_id p)) paths + qsum (fun nk => coef (cvk nk) * x (cvk nk)) (choice_keys kinds))%Q.
Proof.
  unfold linear. rewrite (qsum_perm _ _ _ form_perm), qsum_app, !qsum_map. reflexivity.
Qed.

Lemma form_objective x : (objective_value m x == qsum (fun p => p_cost p * x (p_id p)) paths)%Q.
Proof.
  unfold objective_value. rewrite form_linear, (fm_offset _ _ _ _ _ _ _ _ _ _ F).
  assert (E1 : (qsum (fun p => lp_obj m (p_id p) * x (p_id p)) paths == qsum (fun p => p_cost p * x (p_id p)) paths)%Q).
  { apply qsum_ext. intros p Hp. rewrite (fm_cost _ _ _ _ _ _ _ _ _ _ F p Hp). reflexivity. }
  assert (E2 : (qsum (fun nk => lp_obj m (cvk nk) * x (cvk nk)) (choice_keys kinds) == 0)%Q).
  { apply qsum_zero. intros [n k] Hk. apply choice_keys_In in Hk. destruct Hk as [l Hk].
    unfold cvk. simpl. rewrite (fm_choice_cost _ _ _ _ _ _ _ _ _ _ F l n k Hk). lra. }
  rewrite E1, E2. lra.
Qed.

Lemma qsum_single {A} (dec : forall a b : A, {a = b} + {a <> b}) (f : A -> Q) l a : NoDup l -> In a l -> (forall b, In b l -> b <> a -> (f b == 0)%Q) ->
  (qsum f l == f a)%Q.
Proof.
  induction l as [|b l IH]; intros Hn Ha Hf; [contradiction|]. inversion Hn as [|? ? Hnb Hd]; subst. rewrite qsum_cons.
  destruct (dec b a) as [->|Hne].
  - rewrite qsum_zero; [lra|]. intros c Hc. apply Hf; simpl; auto. intros ->. contradiction.
  - destruct Ha as [->|Ha]; [contradiction|]. rewrite (Hf b), IH by (simpl; auto with datatypes). lra.
Qed.

Lemma form_activity i c k x : nth_error kinds i = Some c -> nth_error (lp_cons m) i = Some k ->
  (activity m k x == qsum (fun p => if cov c p then x (p_id p) else 0) paths + match c with KChoice _ n s => - x (cv n s) | _ => 0 end)%Q.
Proof.
  intros Hc Hk. destruct (Forall2_nth_error _ _ _ _ _ (fm_cons _ _ _ _ _ _ _ _ _ _ F) Hc) as (k' & Hk' & HB & HP & HC).
  assert (k' = k) by congruence. subst k'. unfold activity. rewrite form_linear. apply Qplus_comp.
  - apply qsum_ext. intros p Hp. destruct (HP p Hp) as [P1 P2]. rewrite <- covb_iff in P1, P2. destruct (cov c p).
    + rewrite P1 by reflexivity. lra.
    + rewrite P2 by discriminate. lra.
  - assert (G : forall nk, In nk (choice_keys kinds) -> (c_coef k (cvk nk) == choice_coef c (fst nk) (snd nk))%Q).
    { intros [n s] Hin. apply choice_keys_In in Hin. destruct Hin as [l Hin]. unfold cvk. simpl. rewrite (HC l n s Hin).
      unfold choice_coef. destruct c; reflexivity. }
    assert (E : (qsum (fun nk => c_coef k (cvk nk) * x (cvk nk)) (choice_keys kinds) ==
                qsum (fun nk => choice_coef c (fst nk) (snd nk) * x (cvk nk)) (choice_keys kinds))%Q).
    { apply qsum_ext. intros nk Hin. rewrite G by auto. reflexivity. }
    rewrite E. clear E. destruct c as [l|r|z|l n s]; try (apply qsum_zero; intros nk Hin; simpl; lra).
    rewrite (qsum_single key_dec _ _ (n, s)).
    + unfold choice_coef, cvk. simpl. rewrite !Nat.eqb_refl. simpl. lra.
    + apply NoDup_nodup.
    + apply choice_keys_In. exists l. eapply nth_error_In; eauto.
    + intros [n' s'] _ Hne. unfold choice_coef. simpl. destruct (Nat.eqb_spec n n') as [->|]; simpl; [|lra].
      destruct (Nat.eqb_spec s s') as [->|]; simpl; [|lra]. contradiction Hne. reflexivity.
Qed.

(** ** Feasible solutions *)

Section Feasible.
Variable x : nat -> Q.
Hypothesis Hx : lp_feasible m x.

Lemma feas_nonneg j : j < num_vars m -> (0 <= x j)%Q.
Proof.
  intros Hj. destruct (nth_error (lp_vars m) j) as [v|] eqn:E; [|apply nth_error_None in E; unfold num_vars in Hj; lia].
  destruct Hx as [H1 _]. specialize (H1 j v E). pose proof (fm_vars _ _ _ _ _ _ _ _ _ _ F v (nth_error_In _ _ E)) as ->.
  destruct H1 as [H1 _]. apply H1. reflexivity.
Qed.
Lemma feas_path p : In p paths -> (0 <= x (p_id p))%Q.
Proof. intros Hp. apply feas_nonneg. apply (fm_path_vars _ _ _ _ _ _ _ _ _ _ F). auto. Qed.

Lemma feas_con c : In c kinds -> exists k, In k (lp_cons m) /\ (c_lb k, c_ub k) = kind_bounds c /\
  in_bounds (fst (kind_bounds c)) (snd (kind_bounds c))
    (qsum (fun p => if cov c p then x (p_id p) else 0) paths + match c with KChoice _ n s => - x (cv n s) | _ => 0 end)%Q.
Proof.
  intros Hc. apply In_nth_error in Hc. destruct Hc as [i Hi].
  destruct (Forall2_nth_error _ _ _ _ _ (fm_cons _ _ _ _ _ _ _ _ _ _ F) Hi) as (k & Hk & HB & _).
  exists k. split; [eapply nth_error_In; eauto|]. split; auto. destruct Hx as [_ H2]. specialize (H2 i k Hk).
  rewrite <- HB. simpl. pose proof (form_activity i c k x Hi Hk) as E. destruct H2 as [L U]. split; intros b Hb.
  - rewrite <- E. auto.
  - rewrite <- E. auto.
Qed.

Lemma feas_leaf l : l < length leaves -> (qsum (fun p => if p_leaf p =? l then x (p_id p) else 0) paths == 1)%Q.
Proof.
  intros Hl. destruct (feas_con (KLeaf l)) as (k & _ & _ & [L U]); [apply (fm_leaves _ _ _ _ _ _ _ _ _ _ F); auto|].
  specialize (L 1%Q eq_refl). specialize (U 1%Q eq_refl). simpl in L, U. lra.
Qed.
Lemma feas_row r : In r rows -> (qsum (fun p => if cov (KRow r) p then x (p_id p) else 0) paths <= 1)%Q.
Proof.
  intros Hr. destruct (feas_con (KRow r)) as (k & _ & _ & [L U]); [apply (fm_rows _ _ _ _ _ _ _ _ _ _ F); auto|].
  specialize (U 1%Q eq_refl). lra.
Qed.
Lemma feas_cut z : In z cuts -> (qsum (fun p => if cov (KCut z) p then x (p_id p) else 0) paths == 1)%Q.
Proof.
  intros Hr. destruct (feas_con (KCut z)) as (k & _ & _ & [L U]); [apply (fm_cuts _ _ _ _ _ _ _ _ _ _ F); auto|].
  specialize (L 1%Q eq_refl). specialize (U 1%Q eq_refl). lra.
Qed.
Lemma feas_choice l n k : In (KChoice l n k) kinds ->
  (qsum (fun p => if cov (KChoice l n k) p then x (p_id p) else 0) paths == x (cv n k))%Q.
Proof.
  intros Hk. destruct (feas_con (KChoice l n k) Hk) as (c & _ & _ & [L U]).
  specialize (L 0%Q eq_refl). specialize (U 0%Q eq_refl). lra.
Qed.
End Feasible.
End Form.
